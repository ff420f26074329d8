(** Windows over a sampler's life. *)
From Coq Require Import List ZArith Bool Lia.
From Verif.Lib Require Import Base ListX.
From Verif.Percentile Require Model.
From Verif.Window Require Import Model Spec ProofsQueue ProofsSeries.
Import ListNotations.
Open Scope nat_scope.

Lemma run_app {T} (a b : list (op_ T)) : forall s, run (a ++ b) s = bind (run a s) (run b).
Proof.
  induction a as [|[x|w] a IH]; intros s; [reflexivity| |]; cbn [app run].
  - destruct (take s x); cbn [bind]; [apply IH|reflexivity..].
  - apply IH.
Qed.
Lemma takes_samples {T} (l : list (op_ T)) : takes l = length (samples_of l).
Proof. reflexivity. Qed.

Lemma always {T} (op : T -> T -> T) inv x l : exists s, life x l = Ok s /\ (Z.of_nat (cap (que s)) <= 7200)%Z /\
  forall w, exists c r, get_value op inv s w = Ok r /\ shown op inv c (taken x l) r /\ c <= takes l /\ (Z.of_nat c <= Z.max w 0)%Z.
Proof.
  destruct (life_good x l) as (s & E & G). exists s. split; [exact E|]. split; [apply G|]. intros w. destruct (Z.leb_spec w 0) as [W|W].
  - exists 0, None. unfold get_value. destruct (Z.leb_spec w 0); [|lia]. split; [reflexivity|]. split; [reflexivity|]. lia.
  - destruct (good_ops op inv (taken x l) s w G W) as (r & V & S). eexists _, r. split; [exact V|]. split; [exact S|].
    pose proof (good_size _ _ G) as Q. rewrite taken_rev, app_length, rev_length, <- takes_samples in Q. cbn [length] in Q. lia.
Qed.

Lemma window_right {T} (op : T -> T -> T) inv x a w b v : (0 < w <= 3600)%Z -> (0 < v <= w)%Z ->
  exists s c r, life x (a ++ HSet w :: b) = Ok s /\ get_value op inv s v = Ok r /\ shown op inv c (taken x (a ++ HSet w :: b)) r /\
    (Z.min v (Z.of_nat (takes b)) <= Z.of_nat c <= v)%Z /\ get_samples s v = Ok (map data (firstn (c - 1) (tl (taken x (a ++ HSet w :: b))))).
Proof.
  intros W V. destruct (life_good x (a ++ HSet w :: b)) as (s & E & G). destruct (good_ops op inv _ s v G ltac:(lia)) as (r & GV & S).
  exists s, (Nat.min (Z.to_nat v) (count (que s) - 1)), r. split; [exact E|]. split; [exact GV|]. split; [exact S|]. split; [|apply good_samples; [exact G|lia]].
  unfold life in E. destruct (new_good x) as (s0 & E0 & G0 & _). rewrite E0 in E. cbn [bind] in E. rewrite run_app in E.
  destruct (run_good a [x] s0 G0) as (s1 & R1 & G1 & _). rewrite R1 in E. cbn [bind run] in E.
  destruct (set_good _ s1 w G1) as (G2 & W2 & Q2). destruct (run_good b _ _ G2) as (s' & R2 & _ & _ & K). rewrite R2 in E. injection E as <-.
  assert (WW : (w <= win (fst (set_window s1 w)))%Z).
  { unfold set_window. destruct (Z.leb_spec w 0); [lia|]. destruct (Z.ltb_spec 3600 w); [lia|]. cbn [orb fst win]. destruct (Z.ltb_spec (win s1) w); lia. }
  assert (C1 : 1 <= count (que s1)) by (destruct G1 as (_ & _ & _ & l & (_ & B & _) & N & _); rewrite <- B; destruct l; [congruence|cbn; lia]).
  rewrite Q2 in K. specialize (K 1 C1 ltac:(destruct G2; lia)). rewrite <- takes_samples in K. lia.
Qed.

(** Running totals: the difference is the sum of what was added. *)
Lemma zsum_skipn (ds : list Z) k : fold_right Z.add 0%Z ds = (fold_right Z.add 0 (firstn k ds) + fold_right Z.add 0 (skipn k ds))%Z.
Proof. revert ds. induction k as [|k IH]; intros ds; [reflexivity|]. destruct ds as [|d ds]; [reflexivity|]. cbn [firstn skipn fold_right]. rewrite (IH ds). lia. Qed.
Lemma totals c h r (ds : list Z) : shown Z.add (Some Z.sub) c h (Some r) -> (forall i x, nth_error h i = Some x -> data x = fold_right Z.add 0%Z (skipn i ds)) ->
  data r = fold_right Z.add 0%Z (firstn c ds).
Proof.
  destruct c as [|k]; cbn [shown]; [discriminate|]. intros (new & mid & old & rest & -> & L & E) H. injection E as ->. cbn [data].
  rewrite (H 0 new eq_refl), (H (S k) old); [|cbn [nth_error]; rewrite nth_error_app2 by lia; rewrite L, Nat.sub_diag; reflexivity]. cbn [skipn]. rewrite (zsum_skipn ds (S k)).
  change (match ds with [] => [] | _ :: l => skipn k l end) with (skipn (S k) ds). lia.
Qed.

Lemma one_second {T} (x : sample T) l s : life x l = Ok s -> get_samples s 1 = Ok [].
Proof.
  intros E. destruct (life_good x l) as (s' & E' & G). rewrite E in E'. injection E' as <-. rewrite (good_samples _ _ 1 G) by lia.
  replace (Nat.min (Z.to_nat 1) (count (que s) - 1) - 1) with 0 by lia. reflexivity.
Qed.
Lemma none_percentile o : Percentile.Model.percentile 0 [] o = Ok 0%Z.
Proof. reflexivity. Qed.
Lemma one_second_percentile (x : sample Percentile.Model.group) l s o : life x l = Ok s ->
  exists gs, get_samples s 1 = Ok gs /\ Percentile.Model.percentile 0 gs o = Ok 0%Z.
Proof. intros E. exists []. split; [eapply one_second; exact E|apply none_percentile]. Qed.

Lemma window_size {T} (s : sampler T) w conf : let v := (if (0 <? w)%Z then w else conf) in
  ((1 <= v <= 3600)%Z -> exists s', window s w conf = Ok (s', v)) /\ (~ (1 <= v <= 3600)%Z -> window s w conf = Abort).
Proof.
  cbv zeta. unfold window, set_window. set (v := if (0 <? w)%Z then w else conf). destruct (Z.leb_spec v 0); cbn [orb]; [split; [lia|reflexivity]|].
  destruct (Z.ltb_spec 3600 v); [split; [lia|reflexivity]|]. split; [eauto|lia].
Qed.
