(** The ring and the sampler. *)
From Coq Require Import List ZArith Bool Lia.
From Verif.Lib Require Import Base ListX.
From Verif.Window Require Import Model Spec.
Import ListNotations.
Open Scope nat_scope.

Lemma mod_inj s n i j : i < n -> j < n -> (s + i) mod n = (s + j) mod n -> i = j.
Proof.
  intros A B E. assert (N : n <> 0) by lia. pose proof (Nat.div_mod (s + i) n N). pose proof (Nat.div_mod (s + j) n N). rewrite E in *.
  assert ((s + i) / n = (s + j) / n \/ (s + i) / n < (s + j) / n \/ (s + j) / n < (s + i) / n) by lia. destruct H1 as [Q|[Q|Q]]; [rewrite Q in *; lia|nia|nia].
Qed.
Lemma mod_succ s n i : n <> 0 -> ((s + 1) mod n + i) mod n = (s + S i) mod n.
Proof. intros N. rewrite Nat.add_mod_idemp_l by exact N. f_equal. lia. Qed.
Lemma mod_start s n : s < n -> (s + 0) mod n = s.
Proof. intros H. rewrite Nat.add_0_r. apply Nat.mod_small. exact H. Qed.

Section Queue.
Context {T : Type}.
Definition rep (q : queue T) (l : list T) : Prop :=
  length (items q) = cap q /\ length l = count q /\ count q <= cap q /\ (cap q = 0 \/ start q < cap q) /\
  forall i x, nth_error l i = Some x -> nth ((start q + i) mod cap q) (items q) None = Some x.

Lemma rep_new n : rep (new_queue n) [].
Proof.
  unfold rep, new_queue. cbn [items cap count start length]. rewrite repeat_length. split; [reflexivity|]. split; [reflexivity|]. split; [lia|]. split; [lia|].
  intros [|i] x H; discriminate H.
Qed.

Lemma push_rep q l x : rep q l -> length l < cap q -> rep (push q x) (l ++ [x]) /\ cap (push q x) = cap q.
Proof.
  intros (A & B & C & D & E) L. unfold push. destruct (Nat.ltb_spec (count q) (cap q)) as [_|G]; [|lia]. split; [|reflexivity].
  unfold rep. cbn [items cap count start]. rewrite lset_length, app_length. cbn [length]. split; [exact A|]. split; [lia|]. split; [lia|]. split; [exact D|].
  intros i y H. destruct (Nat.lt_ge_cases i (length l)) as [I|I].
  - rewrite nth_error_app1 in H by exact I. rewrite nth_lset_other; [apply E; exact H|]. unfold mod_. intros Q. apply mod_inj in Q; lia.
  - rewrite nth_error_app2 in H by exact I. destruct (i - length l) as [|k] eqn:K; [|destruct k; discriminate H]. cbn in H. injection H as <-.
    replace i with (count q) by lia. apply nth_lset_same. rewrite A. unfold mod_. apply Nat.mod_upper_bound. lia.
Qed.

Lemma pop_rep q l : rep q l ->
  match l with
  | [] => pop q = Ok None
  | x :: m => exists q', pop q = Ok (Some (x, q')) /\ rep q' m
  end.
Proof.
  intros (A & B & C & D & E). unfold pop. destruct l as [|x m]; cbn [length] in B; [rewrite <- B; reflexivity|]. rewrite <- B.
  assert (D' : start q < cap q) by lia. pose proof (E 0 x eq_refl) as E0. rewrite mod_start in E0 by exact D'. unfold slot. rewrite E0. cbn [bind].
  eexists. split; [reflexivity|]. unfold rep. cbn [items cap count start]. rewrite lset_length. split; [exact A|]. split; [reflexivity|]. split; [lia|].
  split; [right; apply Nat.mod_upper_bound; lia|]. intros i y H. unfold mod_. rewrite mod_succ by lia. assert (i < length m) by (apply nth_error_Some; congruence).
  rewrite nth_lset_other; [apply (E (S i)); exact H|]. rewrite <- (mod_start (start q) (cap q) D') at 1. intros Q. apply mod_inj in Q; lia.
Qed.

Lemma move_rep l : forall n q r m, rep q l -> rep r m -> length m + length l <= cap r -> length l <= n ->
  exists r', move n q r = Ok r' /\ rep r' (m ++ l) /\ cap r' = cap r.
Proof.
  induction l as [|x l IH]; intros n q r m Q R C N; pose proof (pop_rep q _ Q) as P; destruct n as [|n]; cbn [move]; cbn [length] in *; try lia.
  - rewrite P. cbn [bind]. rewrite app_nil_r. eauto.
  - rewrite P. cbn [bind]. rewrite app_nil_r. eauto.
  - destruct P as (q' & P & Q'). rewrite P. cbn [bind]. destruct (push_rep r m x R) as (R1 & C1); [lia|].
    destruct (IH n q' (push r x) (m ++ [x]) Q' R1) as (r' & E & R2 & C2); [rewrite app_length; cbn; lia|lia|]. exists r'. rewrite <- app_assoc in R2. split; [exact E|]. split; [exact R2|congruence].
Qed.

Lemma elim_rep q l x : rep q l -> 0 < cap q ->
  exists q', elim_push q x = Ok q' /\ cap q' = cap q /\ rep q' (if length l <? cap q then l ++ [x] else tl l ++ [x]).
Proof.
  intros R P. destruct (Nat.ltb_spec (length l) (cap q)) as [L|L]; pose proof R as (A & B & C & D & E); unfold elim_push.
  - destruct (Nat.ltb_spec (count q) (cap q)); [|lia]. destruct (push_rep q l x R L) as (R1 & C1). eauto.
  - destruct (Nat.ltb_spec (count q) (cap q)); [lia|]. destruct (Nat.eqb_spec (cap q) 0); [lia|]. eexists. split; [reflexivity|]. split; [reflexivity|].
    destruct l as [|y m]; cbn [length tl] in *; [lia|]. unfold rep. cbn [items cap count start]. rewrite lset_length, app_length. cbn [length].
    split; [exact A|]. split; [lia|]. split; [lia|]. split; [right; apply Nat.mod_upper_bound; lia|].
    intros i v H1. unfold mod_. rewrite mod_succ by lia. assert (D' : start q < cap q) by lia. destruct (Nat.lt_ge_cases i (length m)) as [I|I].
    + rewrite nth_error_app1 in H1 by exact I. rewrite nth_lset_other; [apply (E (S i)); exact H1|]. rewrite <- (mod_start (start q) (cap q) D') at 1. intros Q. apply mod_inj in Q; lia.
    + rewrite nth_error_app2 in H1 by exact I. destruct (i - length m) as [|k] eqn:K; [|destruct k; discriminate H1]. cbn in H1. injection H1 as <-.
      replace (start q + S i) with (start q + 1 * cap q) by lia. rewrite Nat.mod_add by lia. rewrite Nat.mod_small by exact D'. apply nth_lset_same. lia.
Qed.

Lemma bottom_rep q l i : rep q l -> i < length l -> exists p, bottom q i = Some p /\ (forall x, nth_error (rev l) i = Some x -> slot q p = Ok x) /\
  (forall j, j < length l -> bottom q j = Some p -> i = j).
Proof.
  intros (A & B & C & D & E) L. unfold bottom. destruct (Nat.ltb_spec i (count q)); [|lia]. eexists. split; [reflexivity|].
  replace (start q + count q - i - 1) with (start q + (count q - i - 1)) by lia. split.
  - intros x H1. unfold slot, mod_. rewrite (E (count q - i - 1) x); [reflexivity|]. rewrite <- B.
    clear -H1 L. apply nth_error_nth with (d := x) in H1. rewrite rev_nth in H1 by exact L.
    rewrite <- H1. replace (length l - S i) with (length l - i - 1) by lia. apply nth_error_nth'. lia.
  - intros j J Q. destruct (Nat.ltb_spec j (count q)); [|lia]. injection Q as Q. unfold mod_ in Q.
    replace (start q + count q - j - 1) with (start q + (count q - j - 1)) in Q by lia. apply mod_inj in Q; lia.
Qed.
Lemma bottom_past q l i : rep q l -> length l <= i -> bottom q i = None.
Proof. intros (A & B & _) L. unfold bottom. destruct (Nat.ltb_spec i (count q)); [lia|reflexivity]. Qed.
Lemma top_bottom q l : rep q l -> l <> [] -> top q = bottom q (length l - 1).
Proof.
  intros (A & B & C & D & E) N. destruct l as [|x m]; [congruence|]. cbn [length] in *. unfold top, bottom. rewrite <- B. cbn [Nat.ltb Nat.leb].
  replace (S (length m) - 1) with (length m) by lia. destruct (Nat.leb_spec (length m) (length m)); [|lia]. f_equal. unfold mod_.
  replace (start q + S (length m) - length m - 1) with (start q) by lia. symmetry. apply Nat.mod_small. lia.
Qed.
End Queue.

Section Sampler.
Context {T : Type}.
Implicit Types (s : sampler T) (q : queue (sample T)).

Lemma collect_rep q l c p : rep q l -> c < length l -> bottom q c = Some p ->
  forall k i n, i + k = c -> k < n -> collect n q i p = Ok (map data (firstn k (skipn i (rev l)))).
Proof.
  intros R C P. induction k as [|k IH]; intros i n S N; (destruct n as [|n]; [lia|]); cbn [collect].
  - destruct (bottom_rep q l i R) as (e & B & _ & _); [lia|]. rewrite B. replace i with c in B by lia. rewrite B in P. injection P as ->. rewrite Nat.eqb_refl. reflexivity.
  - destruct (bottom_rep q l i R) as (e & B & V & U); [lia|]. rewrite B. destruct (Nat.eqb_spec e p) as [->|NE]; [specialize (U c C P); lia|].
    assert (LR : i < length (rev l)) by (rewrite rev_length; lia). destruct (nth_error (rev l) i) as [x|] eqn:X; [|apply nth_error_None in X; lia].
    rewrite (V x eq_refl). cbn [bind]. rewrite (IH (Datatypes.S i) n) by lia. cbn [bind].
    replace (skipn i (rev l)) with (x :: skipn (Datatypes.S i) (rev l)); [reflexivity|].
    clear -X. revert i X. induction (rev l) as [|y m IH]; intros [|i] X; try discriminate; [injection X as ->; reflexivity|]. cbn [skipn]. apply IH. exact X.
Qed.

Lemma oldest_rep s l w : rep (que s) l -> l <> [] -> (0 < w)%Z -> oldest s w = bottom (que s) (Nat.min (Z.to_nat w) (length l - 1)).
Proof.
  intros R N W. assert (0 < length l) by (destruct l; [congruence|cbn; lia]). unfold oldest. destruct (Nat.lt_ge_cases (Z.to_nat w) (length l)) as [L|L].
  - rewrite Nat.min_l by lia. destruct (bottom_rep _ _ _ R L) as (p & -> & _). reflexivity.
  - rewrite Nat.min_r by lia. rewrite (bottom_past _ _ _ R L). apply top_bottom; assumption.
Qed.

Lemma get_value_rep op inv s l w : rep (que s) l -> l <> [] -> (0 < w)%Z ->
  exists r, get_value op inv s w = Ok r /\ shown op inv (Nat.min (Z.to_nat w) (length l - 1)) (rev l) r.
Proof.
  intros R N W. assert (L0 : 0 < length l) by (destruct l; [congruence|cbn; lia]). unfold get_value. destruct (Z.leb_spec w 0); [lia|].
  pose proof R as (_ & B & _). destruct (Nat.leb_spec (count (que s)) 1) as [C|C].
  - exists None. split; [reflexivity|]. replace (Nat.min (Z.to_nat w) (length l - 1)) with 0 by lia. reflexivity.
  - rewrite (oldest_rep s l w R N W). set (c := Nat.min (Z.to_nat w) (length l - 1)). assert (CC : 1 <= c < length l) by lia.
    destruct (bottom_rep _ _ c R) as (p & P & PV & PU); [lia|]. destruct (bottom_rep _ _ 0 R L0) as (b & Q & QV & QU). rewrite P, Q.
    destruct (Nat.eqb_spec b p) as [->|NE]; [specialize (PU 0 L0 Q); lia|].
    assert (LR : length (rev l) = length l) by apply rev_length.
    destruct (nth_error (rev l) 0) as [new|] eqn:X0; [|apply nth_error_None in X0; lia]. destruct (nth_error (rev l) c) as [old|] eqn:XC; [|apply nth_error_None in XC; lia].
    rewrite (QV _ eq_refl), (PV _ eq_refl). cbn [bind]. rewrite (collect_rep _ _ c p R ltac:(lia) P (c - 1) 1) by lia. cbn [bind].
    destruct (rev l) as [|y m] eqn:RL; [discriminate X0|]. cbn in X0. injection X0 as ->.
    destruct c as [|k] eqn:K; [lia|]. cbn [nth_error] in XC. destruct (nth_error_split m k XC) as (mid & rest & ME & ML).
    assert (FM : firstn (Datatypes.S k - 1) (skipn 1 (new :: m)) = mid).
    { cbn [skipn]. rewrite ME. replace (Datatypes.S k - 1) with (length mid) by lia. rewrite firstn_app, Nat.sub_diag, firstn_all. cbn. apply app_nil_r. }
    rewrite FM. change (2 ^ 64)%Z with 18446744073709551616%Z. destruct inv as [m'|]; cbn [bind]; (eexists; split; [reflexivity|]; cbn [shown]; exists new, mid, old, rest; split; [rewrite ME; reflexivity|]; split; [exact ML|reflexivity]).
Qed.

Lemma get_samples_rep s l w : rep (que s) l -> l <> [] -> (0 < w)%Z ->
  get_samples s w = Ok (map data (firstn (Nat.min (Z.to_nat w) (length l - 1) - 1) (skipn 1 (rev l)))).
Proof.
  intros R N W. assert (L0 : 0 < length l) by (destruct l; [congruence|cbn; lia]). unfold get_samples. destruct (Z.leb_spec w 0); [lia|].
  pose proof R as (_ & B & _). destruct (Nat.leb_spec (count (que s)) 1) as [C|C].
  - replace (Nat.min (Z.to_nat w) (length l - 1) - 1) with 0 by lia. reflexivity.
  - rewrite (oldest_rep s l w R N W). set (c := Nat.min (Z.to_nat w) (length l - 1)). destruct (bottom_rep _ _ c R) as (p & P & _ & _); [lia|]. rewrite P.
    apply (collect_rep _ _ c p R); lia || exact P.
Qed.

Definition good (h : list (sample T)) (s : sampler T) : Prop :=
  (1 <= win s <= 3600)%Z /\ (Z.of_nat (cap (que s)) <= 7200)%Z /\ 2 <= cap (que s) /\
  exists l, rep (que s) l /\ l <> [] /\ rev l = firstn (length l) h.

Lemma take_rep s l x : rep (que s) l -> (1 <= win s <= 3600)%Z -> (Z.of_nat (cap (que s)) <= 7200)%Z ->
  exists s', take s x = Ok s' /\ win s' = win s /\ (Z.of_nat (cap (que s')) <= 7200)%Z /\ (win s < Z.of_nat (cap (que s')))%Z /\ cap (que s) <= cap (que s') /\
    rep (que s') (if length l <? cap (que s') then l ++ [x] else tl l ++ [x]).
Proof.
  intros R W C. pose proof R as (_ & B & BC & _). unfold take. destruct (Z.ltb_spec (Z.of_nat (cap (que s))) (win s + 1)) as [G|G].
  - set (n := Nat.max (cap (que s) * 2) (Z.to_nat (win s + 1))).
    destruct (move_rep l (count (que s)) (que s) (new_queue n) [] R (rep_new n)) as (q & M & R1 & C1); [cbn [new_queue cap length]; lia|lia|]. rewrite M. cbn [bind app] in *.
    cbn [new_queue cap] in C1. destruct (elim_rep q l x R1) as (q' & E & C2 & R2); [lia|]. rewrite E. cbn [bind]. rewrite <- C2 in R2. eexists. split; [reflexivity|]. cbn [win que]. split; [reflexivity|]. split; [lia|]. split; [lia|]. split; [lia|exact R2].
  - cbn [bind]. destruct (elim_rep (que s) l x R) as (q' & E & C2 & R2); [lia|]. rewrite E. cbn [bind]. rewrite <- C2 in R2. eexists. split; [reflexivity|]. cbn [win que]. split; [reflexivity|]. split; [lia|]. split; [lia|]. split; [lia|exact R2].
Qed.

Lemma firstn_removelast {A} (l : list A) h : rev l = firstn (length l) h -> rev (tl l) = firstn (length (tl l)) h.
Proof.
  destruct l as [|y m]; cbn [tl rev length]; [intros _; reflexivity|]. intros H. assert (E : firstn (length m) (rev m ++ [y]) = firstn (length m) (firstn (S (length m)) h)) by (rewrite H; reflexivity).
  rewrite firstn_firstn, Nat.min_l in E by lia. rewrite <- E, firstn_app, rev_length, Nat.sub_diag. rewrite firstn_all2 by (rewrite rev_length; lia). cbn. symmetry. apply app_nil_r.
Qed.

Lemma take_good h s x : good h s -> exists s', take s x = Ok s' /\ good (x :: h) s' /\ win s' = win s /\
  (win s < Z.of_nat (cap (que s')))%Z /\ count (que s') = Nat.min (S (count (que s))) (cap (que s')).
Proof.
  intros (W & C & C2 & l & R & N & H). destruct (take_rep s l x R W C) as (s' & E & W1 & CC & CW & CM & R1). exists s'. split; [exact E|].
  assert (L0 : 0 < length l) by (destruct l; [congruence|cbn; lia]). pose proof R as (_ & B & BC & _). pose proof R1 as (_ & B1 & _). split; [|split; [exact W1|split; [exact CW|]]].
  - split; [rewrite W1; exact W|]. split; [exact CC|]. split; [lia|]. eexists. split; [exact R1|]. destruct (Nat.ltb_spec (length l) (cap (que s'))) as [L|L].
    + split; [destruct l; discriminate|]. rewrite rev_app_distr, app_length, Nat.add_1_r. cbn [rev app firstn]. rewrite H. reflexivity.
    + split; [destruct (tl l); discriminate|]. rewrite rev_app_distr, app_length, Nat.add_1_r. cbn [rev app firstn]. rewrite (firstn_removelast l h H). reflexivity.
  - rewrite <- B1, <- B. destruct (Nat.ltb_spec (length l) (cap (que s'))) as [L|L]; rewrite app_length; cbn [length]; [lia|]. destruct l as [|y m]; [cbn in L0; lia|]. cbn [tl length] in *. lia.
Qed.

Lemma set_good h s w : good h s -> good h (fst (set_window s w)) /\ (win s <= win (fst (set_window s w)))%Z /\ que (fst (set_window s w)) = que s.
Proof.
  intros (W & C & C2 & l & R & N & H). unfold set_window. destruct (Z.leb_spec w 0); cbn [orb fst]; [repeat split; eauto; lia|].
  destruct (Z.ltb_spec 3600 w); cbn [fst]; [repeat split; eauto; lia|]. destruct (Z.ltb_spec (win s) w); cbn [win que]; (split; [split; [cbn [win]; lia|]; cbn [que]; eauto 8|split; [lia|reflexivity]]).
Qed.

Definition samples_of (l : list (op_ T)) : list (sample T) := concat (map (fun a => match a with HTake y => [y] | HSet _ => [] end) l).

Lemma run_good l : forall h s, good h s -> exists s', run l s = Ok s' /\ good (rev (samples_of l) ++ h) s' /\ (win s <= win s')%Z /\
  forall m, m <= count (que s) -> (Z.of_nat m <= win s + 1)%Z -> count (que s') >= Nat.min (m + length (samples_of l)) (Z.to_nat (win s + 1)).
Proof.
  induction l as [|[x|w] l IH]; intros h s G; cbn [run].
  - exists s. split; [reflexivity|]. split; [exact G|]. split; [lia|]. intros m M MW. cbn. lia.
  - destruct (take_good h s x G) as (s1 & E & G1 & W1 & C1 & N1). rewrite E. cbn [bind]. destruct (IH (x :: h) s1 G1) as (s' & R & G' & W' & K). exists s'. split; [exact R|].
    change (samples_of (HTake x :: l)) with (x :: samples_of l). cbn [rev length]. rewrite <- app_assoc. cbn [app]. split; [exact G'|]. split; [lia|]. intros m M MW.
    destruct (Nat.le_gt_cases (S m) (cap (que s1))) as [Q|Q].
    + specialize (K (Nat.min (S m) (Z.to_nat (win s + 1))) ltac:(lia) ltac:(lia)). rewrite W1 in K. lia.
    + specialize (K (Z.to_nat (win s + 1)) ltac:(lia) ltac:(lia)). rewrite W1 in K. lia.
  - destruct (set_good h s w G) as (G1 & W1 & Q1). destruct (IH h _ G1) as (s' & R & G' & W' & K). exists s'. split; [exact R|]. split; [exact G'|]. split; [lia|]. intros m M MW.
    rewrite Q1 in K. specialize (K m M ltac:(lia)). change (samples_of (HSet w :: l)) with (samples_of l). lia.
Qed.

Lemma new_good x : exists s, new_sampler x = Ok s /\ good [x] s /\ count (que s) = 1.
Proof.
  unfold new_sampler. eexists. split; [reflexivity|]. split; [|reflexivity]. split; [split; vm_compute; discriminate|]. split; [vm_compute; discriminate|]. split; [vm_compute; lia|]. exists [x]. split; [|split; [discriminate|reflexivity]].
  unfold rep. split; [reflexivity|]. split; [reflexivity|]. split; [vm_compute; lia|]. split; [right; vm_compute; lia|]. intros [|[|i]] y H; try discriminate. cbn in H. injection H as <-. reflexivity.
Qed.

Lemma taken_rev x (l : list (op_ T)) : taken x l = rev (samples_of l) ++ [x].
Proof. reflexivity. Qed.

(** Any life of a sampler. *)
Lemma life_good x l : exists s, life x l = Ok s /\ good (taken x l) s.
Proof.
  destruct (new_good x) as (s0 & E & G & _). unfold life. rewrite E. cbn [bind]. destruct (run_good l [x] s0 G) as (s & R & G' & _). exists s. rewrite taken_rev. auto.
Qed.

Lemma good_ops op inv h s w : good h s -> (0 < w)%Z ->
  exists r, get_value op inv s w = Ok r /\ shown op inv (Nat.min (Z.to_nat w) (count (que s) - 1)) h r.
Proof.
  intros (W & C & C2 & l & R & N & H) P. destruct (get_value_rep op inv s l w R N P) as (r & E & S). exists r. split; [exact E|]. pose proof R as (_ & B & _). rewrite B in S.
  destruct (Nat.min (Z.to_nat w) (count (que s) - 1)) as [|k]; [exact S|]. destruct S as (new & mid & old & rest & A & L & V). exists new, mid, old, (rest ++ skipn (length l) h).
  split; [|split; [exact L|exact V]]. rewrite <- (firstn_skipn (length l) h) at 1. rewrite <- H, A. cbn [app]. rewrite <- app_assoc. reflexivity.
Qed.
Lemma good_samples h s w : good h s -> (0 < w)%Z ->
  get_samples s w = Ok (map data (firstn (Nat.min (Z.to_nat w) (count (que s) - 1) - 1) (tl h))).
Proof.
  intros (W & C & C2 & l & R & N & H) P. rewrite (get_samples_rep s l w R N P). pose proof R as (_ & B & _). rewrite B. f_equal. f_equal. rewrite H, B.
  destruct h as [|y h']; [destruct l as [|? ?]; [congruence|]; apply (f_equal (@length _)) in H; rewrite rev_length in H; discriminate H|].
  assert (0 < count (que s)) by (rewrite <- B; destruct l; [congruence|cbn; lia]). destruct (count (que s)) as [|n]; [lia|]. cbn [firstn skipn tl]. rewrite firstn_firstn. f_equal. lia.
Qed.
Lemma good_size h s : good h s -> count (que s) <= length h.
Proof.
  intros (W & C & C2 & l & R & N & H). pose proof R as (_ & B & _). rewrite <- B. apply (f_equal (@length _)) in H. rewrite rev_length, firstn_length in H. lia.
Qed.
End Sampler.
