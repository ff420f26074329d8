(** Combining groups and finding a percentile. *)
From Coq Require Import List ZArith Bool Lia Permutation.
From Verif.Lib Require Import Base ListX Count.
From Verif.Percentile Require Import Model Spec ProofsLog ProofsMerge.
Import ListNotations.
Open Scope Z_scope.

(** [v] counts l and has some of it. *)
Definition part (n : Z) (l : list Z) (v : interval) : Prop :=
  added v = len l /\ sorted v = false /\ len (samples v) <= n /\ exists rest, Permutation l (samples v ++ rest).

Lemma part_fresh n : 0 <= n -> part n [] fresh.
Proof. intros N. repeat split; [cbn; lia|]. exists []. reflexivity. Qed.

Lemma merge_some_spec n n2 l m v w k o : 0 < n -> part n l v -> sampled n2 m w -> 0 <= k <= len (samples w) -> len l + len m < 2 ^ 32 ->
  exists v' o', merge_some n v w k o = Ok (v', o') /\ part n (l ++ m) v' /\ len (samples v') = Z.min n (len (samples v) + k).
Proof.
  intros N (A1 & C1 & B1 & rest1 & D1) (A2 & B2 & C2 & rest2 & D2) K W. pose proof (len_pos l). pose proof (len_pos m).
  unfold merge_some, size. fold (len (samples v)) (len (samples w)). destruct (Z.ltb_spec (len (samples w)) k); [lia|]. cbv zeta.
  assert (SU : u32 (added v + added w) = len (l ++ m)) by (rewrite A1, A2, len_app; apply Z.mod_small; unfold two32; lia). rewrite SU.
  assert (PM : forall s rest, Permutation (samples v ++ samples w) (s ++ rest) -> Permutation (l ++ m) (s ++ rest ++ rest1 ++ rest2)).
  { intros s rest P. eapply Permutation_trans; [apply Permutation_app; eassumption|].
    eapply Permutation_trans; [|rewrite app_assoc; apply Permutation_app_tail; exact P]. rewrite <- !app_assoc. apply Permutation_app_head.
    rewrite !app_assoc. apply Permutation_app_tail. apply Permutation_app_comm. }
  destruct ((len (samples v) + k <=? n) && (k =? len (samples w))) eqn:E.
  - apply andb_true_iff in E. destruct E as (E1 & E2). apply Z.leb_le in E1. apply Z.eqb_eq in E2. eexists _, _. split; [reflexivity|]. repeat split; cbn [added samples sorted].
    + exact C1.
    + rewrite len_app. lia.
    + exists ([] ++ rest1 ++ rest2). apply PM. rewrite app_nil_r. reflexivity.
    + rewrite len_app. lia.
  - destruct (draw_spec n (Z.to_nat k) N (samples w) (samples v) o) as (rest & P & Q); [unfold len in *; lia|exact B1|].
    destruct (draw n (Z.to_nat k) (samples w) (samples v) o) as [s o1]. cbn [fst] in *. eexists _, _. split; [reflexivity|]. repeat split; cbn [added samples sorted].
    + exact C1.
    + lia.
    + exists (rest ++ rest1 ++ rest2). apply PM. exact P.
    + lia.
Qed.

Lemma combine_at_spec n t : 0 < n -> forall ls col, Forall2 (sampled 254) ls col -> forall l v o, part n l v -> len l + len (concat ls) < 2 ^ 32 -> 0 < t ->
  exists v' o', combine_at n t col v o = Ok (v', o') /\ part n (l ++ concat ls) v' /\ len (samples v) <= len (samples v') /\
    (n < t -> Exists (fun m => m <> [] /\ t <= len m * n) ls -> 0 < len (samples v')) /\
    (t <= n -> len (samples v) + len (concat ls) <= n -> Forall (fun m => len m <= 254) ls -> len (samples v') = len (samples v) + len (concat ls)) /\
    (t <= n -> concat ls <> [] -> 0 < len (samples v')).
Proof.
  intros N ls col F. induction F as [|m w ls col HW F IH]; intros l v o HV W T.
  - exists v, o. cbn [combine_at concat]. rewrite app_nil_r. split; [reflexivity|]. split; [exact HV|]. split; [lia|]. split; [intros _ X; inversion X|].
    split; [intros _ _ _; change (len (@nil Z)) with 0; lia|]. intros _ X. contradiction.
  - cbn [combine_at concat] in *. rewrite len_app in W. pose proof (len_pos m) as LM. pose proof (len_pos (concat ls)) as LC. pose proof (len_pos l) as LL.
    pose proof HW as (A2 & B2 & _). unfold size. fold (len (samples w)). rewrite B2.
    destruct (Z.eqb_spec (Z.min (len m) 254) 0) as [E|E].
    { assert (m = []) as -> by (destruct m; [reflexivity|unfold len in E; cbn [length] in E; lia]).
      destruct (IH l v o HV ltac:(lia) T) as (v' & o' & R & P & S & X1 & X2 & X3). exists v', o'. split; [exact R|]. split; [exact P|]. split; [exact S|].
      split; [intros L X; apply X1; [exact L|]; inversion X as [? ? (Q & _)|]; subst; [contradiction|assumption]|].
      split; [intros L Y Z0; apply X2; [exact L|exact Y|inversion Z0; assumption]|]. intros L Y. apply X3; assumption. }
    assert (ML : m <> []) by (intros ->; apply E; reflexivity).
    destruct (Z.leb_spec t n) as [G|G].
    + destruct (merge_some_spec n 254 l m v w (Z.min (len m) 254) o N HV HW ltac:(lia) ltac:(lia)) as (v1 & o1 & R1 & P1 & S1). rewrite R1. cbn [bind].
      destruct (IH (l ++ m) v1 o1 P1 ltac:(rewrite len_app; lia) T) as (v' & o' & R & P & S & X1 & X2 & X3). exists v', o'. split; [exact R|].
      split; [rewrite app_assoc; exact P|]. destruct HV as (_ & _ & B1 & _). split; [lia|]. split; [lia|]. split.
      * intros _ Y Z0. rewrite len_app in Y. inversion Z0 as [|? ? Z1 Z2]; subst. rewrite X2; [rewrite len_app; lia|exact G|lia|exact Z2].
      * intros _ _. pose proof (len_pos (samples v)). lia.
    + assert (AN : 0 <= added w * n) by nia. destruct (round_range o (added w * n) t T AN) as (RG & _). destruct (round_of o (added w * n) t) as [r o1]. cbn [fst] in RG.
      assert (Q0 : 0 <= added w * n / t) by (apply Z.div_pos; lia).
      destruct (merge_some_spec n 254 l m v w (Z.min r (Z.min (len m) 254)) o1 N HV HW ltac:(lia) ltac:(lia)) as (v1 & o2 & R1 & P1 & S1). rewrite R1. cbn [bind].
      destruct (IH (l ++ m) v1 o2 P1 ltac:(rewrite len_app; lia) T) as (v' & o' & R & P & S & X1 & X2 & X3). exists v', o'. split; [exact R|].
      split; [rewrite app_assoc; exact P|]. pose proof (len_pos (samples v)). destruct HV as (_ & _ & B1 & _). split; [lia|]. split; [|split; lia].
      intros _ X. inversion X as [? ? (_ & Q)|? ? Q]; subst; [|apply X1; assumption].
      assert (1 <= added w * n / t) by (apply Z.div_le_lower_bound; lia). lia.
Qed.

(** The largest of at most n parts of t is at least t / n. *)
Lemma some_large n : 0 < n -> forall ls t, len ls <= n -> t = len (concat ls) -> 0 < t -> Exists (fun m : list Z => m <> [] /\ t <= len m * n) ls.
Proof.
  intros N ls t L -> T.
  destruct (Exists_dec (fun m : list Z => m <> [] /\ len (concat ls) <= len m * n) ls) as [E|E]; [|exact E|exfalso].
  { intros m. destruct m as [|x m]; [right; tauto|]. destruct (Z_le_gt_dec (len (concat ls)) (len (x :: m) * n)); [left; split; [discriminate|assumption]|right; lia]. }
  assert (B : forall m, In m ls -> len m * n < len (concat ls)).
  { intros m M. destruct m as [|x m]; [change (len (@nil Z)) with 0; lia|]. apply Z.nle_gt. intros C. apply E, Exists_exists. exists (x :: m). split; [exact M|]. split; [discriminate|exact C]. }
  set (t := len (concat ls)) in *.
  assert (Sm : len (concat ls) * n <= len ls * (t - 1)).
  { clear -B. clearbody t. induction ls as [|m ls IH]; [cbn; lia|]. cbn [concat]. rewrite len_app. pose proof (B m (or_introl eq_refl)).
    assert (len (concat ls) * n <= len ls * (t - 1)) by (apply IH; intros; apply B; right; assumption). unfold len in *. cbn [length]. lia. }
  fold t in Sm. nia.
Qed.

(** * Order *)
Lemma cnt_perm {A} (f : A -> bool) l m : Permutation l m -> cnt f l = cnt f m.
Proof. induction 1; cbn [cnt]; lia. Qed.
Lemma cnt_filter {A} (f p : A -> bool) l : cnt f (filter p l) = cnt (fun x => p x && f x) l.
Proof. induction l as [|x l IH]; [reflexivity|]. cbn [filter cnt]. destruct (p x); cbn [cnt andb b2n]; lia. Qed.
Lemma cnt_len {A} (l : list A) f : (forall x, In x l -> f x = true) -> cnt f l = length l.
Proof. induction l as [|x l IH]; intros H; [reflexivity|]. cbn [cnt length]. rewrite (H x (or_introl eq_refl)), IH; [cbn; lia|]. intros y Y. apply H. right. exact Y. Qed.
Lemma cnt_length_filter {A} (f : A -> bool) l : length (filter f l) = cnt f l.
Proof. induction l as [|x l IH]; [reflexivity|]. cbn [filter cnt]. destruct (f x); cbn [length b2n]; lia. Qed.
Lemma cnt_split {A} (f g h : A -> bool) l : (forall x, In x l -> b2n (f x) = (b2n (g x) + b2n (h x))%nat) -> cnt f l = (cnt g l + cnt h l)%nat.
Proof.
  induction l as [|x l IH]; intros H; [reflexivity|]. cbn [cnt]. rewrite (H x (or_introl eq_refl)), IH; [lia|]. intros y Y. apply H. right. exact Y.
Qed.
Lemma cnt_ext_in {A} (f g : A -> bool) l : (forall x, In x l -> f x = g x) -> cnt f l = cnt g l.
Proof. induction l as [|x l IH]; intros H; [reflexivity|]. cbn [cnt]. rewrite (H x (or_introl eq_refl)), IH; [reflexivity|]. intros y Y. apply H. right. exact Y. Qed.
Lemma cnt_pos_in {A} (f : A -> bool) l : (0 < cnt f l)%nat -> exists x, In x l /\ f x = true.
Proof.
  induction l as [|x l IH]; cbn [cnt]; [lia|]. destruct (f x) eqn:E; [exists x; split; [left; reflexivity|exact E]|]. cbn [b2n]. intros H.
  destruct IH as (y & Y & F); [lia|]. exists y. split; [right; exact Y|exact F].
Qed.

Lemma insert_perm x l : Permutation (x :: l) (insert x l).
Proof.
  induction l as [|y l IH]; [reflexivity|]. cbn [insert]. destruct (x <=? y); [reflexivity|]. eapply Permutation_trans; [apply perm_swap|]. apply perm_skip. exact IH.
Qed.
Lemma sort_perm l : Permutation l (sort l).
Proof. induction l as [|x l IH]; [reflexivity|]. cbn [sort fold_right]. eapply Permutation_trans; [apply perm_skip; exact IH|]. apply insert_perm. Qed.

Inductive asc : list Z -> Prop :=
| asc_nil : asc []
| asc_cons x l : (forall y, In y l -> x <= y) -> asc l -> asc (x :: l).
Lemma insert_asc x l : asc l -> asc (insert x l).
Proof.
  induction 1 as [|y l H A IH]; cbn [insert]; [constructor; [intros ? []|constructor]|]. destruct (Z.leb_spec x y) as [L|L].
  - constructor; [|constructor; assumption]. intros z [<-|Z0]; [exact L|]. specialize (H z Z0). lia.
  - constructor; [|exact IH]. intros z Z0. apply (Permutation_in z (Permutation_sym (insert_perm x l))) in Z0. destruct Z0 as [<-|Z0]; [lia|]. apply H. exact Z0.
Qed.
Lemma sort_asc l : asc (sort l).
Proof. induction l as [|x l IH]; [constructor|]. cbn [sort fold_right]. apply insert_asc. exact IH. Qed.

Lemma asc_kth l : asc l -> forall j, (j < length l)%nat -> kth (Z.of_nat j + 1) (nth j l 0) l.
Proof.
  unfold kth. induction 1 as [|x l H A IH]; intros j J; [cbn in J; lia|]. destruct j as [|j]; cbn [nth cnt length] in *.
  - rewrite Z.ltb_irrefl, Z.leb_refl. cbn [b2n]. assert (C : cnt (fun y => y <? x) l = 0%nat).
    { apply (cnt_none _ _ 0). intros i Hi. apply Z.ltb_ge. apply H. apply nth_In. exact Hi. }
    rewrite C. lia.
  - specialize (IH j ltac:(lia)). assert (x <= nth j l 0) by (apply H, nth_In; lia).
    destruct (Z.leb_spec x (nth j l 0)); [|lia]. destruct (x <? nth j l 0); cbn [b2n]; lia.
Qed.

(** * Intervals in order *)
Definition below (i : nat) (l : list Z) : Z :=
  match i with O => 0 | S _ => Z.of_nat (cnt (fun y => y <=? 2 ^ Z.of_nat i) l) end.

Lemma belongs_below i y : latency y -> b2n (y <=? 2 ^ (Z.of_nat i + 1)) = (b2n (match i with O => false | S _ => (y <=? 2 ^ Z.of_nat i)%Z end) + b2n (belongs i y))%nat.
Proof.
  intros L. destruct i as [|i]; cbn [belongs]; [reflexivity|]. assert (2 ^ Z.of_nat (S i) < 2 ^ (Z.of_nat (S i) + 1)) by (apply Z.pow_lt_mono_r; lia).
  destruct (Z.leb_spec y (2 ^ (Z.of_nat (S i) + 1))), (Z.leb_spec y (2 ^ Z.of_nat (S i))), (Z.ltb_spec (2 ^ Z.of_nat (S i)) y); cbn [b2n andb]; lia.
Qed.
Lemma below_step i l : Forall latency l -> below (S i) l = below i l + len (filter (belongs i) l).
Proof.
  intros F. rewrite Forall_forall in F. unfold below, len. rewrite cnt_length_filter. replace (Z.of_nat (S i)) with (Z.of_nat i + 1) by lia.
  rewrite (cnt_split _ (fun y => match i with O => false | S _ => y <=? 2 ^ Z.of_nat i end) (belongs i)); [|intros y Y; apply belongs_below, F, Y].
  destruct i as [|i]; [|lia]. rewrite (cnt_none (fun _ => false) l 0); [lia|]. reflexivity.
Qed.
Lemma below_32 l : Forall latency l -> below 32 l = len l.
Proof.
  intros F. rewrite Forall_forall in F. unfold below, len. rewrite cnt_len; [reflexivity|]. intros x X. apply Z.leb_le. specialize (F x X). unfold latency in F.
  change (2 ^ Z.of_nat 32) with 4294967296. lia.
Qed.

(** What is found for k in the intervals from i on. *)
Definition found (k : Z) (l : list Z) (x : Z) : Prop := exists i, below i l < k <= below (S i) l /\ In x (filter (belongs i) l).

Lemma sample_at_in j v : 0 <= j -> sorted v = false -> samples v <> [] -> In (fst (sample_at j v)) (samples v).
Proof.
  intros J S N. unfold sample_at, size. assert (L : (0 < length (samples v))%nat) by (destruct (samples v); [contradiction|cbn; lia]).
  destruct (Z.eqb_spec (Z.of_nat (length (samples v))) 0); [lia|]. rewrite andb_false_r, S. cbn [fst samples].
  apply (Permutation_in _ (Permutation_sym (sort_perm (samples v)))). apply nth_In. rewrite <- (Permutation_length (sort_perm (samples v))).
  destruct (Z.leb_spec (Z.of_nat (length (samples v))) j); lia.
Qed.
Lemma sample_at_kth j v : 0 <= j < len (samples v) -> sorted v = false -> kth (j + 1) (fst (sample_at j v)) (samples v).
Proof.
  intros J S. unfold sample_at, size, len in *. destruct (Z.eqb_spec (Z.of_nat (length (samples v))) 0); [lia|]. rewrite andb_false_r, S. cbn [fst samples].
  destruct (Z.leb_spec (Z.of_nat (length (samples v))) j); [lia|].
  pose proof (asc_kth (sort (samples v)) (sort_asc _) (Z.to_nat j)) as K. rewrite <- (Permutation_length (sort_perm (samples v))) in K. specialize (K ltac:(lia)).
  unfold kth in *. rewrite !(cnt_perm _ _ _ (sort_perm (samples v))). rewrite Z2Nat.id in K by lia. exact K.
Qed.

Lemma find_spec L : Forall latency L -> forall vs i k,
  (forall j v, nth_error vs j = Some v -> part (len L + 1022) (filter (belongs (i + j)) L) v /\ (filter (belongs (i + j)) L <> [] -> samples v <> [])) ->
  0 < k -> below i L + k <= below (i + length vs) L ->
  exists x, find k vs = Ok x /\ found (below i L + k) L x /\
    ((forall j v, nth_error vs j = Some v -> len (samples v) = added v) -> kth (below i L + k) x L).
Proof.
  intros FL vs. induction vs as [|v vs IH]; intros i k H K B; [rewrite Nat.add_0_r in B; lia|]. cbn [find].
  destruct (H 0%nat v eq_refl) as ((A & C & _ & rest & P) & NE). rewrite Nat.add_0_r in *. rewrite A. pose proof (below_step i L FL) as BS.
  destruct (Z.leb_spec k (len (filter (belongs i) L))) as [G|G].
  - destruct (Z.eqb_spec (len (filter (belongs i) L)) 0); [lia|]. assert (FN : filter (belongs i) L <> []) by (intros E; rewrite E in *; cbn in *; lia). specialize (NE FN).
    assert (SN : 0 < len (samples v)) by (destruct (samples v); [contradiction|unfold len; cbn; lia]).
    unfold size. fold (len (samples v)). set (q := k * len (samples v) / len (filter (belongs i) L)).
    assert (Q0 : 0 <= q) by (apply Z.div_pos; lia).
    eexists. split; [reflexivity|]. split.
    + exists i. split; [lia|]. apply (Permutation_in _ (Permutation_sym P)). apply in_or_app. left. apply sample_at_in; [destruct (q =? 0) eqn:E; lia|exact C|exact NE].
    + intros EX. specialize (EX 0%nat v eq_refl). rewrite A in EX.
      assert (QK : q = k) by (unfold q; rewrite EX; apply Z.div_mul; lia). rewrite QK. destruct (Z.eqb_spec k 0); [lia|].
      assert (rest = []) as ->.
      { apply Permutation_length in P. rewrite app_length in P. unfold len in EX. destruct rest; [reflexivity|cbn in P; lia]. }
      rewrite app_nil_r in P. pose proof (sample_at_kth (k - 1) v ltac:(lia) C) as KT. set (x := fst (sample_at (k - 1) v)) in *.
      assert (XI : In x (filter (belongs i) L)) by (apply (Permutation_in _ (Permutation_sym P)); apply sample_at_in; [lia|exact C|exact NE]).
      clearbody x. unfold kth in *. rewrite <- !(cnt_perm _ _ _ P) in KT. rewrite !cnt_filter in KT. apply filter_In in XI. destruct XI as (XL & XB).
      rewrite Forall_forall in FL.
      assert (LO : forall f, (f = (fun y => y <? x) \/ f = (fun y => y <=? x)) -> Z.of_nat (cnt f L) = below i L + Z.of_nat (cnt (fun y => belongs i y && f y) L)).
      { intros f Hf. rewrite (cnt_split f (fun y => match i with O => false | S _ => y <=? 2 ^ Z.of_nat i end) (fun y => belongs i y && f y)).
        - unfold below. destruct i as [|i]; [|lia]. rewrite (cnt_none (fun _ => false) L 0); [lia|reflexivity].
        - intros y Y. pose proof (FL y Y) as LY. pose proof (FL x XL) as LX. unfold latency in *. destruct i as [|i]; cbn [belongs] in *.
          + apply Z.leb_le in XB. destruct Hf as [->| ->]; [destruct (Z.ltb_spec y x)|destruct (Z.leb_spec y x)]; destruct (Z.leb_spec y 2); cbn [b2n andb]; lia.
          + apply andb_true_iff in XB. destruct XB as (XB1 & XB2). apply Z.ltb_lt in XB1. apply Z.leb_le in XB2.
            destruct Hf as [->| ->]; [destruct (Z.ltb_spec y x)|destruct (Z.leb_spec y x)]; destruct (Z.leb_spec y (2 ^ Z.of_nat (S i))); destruct (Z.ltb_spec (2 ^ Z.of_nat (S i)) y);
              destruct (Z.leb_spec y (2 ^ (Z.of_nat (S i) + 1))); cbn [b2n andb]; lia. }
      rewrite (LO (fun y => y <? x)), (LO (fun y => y <=? x)) by auto. lia.
  - destruct (IH (S i) (k - len (filter (belongs i) L))) as (x & E & F & EX).
    + intros j w J. replace (S i + j)%nat with (i + S j)%nat by lia. exact (H (S j) w J).
    + lia.
    + cbn [length] in B. replace (S i + length vs)%nat with (i + S (length vs))%nat by lia. lia.
    + exists x. replace (below i L + k) with (below (S i) L + (k - len (filter (belongs i) L))) by lia. split; [exact E|]. split; [exact F|].
      intros Y. apply EX. intros j w J. exact (Y (S j) w J).
Qed.

(** The k-th smallest is in the same interval. *)
Lemma below_mono i j l : Forall latency l -> (i <= j)%nat -> below i l <= below j l.
Proof. intros F H. induction H as [|j H IH]; [lia|]. rewrite below_step by exact F. pose proof (len_pos (filter (belongs j) l)). lia. Qed.

Lemma found_interval k L x y : Forall fine L -> found k L x -> kth k y L -> forall i, belongs i y = belongs i x.
Proof.
  intros FF (i & (B1 & B2) & XI) KT. assert (FL : Forall latency L) by (eapply Forall_impl; [|exact FF]; intros a (Ha & _); exact Ha).
  assert (YI : In y L).
  { destruct (Nat.lt_ge_cases (cnt (fun z => z <? y) L) (cnt (fun z => z <=? y) L)) as [G|G]; [|unfold kth in KT; lia].
    assert (S : cnt (fun z => z <=? y) L = (cnt (fun z => (z <? y)%Z) L + cnt (fun z => (z =? y)%Z) L)%nat).
    { apply cnt_split. intros z _. destruct (Z.leb_spec z y), (Z.ltb_spec z y), (Z.eqb_spec z y); cbn [b2n]; lia. }
    destruct (cnt_pos_in (fun z => (z =? y)%Z) L) as (z & Z1 & Z2); [lia|]. apply Z.eqb_eq in Z2. subst z. exact Z1. }
  rewrite Forall_forall in FF. apply filter_In in XI. destruct XI as (XL & XB).
  destruct (FF x XL) as (LX & OX). destruct (FF y YI) as (LY & OY).
  destruct (index_spec x LX) as (_ & IX). destruct (IX OX) as (ix & _ & _ & HX). destruct (index_spec y LY) as (_ & IY). destruct (IY OY) as (iy & _ & _ & HY).
  assert (ix = i) as -> by (rewrite HX in XB; apply Nat.eqb_eq in XB; lia).
  assert (iy = i) as ->; [|intros j; rewrite HX, HY; reflexivity].
  unfold kth in KT. pose proof (HY iy) as YB. rewrite Nat.eqb_refl in YB.
  destruct (Nat.lt_trichotomy iy i) as [G|[G|G]]; [exfalso|exact G|exfalso].
  - (* all up to y are below interval i *)
    assert (C : Z.of_nat (cnt (fun z => z <=? y) L) <= below (S iy) L).
    { unfold below. apply Nat2Z.inj_le. apply cnt_le. intros z _ Z1. apply Z.leb_le in Z1. apply Z.leb_le. destruct iy as [|iy]; cbn [belongs] in YB.
      - apply Z.leb_le in YB. change (2 ^ Z.of_nat 1) with 2. lia.
      - apply andb_true_iff in YB. destruct YB as (_ & YB). apply Z.leb_le in YB. replace (Z.of_nat (S (S iy))) with (Z.of_nat (S iy) + 1) by lia. lia. }
    pose proof (below_mono (S iy) i L FL ltac:(lia)). lia.
  - assert (C : below iy L <= Z.of_nat (cnt (fun z => z <? y) L)).
    { destruct iy as [|iy]; [lia|]. unfold below. apply Nat2Z.inj_le. apply cnt_le. intros z _ Z1. apply Z.leb_le in Z1. apply Z.ltb_lt.
      cbn [belongs] in YB. apply andb_true_iff in YB. destruct YB as (YB & _). apply Z.ltb_lt in YB. lia. }
    pose proof (below_mono (S i) iy L FL ltac:(lia)). lia.
Qed.
