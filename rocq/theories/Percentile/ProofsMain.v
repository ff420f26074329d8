(** Percentiles of a window. *)
From Coq Require Import List ZArith Bool Lia Permutation.
From Verif.Lib Require Import Base ListX Count.
From Verif.Percentile Require Import Model Spec ProofsLog ProofsMerge ProofsFind.
Import ListNotations.
Open Scope Z_scope.

Lemma at_nth g i : (i < length (ivs g))%nat -> nth_error (ivs g) i = Some (at_ g i).
Proof. intros H. apply nth_error_nth'. exact H. Qed.
Lemma holds_at n l g i : holds n l g -> (i < 32)%nat -> sampled n (filter (belongs i) l) (at_ g i).
Proof. intros (_ & L & _ & H) I32. apply H. apply at_nth. lia. Qed.

Lemma column_sampled i ls gs : (i < 32)%nat -> Forall2 (holds 254) ls gs -> Forall2 (sampled 254) (map (filter (belongs i)) ls) (column i gs).
Proof. intros I32 F. induction F as [|l g ls gs H F IH]; cbn [map column]; constructor; [apply holds_at; assumption|exact IH]. Qed.
Lemma concat_filter {A} (f : A -> bool) ls : concat (map (filter f) ls) = filter f (concat ls).
Proof. induction ls as [|l ls IH]; [reflexivity|]. cbn [map concat]. rewrite IH. clear. induction l as [|x l IH]; [reflexivity|]. cbn [app filter]. destruct (f x); cbn [app]; rewrite IH; reflexivity. Qed.
Lemma column_sum ls col : Forall2 (sampled 254) ls col -> sum_added col = len (concat ls).
Proof. induction 1 as [|l v ls col (A & _) F IH]; [reflexivity|]. cbn [sum_added fold_right concat]. rewrite len_app, A. unfold sum_added in IH. rewrite IH. reflexivity. Qed.
Lemma group_sum ls gs : Forall2 (holds 254) ls gs -> fold_right (fun g s => total g + s) 0 gs = len (concat ls).
Proof. induction 1 as [|l g ls gs (_ & _ & T & _) F IH]; [reflexivity|]. cbn [fold_right concat]. rewrite len_app, T, IH. reflexivity. Qed.
Lemma filter_len {A} (f : A -> bool) l : len (filter f l) <= len l.
Proof. unfold len. apply Nat2Z.inj_le. induction l as [|x l IH]; [reflexivity|]. cbn [filter]. destruct (f x); cbn [length]; lia. Qed.

(** What one interval of a combination is. *)
Definition combined (n : Z) (ls : list (list Z)) (v : interval) : Prop :=
  part n (concat ls) v /\ (concat ls <> [] -> samples v <> []) /\
  (len (concat ls) <= n -> Forall (fun m => len m <= 254) ls -> len (samples v) = added v).

Lemma combine_column n ls col o : 0 < n -> Forall2 (sampled 254) ls col -> len ls <= n -> len (concat ls) < 2 ^ 32 ->
  exists v o', (if sum_added col =? 0 then Ok (fresh, o) else combine_at n (sum_added col) col fresh o) = Ok (v, o') /\ combined n ls v.
Proof.
  intros N F L W. rewrite (column_sum ls col F). pose proof (len_pos (concat ls)) as P0. destruct (Z.eqb_spec (len (concat ls)) 0) as [E|E].
  - assert (C : concat ls = []) by (destruct (concat ls); [reflexivity|unfold len in E; cbn [length] in E; lia]).
    exists fresh, o. split; [reflexivity|]. unfold combined. rewrite C. split; [apply part_fresh; lia|]. split; [contradiction|reflexivity].
  - destruct (combine_at_spec n (len (concat ls)) N ls col F [] fresh o (part_fresh n ltac:(lia))) as (v & o' & R & P & _ & X1 & X2 & X3); [cbn; lia|lia|].
    cbn [app] in P. exists v, o'. split; [exact R|]. split; [exact P|]. split.
    + intros _ SV. rewrite SV in *. change (len (@nil Z)) with 0 in *. destruct (Z_le_gt_dec (len (concat ls)) n) as [G|G].
      * assert (concat ls <> []) by (intros C; rewrite C in E; apply E; reflexivity). specialize (X3 G H). lia.
      * specialize (X1 ltac:(lia) (some_large n N ls _ L eq_refl ltac:(lia))). lia.
    + intros G Q. change (len (samples fresh)) with 0 in X2. rewrite X2 by (try assumption; lia). destruct P as (-> & _). lia.
Qed.

Lemma combine_each_spec n ls gs : 0 < n -> Forall2 (holds 254) ls gs -> len ls <= n -> len (concat ls) < 2 ^ 32 ->
  forall is o, (forall i, In i is -> (i < 32)%nat) ->
  exists l o', combine_each n is gs o = Ok (l, o') /\ Forall2 (fun i v => combined n (map (filter (belongs i)) ls) v) is l.
Proof.
  intros N F L W is. induction is as [|i is IH]; intros o H; cbn [combine_each]; [exists [], o; split; [reflexivity|constructor]|].
  assert (I32 : (i < 32)%nat) by (apply H; left; reflexivity). pose proof (column_sampled i ls gs I32 F) as CS.
  destruct (combine_column n _ _ o N CS) as (v & o1 & R1 & C1).
  { unfold len in *. rewrite map_length. exact L. }
  { rewrite concat_filter. pose proof (filter_len (belongs i) (concat ls)). lia. }
  cbv zeta. rewrite R1. cbn [bind]. destruct (IH o1) as (l & o2 & R2 & C2); [intros; apply H; right; assumption|]. rewrite R2. cbn [bind].
  exists (v :: l), o2. split; [reflexivity|]. constructor; assumption.
Qed.

Lemma forall2_nth {A B} (P : A -> B -> Prop) l m : Forall2 P l m -> forall j y, nth_error m j = Some y -> exists x, nth_error l j = Some x /\ P x y.
Proof. induction 1 as [|x y l m H F IH]; intros [|j] z E; cbn [nth_error] in *; try discriminate; [injection E as <-; eauto|]. apply IH. exact E. Qed.

Lemma forall2_length {A B} (P : A -> B -> Prop) l m : Forall2 P l m -> length l = length m.
Proof. induction 1; cbn [length]; congruence. Qed.

Lemma seq_at j k x : nth_error (seq 0 k) j = Some x -> x = j.
Proof.
  intros H. assert (L : (j < k)%nat) by (rewrite <- (seq_length k 0); apply nth_error_Some; congruence).
  apply (nth_error_nth _ _ 0%nat) in H. rewrite seq_nth in H by exact L. lia.
Qed.

Lemma concat_fine ls gs : Forall2 (holds 254) ls gs -> Forall fine (concat ls).
Proof. induction 1 as [|l g ls gs (H & _) F IH]; cbn [concat]; [constructor|]. apply Forall_app. split; assumption. Qed.

Lemma part_weaken n m l v : n <= m -> part n l v -> part m l v.
Proof. intros N (A & B & C & D). split; [exact A|]. split; [exact B|]. split; [lia|exact D]. Qed.

Lemma percentile_spec k ls gs o : Forall2 (holds 254) ls gs -> len ls <= 1022 -> len (concat ls) < 2 ^ 32 -> 1 <= k <= len (concat ls) ->
  exists x, percentile k gs o = Ok x /\ In x (concat ls) /\
    (forall y, kth k y (concat ls) -> forall i, belongs i y = belongs i x) /\
    ((forall i, len (filter (belongs i) (concat ls)) <= 1022 /\ Forall (fun l => len (filter (belongs i) l) <= 254) ls) -> kth k x (concat ls)).
Proof.
  intros F L W K. pose proof (concat_fine ls gs F) as FF. assert (FL : Forall latency (concat ls)) by (eapply Forall_impl; [|exact FF]; intros a (Ha & _); exact Ha).
  unfold percentile, combine. destruct (combine_each_spec 1022 ls gs ltac:(lia) F L W (seq 0 32) o) as (l & o1 & R & C); [intros i I; apply in_seq in I; lia|].
  rewrite R. cbn [bind]. unfold get_number. cbn [total ivs]. rewrite (group_sum ls gs F). destruct (Z.ltb_spec (len (concat ls)) k); [lia|]. destruct (Z.eqb_spec k 0); [lia|].
  assert (L32 : length l = 32%nat) by (rewrite <- (forall2_length _ _ _ C); reflexivity).
  assert (AT : forall j v, nth_error l j = Some v -> combined 1022 (map (filter (belongs j)) ls) v).
  { intros j v J. destruct (forall2_nth _ _ _ C j v J) as (i & I & Q). apply seq_at in I. subst i. exact Q. }
  destruct (find_spec (concat ls) FL l 0%nat k) as (x & E & FO & EX).
  - intros j v J. destruct (AT j v J) as (P & NE & _). rewrite concat_filter in *. cbn [Nat.add]. split; [|exact NE]. eapply part_weaken; [|exact P]. pose proof (len_pos (concat ls)). lia.
  - lia.
  - rewrite L32. cbn [Nat.add]. rewrite below_32 by exact FL. cbn [below]. lia.
  - cbn [below Z.add] in *. exists x. split; [exact E|]. split; [destruct FO as (i & _ & XI); apply filter_In in XI; tauto|]. split.
    + intros y Y. eapply found_interval; eassumption.
    + intros Q. apply EX. intros j v J. destruct (AT j v J) as (_ & _ & G). apply G; [rewrite concat_filter; apply Q|].
      destruct (Q j) as (_ & Q2). rewrite Forall_map. exact Q2.
Qed.

(** * Merging groups *)
Lemma merge_each_spec n n2 l m : n2 <= n -> (forall i, len (filter (belongs i) m) <= n2) -> len l + len m < 2 ^ 32 ->
  forall a b i o, length a = length b ->
  (forall j v, nth_error a j = Some v -> sampled n (filter (belongs (i + j)) l) v) ->
  (forall j v, nth_error b j = Some v -> sampled n2 (filter (belongs (i + j)) m) v) ->
  exists c o', merge_each n a b o = Ok (c, o') /\ length c = length a /\
    forall j v, nth_error c j = Some v -> sampled n (filter (belongs (i + j)) (l ++ m)) v.
Proof.
  intros N M W a. induction a as [|v a IH]; intros b i o E HA HB; destruct b as [|w b]; cbn [length] in E; try lia; cbn [merge_each].
  - exists [], o. split; [reflexivity|]. split; [reflexivity|]. intros [|j] v; discriminate.
  - pose proof (HA 0%nat v eq_refl) as SV. pose proof (HB 0%nat w eq_refl) as SW. rewrite Nat.add_0_r in SV, SW.
    pose proof (filter_len (belongs i) l). pose proof (filter_len (belongs i) m).
    assert (X : exists v' o1, (if size w =? 0 then Ok (v, o) else merge n v w o) = Ok (v', o1) /\ sampled n (filter (belongs i) (l ++ m)) v').
    { rewrite filter_app. destruct (Z.eqb_spec (size w) 0) as [Z0|Z0].
      - pose proof (full_sampled _ _ _ SW (M i)) as P. unfold size in Z0. assert (samples w = []) as Q by (destruct (samples w); [reflexivity|cbn in Z0; lia]).
        rewrite Q in P. apply Permutation_sym, Permutation_nil in P. rewrite P, app_nil_r. eauto.
      - apply (merge_spec n n2); try assumption; [apply M|lia]. }
    destruct X as (v' & o1 & R1 & S1). rewrite R1. cbn [bind].
    destruct (IH b (S i) o1) as (c & o2 & R2 & L2 & S2).
    + lia.
    + intros j u J. replace (S i + j)%nat with (i + S j)%nat by lia. apply HA. exact J.
    + intros j u J. replace (S i + j)%nat with (i + S j)%nat by lia. apply HB. exact J.
    + rewrite R2. cbn [bind]. exists (v' :: c), o2. split; [reflexivity|]. split; [cbn [length]; lia|].
      intros [|j] u J; cbn [nth_error] in J.
      * injection J as <-. rewrite Nat.add_0_r. exact S1.
      * replace (i + S j)%nat with (S i + j)%nat by lia. apply S2. exact J.
Qed.

Lemma merge_group_spec n n2 l m a b o : n2 <= n -> (forall i, len (filter (belongs i) m) <= n2) -> len l + len m < 2 ^ 32 -> holds n l a -> holds n2 m b ->
  exists c o', merge_group n a b o = Ok (c, o') /\ holds n (l ++ m) c.
Proof.
  intros N M W (F1 & L1 & T1 & H1) (F2 & L2 & T2 & H2). unfold merge_group.
  destruct (merge_each_spec n n2 l m N M W (ivs a) (ivs b) 0%nat o) as (c & o1 & R & L & S); [lia|exact H1|exact H2|].
  rewrite R. cbn [bind]. eexists _, _. split; [reflexivity|]. split; [apply Forall_app; split; assumption|]. cbn [ivs total]. split; [lia|]. split; [rewrite len_app; lia|exact S].
Qed.
Lemma holds_empty n : 0 <= n -> holds n [] empty.
Proof.
  intros N. split; [constructor|]. split; [reflexivity|]. split; [reflexivity|]. intros i v E. apply nth_error_In in E. apply repeat_spec in E. subst v. apply sampled_fresh. exact N.
Qed.
