(** Proofs about WhenAll, WhenAny and WhenAnyWithoutException. *)
From Coq Require Import Permutation.
From Verif.Lib Require Import Base ListX.
From Verif.Future Require Import Model ModelWhen SpecWhen.
Local Open Scope Z_scope.

(** Counting. *)
Fixpoint count {A} (f : A -> bool) (l : list A) : Z :=
  match l with [] => 0 | x :: r => (if f x then 1 else 0) + count f r end.
Lemma count_nonneg {A} (f : A -> bool) l : 0 <= count f l <= Z.of_nat (length l).
Proof. induction l as [|x l IH]; cbn [count length]; [lia|]. destruct (f x); lia. Qed.
Lemma count_lset {A} (f : A -> bool) l i x y : nth_error l i = Some x ->
  count f (lset l i y) = count f l - (if f x then 1 else 0) + (if f y then 1 else 0).
Proof.
  revert i; induction l as [|z l IH]; intros [|i] H; try discriminate; cbn in *.
  - injection H as ->. lia.
  - rewrite (IH i H). lia.
Qed.
Lemma count_repeat {A} (f : A -> bool) x n : f x = false -> count f (repeat x n) = 0.
Proof. intros H. induction n; cbn; rewrite ?H; lia. Qed.
Lemma nth_error_lset {A} (l : list A) i j x :
  nth_error (lset l i x) j = if (i =? j)%nat then match nth_error l i with Some _ => Some x | None => None end else nth_error l j.
Proof.
  revert i j; induction l as [|z l IH]; intros [|i] [|j]; cbn; try reflexivity; auto.
  destruct (i =? j)%nat; reflexivity.
Qed.
Lemma count_pos {A} (f : A -> bool) l i x : nth_error l i = Some x -> f x = true -> 1 <= count f l.
Proof.
  revert i; induction l as [|z l IH]; intros [|i] H E; try discriminate; cbn in *.
  - injection H as ->. rewrite E. pose proof (count_nonneg f l). lia.
  - specialize (IH i H E). destruct (f z); lia.
Qed.
Lemma count_all {A} (f : A -> bool) l : (forall x, In x l -> f x = true) -> count f l = Z.of_nat (length l).
Proof.
  induction l as [|z l IH]; intros H; cbn [count length]; [reflexivity|].
  rewrite (H z) by (left; auto). rewrite IH by (intros; apply H; right; auto). lia.
Qed.
Lemma count_none {A} (f : A -> bool) l : (forall x, In x l -> f x = false) -> count f l = 0.
Proof.
  induction l as [|z l IH]; intros H; cbn [count length]; [reflexivity|].
  rewrite (H z) by (left; auto). rewrite IH by (intros; apply H; right; auto). lia.
Qed.
Lemma count_full {A} (f : A -> bool) l : count f l = Z.of_nat (length l) -> forall x, In x l -> f x = true.
Proof.
  induction l as [|z l IH]; intros H x [].
  - subst. cbn in H. destruct (f x); [reflexivity|]. pose proof (count_nonneg f l). lia.
  - apply IH; auto. cbn [count length] in H. pose proof (count_nonneg f l). destruct (f z); lia.
Qed.
Lemma count_app {A} (f : A -> bool) a b : count f (a ++ b) = count f a + count f b.
Proof. induction a as [|x a IH]; cbn [app count]; [reflexivity|]. rewrite IH. lia. Qed.
Lemma u32_small x : 0 <= x < 2 ^ 32 -> u32 x = x.
Proof. apply Z.mod_small. Qed.

Section All.
Context {V E : Type}.
Variable inputs : list (res V E).
Notation n := (Z.of_nat (length inputs)).
Hypothesis small : n < 2 ^ 32.
Implicit Types s : all V E.

Definition counted (p : pc) : bool := match p with Added _ | Done => true | _ => false end.
Definition stored (p : pc) : bool := match p with Wait => false | _ => true end.
Definition last (p : pc) : bool := match p with Added c => c =? n - 1 | _ => false end.

Record linv s : Prop := {
  li_len : length (l_pcs s) = length inputs;
  li_shape : forall i, nth_error (l_pcs s) i <> Some First;
  li_counter : l_counter s = count counted (l_pcs s);
  li_range : forall i c, nth_error (l_pcs s) i = Some (Added c) -> 0 <= c < n;
  li_last : count last (l_pcs s) + Z.of_nat (length (l_sets s)) = if l_counter s =? n then 1 else 0;
  li_rlen : l_sets s = [] -> length (l_result s) = length inputs;
  li_result : l_sets s = [] -> forall i p x, nth_error (l_pcs s) i = Some p -> stored p = true ->
    nth_error inputs i = Some x -> nth_error (l_result s) i = Some (Some x);
  li_sets : Forall (fun r => r = map Some inputs) (l_sets s);
  li_bad : l_bad s = false }.

Lemma linv_init : linv (all_init (length inputs)).
Proof.
  constructor; cbn.
  - apply repeat_length.
  - intros i H. apply nth_error_In in H. apply repeat_spec in H. discriminate.
  - rewrite count_repeat by reflexivity. reflexivity.
  - intros i c H. apply nth_error_In in H. apply repeat_spec in H. discriminate.
  - rewrite count_repeat by reflexivity. destruct inputs; cbn [length Nat.eqb Z.of_nat]; [reflexivity|].
    cbn. reflexivity.
  - intros _. apply repeat_length.
  - intros _ i p x H Hs. apply nth_error_In in H. apply repeat_spec in H. subst. discriminate.
  - destruct inputs; cbn; auto.
  - reflexivity.
Qed.

Lemma result_full (r : list (option (res V E))) :
  length r = length inputs -> (forall i x, nth_error inputs i = Some x -> nth_error r i = Some (Some x)) -> r = map Some inputs.
Proof.
  clear small. revert r; induction inputs as [|x l IH]; intros [|y r] L H; try discriminate; [reflexivity|].
  cbn. f_equal.
  - specialize (H 0%nat x eq_refl). cbn in H. congruence.
  - apply IH; [cbn in L; lia|]. intros i z Hz. exact (H (S i) z Hz).
Qed.

Lemma linv_step s s' : linv s -> all_step inputs s s' -> linv s'.
Proof.
  intros I St. revert I. destruct St as [i x s H Hx|i s H|i c s H Hc|i c s H Hc]; intros [L1 L2 L3 L4 L5 L6 L7 L8 L9].
  - assert (Li : (i < length inputs)%nat) by (apply nth_error_Some; congruence).
    pose proof (count_lset counted _ _ _ Stored H) as C1. pose proof (count_lset last _ _ _ Stored H) as C2. cbn in C1, C2.
    assert (N : l_sets s = []).
    { destruct (l_sets s) as [|y l] eqn:Es; [reflexivity|exfalso].
      pose proof (count_nonneg last (l_pcs s)). cbn [length] in L5. destruct (_ =? _) eqn:Ez; [|lia].
      apply Z.eqb_eq in Ez. rewrite L3 in Ez. rewrite <- L1 in Ez.
      pose proof (count_full counted _ Ez Wait (nth_error_In _ _ H)). discriminate. }
    constructor; cbn.
    + rewrite lset_length. exact L1.
    + intros j. rewrite nth_error_lset. destruct (i =? j)%nat; [|apply L2]. rewrite H. discriminate.
    + lia.
    + intros j c. rewrite nth_error_lset. destruct (i =? j)%nat; [|apply L4]. rewrite H. discriminate.
    + rewrite C2. rewrite <- L5. lia.
    + intros _. rewrite lset_length. auto.
    + intros _ j p y. rewrite !nth_error_lset. destruct (i =? j)%nat eqn:Ej; [|apply L7; exact N].
      apply Nat.eqb_eq in Ej; subst j. intros _ _ Hy. rewrite Hx in Hy. injection Hy as <-.
      destruct (nth_error (l_result s) i) eqn:En; [reflexivity|]. apply nth_error_None in En. specialize (L6 N). lia.
    + exact L8.
    + rewrite L9. cbn. apply Nat.leb_gt. rewrite L6; auto.
  - pose proof (count_lset counted _ _ _ (Added (l_counter s)) H) as C1.
    pose proof (count_lset last _ _ _ (Added (l_counter s)) H) as C2. cbn in C1, C2.
    assert (R : 0 <= l_counter s < n).
    { rewrite L3. pose proof (count_nonneg counted (l_pcs s)) as B. rewrite L1 in B.
      destruct (Z.eq_dec (count counted (l_pcs s)) n) as [Ez|]; [|lia].
      rewrite <- L1 in Ez. pose proof (count_full counted _ Ez Stored (nth_error_In _ _ H)). discriminate. }
    rewrite (u32_small (l_counter s + 1)) by lia.
    constructor; cbn.
    + rewrite lset_length. exact L1.
    + intros j. rewrite nth_error_lset. destruct (i =? j)%nat; [|apply L2]. rewrite H. discriminate.
    + lia.
    + intros j c. rewrite nth_error_lset. destruct (i =? j)%nat; [|apply L4]. rewrite H. intros Hc. injection Hc as <-. exact R.
    + rewrite C2. destruct (l_counter s =? n) eqn:E1; [lia|].
      destruct (l_counter s =? n - 1) eqn:E2, (l_counter s + 1 =? n) eqn:E3; lia.
    + exact L6.
    + intros N j p y. rewrite nth_error_lset. destruct (i =? j)%nat eqn:Ej; [|apply L7; exact N].
      apply Nat.eqb_eq in Ej; subst j. intros _ _ Hy. exact (L7 N i Stored y H eq_refl Hy).
    + exact L8.
    + exact L9.
  - destruct (L4 i c H) as (Hc1 & Hc2). rewrite !u32_small in Hc by lia.
    pose proof (count_lset counted _ _ _ Done H) as C1. pose proof (count_lset last _ _ _ Done H) as C2. cbn in C1, C2.
    assert (Ec : (c =? n - 1) = true) by lia. rewrite Ec in C2.
    assert (P : 1 <= count last (l_pcs s)) by (apply (count_pos last _ i _ H); cbn; exact Ec).
    assert (Q : l_counter s = n /\ l_sets s = []).
    { destruct (l_counter s =? n) eqn:Ez; [split; [lia|]|exfalso; lia].
      destruct (l_sets s); [reflexivity|cbn [length] in L5; lia]. }
    destruct Q as (Q1 & Q2). rewrite Q1, Z.eqb_refl in L5.
    constructor; cbn.
    + rewrite lset_length. exact L1.
    + intros j. rewrite nth_error_lset. destruct (i =? j)%nat; [|apply L2]. rewrite H. discriminate.
    + lia.
    + intros j d. rewrite nth_error_lset. destruct (i =? j)%nat; [|apply L4]. rewrite H. discriminate.
    + rewrite C2, Q1, Z.eqb_refl, Q2 in *. cbn in *. lia.
    + rewrite Q2. discriminate.
    + rewrite Q2. discriminate.
    + rewrite Q2. repeat constructor. apply result_full; [auto|]. intros j x Hx.
      destruct (nth_error (l_pcs s) j) as [p|] eqn:Ep.
      * apply (L7 Q2 j p x Ep); [|exact Hx]. rewrite L3, <- L1 in Q1.
        pose proof (count_full counted _ Q1 p (nth_error_In _ _ Ep)) as K. destruct p; try discriminate; reflexivity.
      * apply nth_error_None in Ep. assert (j < length inputs)%nat by (apply nth_error_Some; congruence). lia.
    + exact L9.
  - destruct (L4 i c H) as (Hc1 & Hc2). rewrite !u32_small in Hc by lia.
    pose proof (count_lset counted _ _ _ Done H) as C1. pose proof (count_lset last _ _ _ Done H) as C2. cbn in C1, C2.
    assert (Ec : (c =? n - 1) = false) by lia. rewrite Ec in C2.
    constructor; cbn.
    + rewrite lset_length. exact L1.
    + intros j. rewrite nth_error_lset. destruct (i =? j)%nat; [|apply L2]. rewrite H. discriminate.
    + lia.
    + intros j d. rewrite nth_error_lset. destruct (i =? j)%nat; [|apply L4]. rewrite H. discriminate.
    + rewrite C2, <- L5. lia.
    + exact L6.
    + intros N j p y. rewrite nth_error_lset. destruct (i =? j)%nat eqn:Ej; [|apply L7; exact N].
      apply Nat.eqb_eq in Ej; subst j. intros _ _ Hy. exact (L7 N i _ y H eq_refl Hy).
    + exact L8.
    + exact L9.
Qed.

Lemma all_inv s : all_reach inputs s -> linv s.
Proof. induction 1; [exact linv_init|eapply linv_step; eassumption]. Qed.

Lemma all_correct s : all_reach inputs s ->
  l_bad s = false /\ (l_sets s = [] \/ l_sets s = [map Some inputs]) /\
  (l_sets s <> [] -> Forall (fun p => p <> Wait /\ p <> Stored) (l_pcs s)) /\
  (all_ran (l_pcs s) -> l_sets s = [map Some inputs]).
Proof.
  intros R. destruct (all_inv s R) as [L1 L2 L3 L4 L5 L6 L7 L8 L9].
  pose proof (count_nonneg last (l_pcs s)) as P.
  split; [exact L9|]. split; [|split].
  - destruct (l_sets s) as [|x [|y l]]; auto.
    + right. inversion L8; subst. reflexivity.
    + exfalso. cbn [length] in L5. destruct (_ =? _); lia.
  - intros N. destruct (_ =? _) eqn:Ez; [|destruct (l_sets s); [congruence|cbn [length] in L5; lia]].
    apply Forall_forall. intros p Hp. apply Z.eqb_eq in Ez. rewrite L3, <- L1 in Ez.
    pose proof (count_full counted _ Ez p Hp) as K. destruct p; try discriminate; split; discriminate.
  - intros A. unfold all_ran in A. rewrite Forall_forall in A.
    assert (C : count counted (l_pcs s) = n).
    { rewrite count_all, L1; [reflexivity|]. intros p Hp. rewrite (A p Hp). reflexivity. }
    rewrite (count_none last) in L5 by (intros p Hp; rewrite (A p Hp); reflexivity).
    rewrite L3, C, Z.eqb_refl in L5. destruct (l_sets s) as [|x [|y l]]; cbn [length] in L5; try lia.
    inversion L8; subst. reflexivity.
Qed.
End All.

Section Any.
Context {V E : Type}.
Variable default : V.
Variable inputs : list (res V E).
Notation n := (Z.of_nat (length inputs)).
Hypothesis small : n < 2 ^ 32.
Hypothesis some_input : inputs <> [].
Implicit Types s : any V E.

Definition is_first (p : pc) : bool := match p with First => true | _ => false end.

Lemma any_result_outcome i (x : res V E) : nth_error inputs i = Some x -> any_result i x = outcome_of i x.
Proof.
  intros H. assert (i < length inputs)%nat by (apply nth_error_Some; congruence).
  destruct x; cbn; [|reflexivity]. rewrite u32_small by lia. reflexivity.
Qed.

Record yinv s : Prop := {
  yi_len : length (y_pcs s) = length inputs;
  yi_shape : Forall (fun p => p = Wait \/ p = First \/ p = Done) (y_pcs s);
  yi_count : count is_first (y_pcs s) + Z.of_nat (length (y_sets s)) = if y_done s then 1 else 0;
  yi_first : forall i, nth_error (y_pcs s) i = Some First -> y_first s = Some i;
  yi_done : y_done s = match y_first s with Some _ => true | None => false end;
  yi_wait : y_done s = false -> Forall (fun p => p = Wait) (y_pcs s);
  yi_sets : Forall (fun r => exists i x, y_first s = Some i /\ nth_error inputs i = Some x /\ r = outcome_of i x) (y_sets s) }.

Lemma forall_lset {A} (P : A -> Prop) (l : list A) i x : Forall P l -> P x -> Forall P (lset l i x).
Proof.
  intros H Hx. revert i; induction H as [|y l Hy Hl IH]; intros [|i]; cbn; constructor; auto.
Qed.

Lemma yinv_init : yinv (any_init default (length inputs)).
Proof.
  constructor; cbn.
  - apply repeat_length.
  - apply Forall_forall. intros p Hp. apply repeat_spec in Hp. auto.
  - rewrite count_repeat by reflexivity. destruct inputs; [congruence|]. reflexivity.
  - intros i H. apply nth_error_In in H. apply repeat_spec in H. discriminate.
  - reflexivity.
  - intros _. apply Forall_forall. intros p Hp. apply repeat_spec in Hp. auto.
  - destruct inputs; [congruence|]. constructor.
Qed.

Lemma yinv_step s s' : yinv s -> any_step inputs s s' -> yinv s'.
Proof.
  intros I St. revert I. destruct St as [i x s H Hx Hd|i x s H Hx Hd|i x s H Hx]; intros [L1 L2 L3 L4 L5 L6 L7].
  - pose proof (count_lset is_first _ _ _ First H) as C. cbn in C. rewrite Hd in *.
    assert (N : y_first s = None) by (destruct (y_first s); [discriminate|reflexivity]).
    constructor; cbn.
    + rewrite lset_length. exact L1.
    + apply forall_lset; auto.
    + lia.
    + intros j. rewrite nth_error_lset. destruct (i =? j)%nat eqn:Ej.
      * apply Nat.eqb_eq in Ej; subst. reflexivity.
      * intros Hj. rewrite (L4 j Hj) in N. discriminate.
    + reflexivity.
    + discriminate.
    + destruct (y_sets s); [constructor|]. pose proof (count_nonneg is_first (y_pcs s)). cbn [length] in L3. lia.
  - pose proof (count_lset is_first _ _ _ Done H) as C. cbn in C. rewrite Hd in *.
    constructor; cbn; auto.
    + rewrite lset_length. exact L1.
    + apply forall_lset; auto.
    + lia.
    + intros j. rewrite nth_error_lset. destruct (i =? j)%nat eqn:Ej; [rewrite H; discriminate|apply L4].
    + discriminate.
  - pose proof (count_lset is_first _ _ _ Done H) as C. cbn in C.
    pose proof (count_pos is_first _ i _ H eq_refl) as P.
    assert (Hd : y_done s = true) by (destruct (y_done s); [reflexivity|lia]). rewrite Hd in *.
    constructor; cbn; auto.
    + rewrite lset_length. exact L1.
    + apply forall_lset; auto.
    + rewrite app_length. cbn [length]. rewrite ?Hd. lia.
    + intros j. rewrite nth_error_lset. destruct (i =? j)%nat eqn:Ej; [rewrite H; discriminate|apply L4].
    + discriminate.
    + apply Forall_app. split; [exact L7|]. constructor; [|constructor].
      exists i, x. rewrite any_result_outcome by exact Hx. auto.
Qed.

Lemma any_inv s : any_reach default inputs s -> yinv s.
Proof. induction 1; [exact yinv_init|eapply yinv_step; eassumption]. Qed.

Lemma first_step s s' i : steps (any_step inputs) s s' -> y_first s = Some i -> y_done s = true -> y_first s' = Some i.
Proof.
  intros R H Hd. assert (K : y_first s' = Some i /\ y_done s' = true); [|exact (proj1 K)].
  induction R as [|s s' s'' R IH St]; [auto|]. destruct (IH H Hd) as (K1 & K2). clear IH R H Hd.
  revert K1 K2. destruct St; cbn; intros; try congruence; auto.
Qed.

Lemma steps_reach s s' : any_reach default inputs s -> steps (any_step inputs) s s' -> any_reach default inputs s'.
Proof.
  intros R H. induction H as [s|s s1 s2 H IH St]; [exact R|]. exact (an_next default inputs s1 s2 (IH R) St).
Qed.

Lemma any_correct s0 s i : any_step inputs (any_init default (length inputs)) s0 ->
  nth_error (y_pcs s0) i <> Some Wait -> (i < length inputs)%nat -> steps (any_step inputs) s0 s ->
  exists x, nth_error inputs i = Some x /\ (y_sets s = [] \/ y_sets s = [outcome_of i x]) /\
    (all_ran (y_pcs s) -> y_sets s = [outcome_of i x]).
Proof.
  intros St Hi Li R.
  assert (F : y_first s0 = Some i /\ y_done s0 = true).
  { assert (W : forall j, (j < length inputs)%nat -> nth_error (repeat Wait (length inputs)) j = Some Wait).
    { clear. generalize (length inputs). intros m. induction m as [|m IH]; intros [|j] H; cbn; try lia; [reflexivity|]. apply IH. lia. }
    inversion St; subst; cbn in *; try discriminate.
    - rewrite nth_error_lset in Hi. destruct (i0 =? i)%nat eqn:Ej; [apply Nat.eqb_eq in Ej; subst; auto|].
      exfalso. apply Hi, W, Li.
    - apply nth_error_In in H. apply repeat_spec in H. discriminate. }
  destruct F as (F1 & F2). pose proof (first_step _ _ _ R F1 F2) as F3.
  assert (Rs : any_reach default inputs s) by (eapply steps_reach; [|exact R]; eapply an_next; [apply an_init|exact St]).
  destruct (any_inv s Rs) as [L1 L2 L3 L4 L5 L6 L7]. rewrite F3 in *.
  pose proof (count_nonneg is_first (y_pcs s)) as P.
  destruct (nth_error inputs i) as [x|] eqn:Ex; [|apply nth_error_None in Ex; lia].
  exists x. split; [reflexivity|].
  assert (K : y_sets s = [] \/ y_sets s = [outcome_of i x]).
  { destruct (y_sets s) as [|r [|r2 l]]; auto.
    - right. inversion L7 as [|? ? (j & y & Hj & Hy & ->) _]; subst. congruence.
    - exfalso. cbn [length] in L3. destruct (y_done s); lia. }
  split; [exact K|]. intros A. destruct K as [K|K]; [|exact K]. exfalso.
  unfold all_ran in A. rewrite Forall_forall in A. rewrite K, L5 in L3.
  rewrite (count_none is_first) in L3 by (intros p Hp; rewrite (A p Hp); reflexivity). cbn in L3. lia.
Qed.

(** Without exception. *)
Definition is_val (r : res (Z * V) E) : bool := match r with Val _ => true | Exc _ => false end.
Definition is_exc (r : res (Z * V) E) : bool := match r with Val _ => false | Exc _ => true end.
Definition is_last (p : pc) : bool := match p with Added c => c =? n - 1 | _ => false end.

Record winv s : Prop := {
  wi_len : length (y_pcs s) = length inputs;
  wi_shape : Forall (fun p => p <> Stored) (y_pcs s);
  wi_vcount : count is_first (y_pcs s) + count is_val (y_sets s) = if y_done s then 1 else 0;
  wi_ecount : count is_last (y_pcs s) + count is_exc (y_sets s) = if y_counter s =? n then 1 else 0;
  wi_first : forall i, nth_error (y_pcs s) i = Some First -> y_first s = Some i;
  wi_done : match y_first s with Some i => y_done s = true /\ exists v, nth_error inputs i = Some (Val v) | None => y_done s = false end;
  wi_added : forall i c, nth_error (y_pcs s) i = Some (Added c) -> 0 <= c /\ nth_error (y_fails s) (Z.to_nat c) = Some i;
  wi_counter : y_counter s = Z.of_nat (length (y_fails s));
  wi_nodup : NoDup (y_fails s);
  wi_fails : forall i, In i (y_fails s) -> nth_error (y_pcs s) i <> Some Wait /\ exists e, nth_error inputs i = Some (Exc e);
  wi_out : forall i p, nth_error (y_pcs s) i = Some p -> p <> Wait -> In i (y_fails s) \/ exists v, nth_error inputs i = Some (Val v);
  wi_ran : forall i v, nth_error (y_pcs s) i = Some Done -> nth_error inputs i = Some (Val v) -> y_done s = true;
  wi_sets : Forall (fun r => exists i x, nth_error inputs i = Some x /\ r = outcome_of i x /\
      match x with Val _ => y_first s = Some i
                 | Exc _ => y_counter s = n /\ nth_error (y_fails s) (length inputs - 1) = Some i end) (y_sets s) }.

Lemma fails_bound (l : list nat) : NoDup l -> (forall i, In i l -> exists e, nth_error inputs i = Some (Exc e)) ->
  (length l <= length inputs)%nat /\ (length l = length inputs -> Forall failed inputs).
Proof.
  intros N H.
  assert (I : incl l (seq 0 (length inputs))).
  { intros i Hi. destruct (H i Hi) as (e & He). apply in_seq. split; [lia|]. cbn. apply nth_error_Some. congruence. }
  pose proof (NoDup_incl_length N I) as L. rewrite seq_length in L. split; [exact L|].
  intros El. assert (I2 : incl (seq 0 (length inputs)) l).
  { apply NoDup_length_incl; [exact N|rewrite seq_length; lia|exact I]. }
  apply Forall_forall. intros x Hx. apply In_nth_error in Hx. destruct Hx as (i & Hi).
  destruct (H i) as (e & He); [|exists e; congruence]. apply I2, in_seq. split; [lia|]. cbn. apply nth_error_Some. congruence.
Qed.

Lemma winv_init : winv (any_init default (length inputs)).
Proof.
  assert (W : forall i p, nth_error (repeat Wait (length inputs)) i = Some p -> p = Wait)
    by (intros i p H; apply nth_error_In in H; apply repeat_spec in H; exact H).
  constructor; cbn.
  - apply repeat_length.
  - apply Forall_forall. intros p Hp. apply repeat_spec in Hp. subst. discriminate.
  - rewrite count_repeat by reflexivity. destruct inputs; [congruence|]. reflexivity.
  - rewrite count_repeat by reflexivity. destruct inputs; [congruence|]. reflexivity.
  - intros i H. apply W in H. discriminate.
  - reflexivity.
  - intros i c H. apply W in H. discriminate.
  - reflexivity.
  - constructor.
  - intros i [].
  - intros i p H Hp. apply W in H. congruence.
  - intros i v H. apply W in H. discriminate.
  - destruct inputs; [congruence|]. constructor.
Qed.

Lemma counter_lt s i : winv s -> nth_error (y_pcs s) i = Some Wait -> y_counter s < n.
Proof.
  intros I H. rewrite (wi_counter _ I).
  assert (N : NoDup (i :: y_fails s)) by (constructor; [|apply (wi_nodup _ I)]; intros K; destruct (wi_fails _ I i K); congruence).
  assert (Li : (i < length inputs)%nat) by (rewrite <- (wi_len _ I); apply nth_error_Some; congruence).
  assert (In1 : incl (i :: y_fails s) (seq 0 (length inputs))).
  { intros j [<-|Hj]; apply in_seq; (split; [lia|]); cbn; [exact Li|].
    destruct (wi_fails _ I j Hj) as (_ & e & He). apply nth_error_Some. congruence. }
  pose proof (NoDup_incl_length N In1) as L. rewrite seq_length in L. cbn [length] in L. lia.
Qed.

Lemma winv_step s s' : winv s -> awe_step inputs s s' -> winv s'.
Proof.
  intros I St. revert I.
  destruct St as [i v s H Hx Hd|i v s H Hx Hd|i v s H Hx|i e s H Hx|i e c s H Hx Hc|i e c s H Hx Hc]; intros I;
    [|pose proof I as I0|..]; pose proof I as [L1 L2 L3 L4 L5 L6 L7 L8 L9 L10 L11 L12 L13].
  - pose proof (count_lset is_first _ _ _ First H) as C. pose proof (count_lset is_last _ _ _ First H) as C2. cbn in C, C2. rewrite Hd in *.
    assert (N : y_first s = None) by (destruct (y_first s); [destruct L6; discriminate|reflexivity]).
    constructor; cbn; auto; try lia.
    + rewrite lset_length. exact L1.
    + apply forall_lset; [auto|discriminate].
    + intros j. rewrite nth_error_lset. destruct (i =? j)%nat eqn:Ej.
      * apply Nat.eqb_eq in Ej; subst. reflexivity.
      * intros Hj. rewrite (L5 j Hj) in N. discriminate.
    + eauto.
    + intros j c. rewrite nth_error_lset. destruct (i =? j)%nat; [rewrite H; discriminate|apply L7].
    + intros j Hj. rewrite nth_error_lset. destruct (L10 j Hj) as (K1 & K2). split; [|exact K2].
      destruct (i =? j)%nat; [rewrite H; discriminate|exact K1].
    + intros j p. rewrite nth_error_lset. destruct (i =? j)%nat eqn:Ej; [|apply L11].
      apply Nat.eqb_eq in Ej; subst. intros _ _. right. eauto.
    + eapply Forall_impl; [|exact L13]. intros r (j & x & K1 & K2 & K3). exists j, x. split; [auto|]. split; [auto|].
      destruct x; [congruence|exact K3].
  - pose proof (count_lset is_first _ _ _ Done H) as C. pose proof (count_lset is_last _ _ _ Done H) as C2. cbn in C, C2. rewrite Hd in *.
    constructor; cbn; auto; try lia.
    + rewrite lset_length. exact L1.
    + apply forall_lset; [auto|discriminate].
    + intros j. rewrite nth_error_lset. destruct (i =? j)%nat eqn:Ej; [rewrite H; discriminate|apply L5].
    + intros j c. rewrite nth_error_lset. destruct (i =? j)%nat; [rewrite H; discriminate|apply L7].
    + intros j Hj. rewrite nth_error_lset. destruct (L10 j Hj) as (K1 & K2). split; [|exact K2].
      destruct (i =? j)%nat; [rewrite H; discriminate|exact K1].
    + intros j p. rewrite nth_error_lset. destruct (i =? j)%nat eqn:Ej; [|apply L11].
      apply Nat.eqb_eq in Ej; subst. intros _ _. right. eauto.
  - pose proof (count_lset is_first _ _ _ Done H) as C. pose proof (count_lset is_last _ _ _ Done H) as C2. cbn in C, C2.
    pose proof (count_pos is_first _ i _ H eq_refl) as P. pose proof (count_nonneg is_val (y_sets s)) as P2.
    assert (Hd : y_done s = true) by (destruct (y_done s); [reflexivity|lia]). 
    constructor; cbn; auto; try lia.
    + rewrite lset_length. exact L1.
    + apply forall_lset; [auto|discriminate].
    + rewrite count_app, <- L3, C. cbn. lia.
    + rewrite count_app, <- L4, C2. cbn. lia.
    + intros j. rewrite nth_error_lset. destruct (i =? j)%nat eqn:Ej; [rewrite H; discriminate|apply L5].
    + intros j c. rewrite nth_error_lset. destruct (i =? j)%nat; [rewrite H; discriminate|apply L7].
    + intros j Hj. rewrite nth_error_lset. destruct (L10 j Hj) as (K1 & K2). split; [|exact K2].
      destruct (i =? j)%nat; [rewrite H; discriminate|exact K1].
    + intros j p. rewrite nth_error_lset. destruct (i =? j)%nat eqn:Ej; [|apply L11].
      apply Nat.eqb_eq in Ej; subst. intros _ _. right. eauto.
    + apply Forall_app. split; [exact L13|]. constructor; [|constructor]. exists i, (Val v). split; [exact Hx|].
      split; [apply (any_result_outcome i (Val v) Hx)|]. auto.
  - pose proof (count_lset is_first _ _ _ (Added (y_counter s)) H) as C.
    pose proof (count_lset is_last _ _ _ (Added (y_counter s)) H) as C2. cbn in C, C2.
    pose proof (counter_lt s i I H) as Lt. assert (Ge : 0 <= y_counter s) by lia.
    rewrite (u32_small (y_counter s + 1)) by lia.
    assert (Ni : ~ In i (y_fails s)) by (intros K; destruct (L10 i K); congruence).
    assert (Nz : Z.to_nat (y_counter s) = length (y_fails s)) by lia.
    constructor; cbn; auto.
    + rewrite lset_length. exact L1.
    + apply forall_lset; [auto|discriminate].
    + rewrite C, <- L3. lia.
    + rewrite C2. destruct (y_counter s =? n) eqn:E1; [lia|].
      destruct (y_counter s =? n - 1) eqn:E2, (y_counter s + 1 =? n) eqn:E3; lia.
    + intros j. rewrite nth_error_lset. destruct (i =? j)%nat eqn:Ej; [rewrite H; discriminate|apply L5].
    + intros j c. rewrite nth_error_lset. destruct (i =? j)%nat eqn:Ej.
      * apply Nat.eqb_eq in Ej; subst j. rewrite H. intros Q. injection Q as <-. split; [lia|].
        rewrite Nz, nth_error_app2, Nat.sub_diag by lia. reflexivity.
      * intros Q. destruct (L7 j c Q) as (Q1 & Q2). split; [exact Q1|].
        rewrite nth_error_app1; [exact Q2|]. apply nth_error_Some. congruence.
    + rewrite app_length. cbn [length]. lia.
    + eapply Permutation_NoDup; [apply Permutation_cons_append|]. constructor; assumption.
    + intros j Hj. rewrite nth_error_lset. apply in_app_or in Hj. destruct Hj as [Hj|[<-|[]]].
      * destruct (L10 j Hj) as (K1 & K2). split; [|exact K2]. destruct (i =? j)%nat; [rewrite H; discriminate|exact K1].
      * rewrite Nat.eqb_refl, H. split; [discriminate|eauto].
    + intros j p. rewrite nth_error_lset. destruct (i =? j)%nat eqn:Ej.
      * apply Nat.eqb_eq in Ej; subst j. intros _ _. left. apply in_or_app. right. left. reflexivity.
      * intros Q1 Q2. destruct (L11 j p Q1 Q2) as [Q|Q]; [left; apply in_or_app; auto|auto].
    + intros j w. rewrite nth_error_lset. destruct (i =? j)%nat eqn:Ej; [rewrite H; discriminate|apply L12].
    + eapply Forall_impl; [|exact L13]. intros r (j & x & K1 & K2 & K3). exists j, x. split; [auto|]. split; [auto|].
      destruct x; [exact K3|]. exfalso. lia.
  - destruct (L7 i c H) as (Q1 & Q2).
    assert (Lc : (Z.to_nat c < length (y_fails s))%nat) by (apply nth_error_Some; congruence).
    destruct (fails_bound (y_fails s) L9 (fun j Hj => proj2 (L10 j Hj))) as (B1 & B2).
    rewrite u32_small in Hc by lia.
    pose proof (count_lset is_first _ _ _ Done H) as C. pose proof (count_lset is_last _ _ _ Done H) as C2. cbn in C, C2.
    assert (Ec : (c =? n - 1) = true) by lia. rewrite Ec in C2.
    assert (En : y_counter s = n) by lia.
    constructor; cbn; auto.
    + rewrite lset_length. exact L1.
    + apply forall_lset; [auto|discriminate].
    + rewrite count_app, C, <- L3. cbn. lia.
    + rewrite count_app, C2, <- L4. cbn. lia.
    + intros j. rewrite nth_error_lset. destruct (i =? j)%nat eqn:Ej; [rewrite H; discriminate|apply L5].
    + intros j d. rewrite nth_error_lset. destruct (i =? j)%nat; [rewrite H; discriminate|apply L7].
    + intros j Hj. rewrite nth_error_lset. destruct (L10 j Hj) as (K1 & K2). split; [|exact K2].
      destruct (i =? j)%nat; [rewrite H; discriminate|exact K1].
    + intros j p. rewrite nth_error_lset. destruct (i =? j)%nat eqn:Ej; [|apply L11].
      apply Nat.eqb_eq in Ej; subst j. intros _ _. left. apply nth_error_In in Q2. exact Q2.
    + intros j w. rewrite nth_error_lset. destruct (i =? j)%nat eqn:Ej; [|apply L12].
      apply Nat.eqb_eq in Ej; subst j. intros _ K. congruence.
    + apply Forall_app. split; [exact L13|]. constructor; [|constructor]. exists i, (Exc e). split; [exact Hx|].
      split; [reflexivity|]. split; [exact En|]. replace (length inputs - 1)%nat with (Z.to_nat c) by lia. exact Q2.
  - destruct (L7 i c H) as (Q1 & Q2).
    assert (Lc : (Z.to_nat c < length (y_fails s))%nat) by (apply nth_error_Some; congruence).
    destruct (fails_bound (y_fails s) L9 (fun j Hj => proj2 (L10 j Hj))) as (B1 & B2).
    rewrite u32_small in Hc by lia.
    pose proof (count_lset is_first _ _ _ Done H) as C. pose proof (count_lset is_last _ _ _ Done H) as C2. cbn in C, C2.
    assert (Ec : (c =? n - 1) = false) by lia. rewrite Ec in C2.
    constructor; cbn; auto.
    + rewrite lset_length. exact L1.
    + apply forall_lset; [auto|discriminate].
    + rewrite C, <- L3. lia.
    + rewrite C2, <- L4. lia.
    + intros j. rewrite nth_error_lset. destruct (i =? j)%nat eqn:Ej; [rewrite H; discriminate|apply L5].
    + intros j d. rewrite nth_error_lset. destruct (i =? j)%nat; [rewrite H; discriminate|apply L7].
    + intros j Hj. rewrite nth_error_lset. destruct (L10 j Hj) as (K1 & K2). split; [|exact K2].
      destruct (i =? j)%nat; [rewrite H; discriminate|exact K1].
    + intros j p. rewrite nth_error_lset. destruct (i =? j)%nat eqn:Ej; [|apply L11].
      apply Nat.eqb_eq in Ej; subst j. intros _ _. left. apply nth_error_In in Q2. exact Q2.
    + intros j w. rewrite nth_error_lset. destruct (i =? j)%nat eqn:Ej; [|apply L12].
      apply Nat.eqb_eq in Ej; subst j. intros _ K. congruence.
Qed.

Lemma awe_inv s : awe_reach default inputs s -> winv s.
Proof. induction 1; [exact winv_init|eapply winv_step; eassumption]. Qed.

Lemma count_cases (l : list (res (Z * V) E)) : count is_val l + count is_exc l = Z.of_nat (length l).
Proof. induction l as [|[]]; cbn [count is_val is_exc length]; lia. Qed.

Lemma awe_correct s : awe_reach default inputs s ->
  (y_sets s = [] \/
   (exists i v, y_first s = Some i /\ nth_error inputs i = Some (Val v) /\ y_sets s = [Val (Z.of_nat i, v)]) \/
   (Forall failed inputs /\ exists i e, nth_error (y_fails s) (length inputs - 1) = Some i /\ nth_error inputs i = Some (Exc e) /\
     y_sets s = [Exc e])) /\
  (all_ran (y_pcs s) -> y_sets s <> []).
Proof.
  intros R. destruct (awe_inv s R) as [L1 L2 L3 L4 L5 L6 L7 L8 L9 L10 L11 L12 L13].
  destruct (fails_bound (y_fails s) L9 (fun j Hj => proj2 (L10 j Hj))) as (B1 & B2).
  assert (X : y_counter s = n -> y_done s = true -> False).
  { intros E1 E2. assert (F : Forall failed inputs) by (apply B2; lia). rewrite Forall_forall in F.
    destruct (y_first s) as [i|]; [|congruence]. destruct L6 as (_ & v & Hv).
    destruct (F _ (nth_error_In _ _ Hv)) as (e & He). discriminate. }
  pose proof (count_nonneg is_first (y_pcs s)) as P1. pose proof (count_nonneg is_last (y_pcs s)) as P2.
  pose proof (count_cases (y_sets s)) as P3.
  split.
  - destruct (y_sets s) as [|r [|r2 l]]; [auto| |].
    + right. inversion L13 as [|? ? (i & x & K1 & K2 & K3) _]; subst. destruct x as [v|e].
      * left. exists i, v. auto.
      * right. destruct K3 as (K3 & K4). split; [apply B2; lia|]. exists i, e. auto.
    + exfalso. cbn [length] in P3. destruct (y_done s) eqn:Ed, (y_counter s =? n) eqn:Ec; try lia.
  - intros A N. unfold all_ran in A. rewrite Forall_forall in A. rewrite N in *. cbn in L3, L4.
    rewrite (count_none is_first) in L3 by (intros p Hp; rewrite (A p Hp); reflexivity).
    rewrite (count_none is_last) in L4 by (intros p Hp; rewrite (A p Hp); reflexivity).
    destruct (y_done s) eqn:Ed; [lia|]. destruct (y_counter s =? n) eqn:Ec; [lia|].
    assert (I : incl (seq 0 (length inputs)) (y_fails s)).
    { intros i Hi. apply in_seq in Hi. destruct (nth_error (y_pcs s) i) as [p|] eqn:Ep; [|apply nth_error_None in Ep; lia].
      pose proof (A p (nth_error_In _ _ Ep)). subst p.
      destruct (L11 i Done Ep) as [K|(v & Hv)]; [discriminate|exact K|]. specialize (L12 i v Ep Hv). congruence. }
    pose proof (NoDup_incl_length (seq_NoDup _ _) I) as L. rewrite seq_length in L. lia.
Qed.
Lemma awe_first_steps s s' i : steps (awe_step inputs) s s' -> y_first s = Some i -> y_done s = true -> y_first s' = Some i.
Proof.
  intros R H Hd. assert (K : y_first s' = Some i /\ y_done s' = true); [|exact (proj1 K)].
  induction R as [|s s' s'' R IH St]; [auto|]. destruct (IH H Hd) as (K1 & K2). clear IH R H Hd.
  revert K1 K2. destruct St; cbn; intros; try congruence; auto.
Qed.

Lemma awe_steps_reach s s' : awe_reach default inputs s -> steps (awe_step inputs) s s' -> awe_reach default inputs s'.
Proof.
  intros R H. induction H as [s|s s1 s2 H IH St]; [exact R|]. exact (aw_next default inputs s1 s2 (IH R) St).
Qed.

Lemma first_not_wait s : awe_reach default inputs s -> forall i, y_first s = Some i -> nth_error (y_pcs s) i <> Some Wait.
Proof.
  induction 1 as [|s s' R IH St]; [intros i H; discriminate|].
  revert IH. clear R. destruct St; cbn; intros IH k Hk; rewrite nth_error_lset;
    match goal with |- context [(?i =? k)%nat] => destruct (i =? k)%nat eqn:Ej end;
    try (destruct (nth_error _ _) eqn:?; discriminate); try (apply IH; exact Hk).
  injection Hk as ->. rewrite Nat.eqb_refl in Ej. discriminate.
Qed.

Lemma awe_success s0 s1 s i v : awe_reach default inputs s0 ->
  (forall j w, nth_error inputs j = Some (Val w) -> nth_error (y_pcs s0) j = Some Wait) ->
  awe_step inputs s0 s1 -> nth_error inputs i = Some (Val v) -> nth_error (y_pcs s1) i <> Some Wait ->
  steps (awe_step inputs) s1 s ->
  (y_sets s = [] \/ y_sets s = [Val (Z.of_nat i, v)]) /\ (all_ran (y_pcs s) -> y_sets s = [Val (Z.of_nat i, v)]).
Proof.
  intros R0 W St Hi Ni Rs.
  assert (F : y_first s1 = Some i /\ y_done s1 = true).
  { revert R0 W Ni. pose proof (fun s H => wi_done s (awe_inv s H)) as D. clear Rs.
    destruct St as [j u s0 H Hx Hd|j u s0 H Hx Hd|j u s0 H Hx|j e s0 H Hx|j e c s0 H Hx Hc|j e c s0 H Hx Hc]; cbn; intros R0 W Ni;
      rewrite nth_error_lset in Ni; pose proof (W i v Hi) as Wi; destruct (j =? i)%nat eqn:Ej;
      try (apply Nat.eqb_eq in Ej; subst j); try congruence; auto.
    exfalso. specialize (D s0 R0). pose proof (first_not_wait s0 R0) as Fk. destruct (y_first s0) as [k|]; [|congruence]. destruct D as (_ & w & Hw).
    pose proof (W k w Hw) as Wk. specialize (Fk k eq_refl).
    exact (Fk Wk). }
  destruct F as (F1 & F2). pose proof (awe_first_steps _ _ _ Rs F1 F2) as F3.
  assert (R1 : awe_reach default inputs s) by (eapply awe_steps_reach; [|exact Rs]; eapply aw_next; [exact R0|exact St]).
  destruct (awe_correct s R1) as (K1 & K2).
  assert (K : y_sets s = [] \/ y_sets s = [Val (Z.of_nat i, v)]).
  { destruct K1 as [K1|[(j & w & A1 & A2 & A3)|(A1 & _)]]; [auto| |].
    - right. rewrite A3. congruence.
    - exfalso. rewrite Forall_forall in A1. destruct (A1 _ (nth_error_In _ _ Hi)) as (e & He). discriminate. }
  split; [exact K|]. intros A. destruct K as [K|K]; [|exact K]. destruct (K2 A K).
Qed.

Lemma awe_failure s : awe_reach default inputs s ->
  (forall e, In (Exc e) (y_sets s) -> Forall failed inputs) /\
  (Forall failed inputs -> all_ran (y_pcs s) ->
   exists i e, nth_error (y_fails s) (length inputs - 1) = Some i /\ nth_error inputs i = Some (Exc e) /\ y_sets s = [Exc e]).
Proof.
  intros R. destruct (awe_correct s R) as (K1 & K2). split.
  - intros e He. destruct K1 as [K1|[(j & w & A1 & A2 & A3)|(A1 & _)]]; [|rewrite A3 in He|exact A1].
    + rewrite K1 in He. destruct He.
    + destruct He as [He|[]]. discriminate.
  - intros F A. destruct K1 as [K1|[(j & w & A1 & A2 & A3)|(_ & A1)]]; [destruct (K2 A K1)| |exact A1].
    rewrite Forall_forall in F. destruct (F _ (nth_error_In _ _ A2)) as (e & He). discriminate.
Qed.
End Any.

Lemma any_empty {V E} (default : V) : forall s : any V E, any_reach default [] s \/ awe_reach default [] s ->
  y_sets s = [Val (0, default)].
Proof.
  assert (Z0 : forall i, @nth_error (res V E) [] i = None) by (intros []; reflexivity).
  intros s [R|R]; induction R as [|s s' R IH St]; try reflexivity; inversion St; subst; rewrite Z0 in *; discriminate.
Qed.

(** ** No callback gets stuck *)
Section Progress.
Context {V E : Type}.
Variable default : V.
Variable inputs : list (res V E).

Lemma nth_lset_inv {A} (l : list A) i x j y : nth_error (lset l i x) j = Some y -> (i = j /\ y = x) \/ nth_error l j = Some y.
Proof.
  revert i j; induction l as [|z l IH]; intros [|i] [|j]; cbn; intros H; auto; try discriminate H.
  - injection H as <-. auto.
  - destruct (IH _ _ H) as [(-> & ->)|K]; auto.
Qed.
Lemma not_ran (l : list pc) : ~ all_ran l -> exists i p, nth_error l i = Some p /\ p <> Done.
Proof.
  induction l as [|p l IH]; intros H; [exfalso; apply H; constructor|]. assert (D : p = Done \/ p <> Done) by (destruct p; auto; right; discriminate).
  destruct D as [->|D]; [|exists 0%nat, p; auto]. destruct IH as (i & q & Hq & N); [|exists (S i), q; auto].
  intros F. apply H. constructor; auto.
Qed.
Definition all_shape (s : all V E) := length (l_pcs s) = length inputs /\ forall i, nth_error (l_pcs s) i <> Some First.
Lemma all_shape_reach s : all_reach inputs s -> all_shape s.
Proof.
  intros R; induction R as [|s s' R (L & F) St].
  - split; [apply repeat_length|]. intros i H. apply nth_error_In in H. apply repeat_spec in H. discriminate.
  - destruct St; cbn; (split; cbn; [rewrite lset_length; exact L|intros j K; apply nth_lset_inv in K; destruct K as [(_ & K)|K]; [discriminate K|exact (F j K)]]).
Qed.
Lemma all_progress s : all_reach inputs s -> ~ all_ran (l_pcs s) -> exists s', all_step inputs s s'.
Proof.
  intros R N. destruct (all_shape_reach s R) as (L & F). destruct (not_ran _ N) as (i & p & H & D).
  assert (exists x, nth_error inputs i = Some x) as (x & X).
  { assert (i < length inputs)%nat by (rewrite <- L; apply nth_error_Some; congruence). destruct (nth_error inputs i) eqn:K; eauto. apply nth_error_None in K; lia. }
  destruct p as [| |c| |]; [eexists; eapply al_store; eauto|eexists; eapply al_add; eauto| |destruct (F i H)|congruence].
  destruct (Z.eq_dec (u32 (c + 1)) (u32 (Z.of_nat (length inputs)))); [eexists; eapply al_last; eauto|eexists; eapply al_not_last; eauto].
Qed.
Definition any_shape (s : any V E) := length (y_pcs s) = length inputs /\ forall i p, nth_error (y_pcs s) i = Some p -> p = Wait \/ p = First \/ p = Done.
Lemma any_shape_reach s : any_reach default inputs s -> any_shape s.
Proof.
  intros R; induction R as [|s s' R (L & F) St].
  - split; [apply repeat_length|]. intros i p H. apply nth_error_In in H. apply repeat_spec in H. auto.
  - destruct St; cbn; (split; cbn; [rewrite lset_length; exact L|intros j q K; apply nth_lset_inv in K; destruct K as [(_ & ->)|K]; [auto|exact (F j q K)]]).
Qed.
Lemma any_progress s : any_reach default inputs s -> ~ all_ran (y_pcs s) -> exists s', any_step inputs s s'.
Proof.
  intros R N. destruct (any_shape_reach s R) as (L & F). destruct (not_ran _ N) as (i & p & H & D).
  assert (exists x, nth_error inputs i = Some x) as (x & X).
  { assert (i < length inputs)%nat by (rewrite <- L; apply nth_error_Some; congruence). destruct (nth_error inputs i) eqn:K; eauto. apply nth_error_None in K; lia. }
  destruct (F i p H) as [Ep|[Ep|Ep]]; subst p; [|eexists; eapply an_set; eauto|congruence].
  destruct (y_done s) eqn:Dn; [eexists; eapply an_late; eauto|eexists; eapply an_first; eauto].
Qed.
Definition awe_ok i (p : pc) := match p with
  | Wait | Done => True | First => exists v, nth_error inputs i = Some (Val v) | Added _ => exists e, nth_error inputs i = Some (Exc e) | Stored => False end.
Definition awe_shape (s : any V E) := length (y_pcs s) = length inputs /\ forall i p, nth_error (y_pcs s) i = Some p -> awe_ok i p.
Lemma awe_shape_reach s : awe_reach default inputs s -> awe_shape s.
Proof.
  intros R; induction R as [|s s' R (L & F) St].
  - split; [apply repeat_length|]. intros i p H. apply nth_error_In in H. apply repeat_spec in H. subst p. exact I.
  - destruct St; cbn; (split; cbn; [rewrite lset_length; exact L|intros j q K; apply nth_lset_inv in K; destruct K as [(<- & ->)|K]; [cbn; eauto|exact (F j q K)]]).
Qed.
Lemma awe_progress s : awe_reach default inputs s -> ~ all_ran (y_pcs s) -> exists s', awe_step inputs s s'.
Proof.
  intros R N. destruct (awe_shape_reach s R) as (L & F). destruct (not_ran _ N) as (i & p & H & D). specialize (F i p H).
  destruct p as [| |c| |]; cbn in F; [|contradiction| |destruct F as (v & F); eexists; eapply aw_set; eauto|congruence].
  - assert (exists x, nth_error inputs i = Some x) as (x & X).
    { assert (i < length inputs)%nat by (rewrite <- L; apply nth_error_Some; congruence). destruct (nth_error inputs i) eqn:K; eauto. apply nth_error_None in K; lia. }
    destruct x as [v|e]; [|eexists; eapply aw_fail; eauto]. destruct (y_done s) eqn:Dn; [eexists; eapply aw_late; eauto|eexists; eapply aw_first; eauto].
  - destruct F as (e & F). destruct (Z.eq_dec (u32 (c + 1)) (Z.of_nat (length inputs))); [eexists; eapply aw_all_failed; eauto|eexists; eapply aw_one_failed; eauto].
Qed.
End Progress.
