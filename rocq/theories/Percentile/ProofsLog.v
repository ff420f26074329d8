(** The index of an interval. *)
From Coq Require Import List ZArith Bool Lia.
From Verif.Lib Require Import Base.
From Verif.Percentile Require Import Model Spec.
Import ListNotations.
Open Scope Z_scope.

(** Smearing the highest bit. *)
Definition near (w : Z) (x y : Z) : Prop :=
  forall j, 0 <= j -> Z.testbit y j = true <-> exists d, 0 <= d < w /\ Z.testbit x (j + d) = true.
Lemma near_1 x : near 1 x x.
Proof.
  intros j J. split; [intros H; exists 0; split; [lia|rewrite Z.add_0_r; exact H]|].
  intros (d & D & H). replace (j + d) with j in H by lia. exact H.
Qed.
Lemma near_step w x y : 0 < w -> near w x y -> near (w + w) x (Z.lor y (Z.shiftr y w)).
Proof.
  intros W N j J. rewrite Z.lor_spec, Z.shiftr_spec by lia. rewrite orb_true_iff, (N j), (N (j + w)) by lia. split.
  - intros [(d & D & H)|(d & D & H)]; [exists d; split; [lia|exact H]|].
    exists (w + d). split; [lia|]. rewrite Z.add_assoc. exact H.
  - intros (d & D & H). destruct (Z_lt_le_dec d w) as [L|L]; [left; exists d; split; [lia|exact H]|].
    right. exists (d - w). split; [lia|]. replace (j + w + (d - w)) with (j + d) by lia. exact H.
Qed.

Lemma smear x y : 0 < x < 2 ^ 32 -> 0 <= y -> near 32 x y -> y = 2 ^ (Z.log2 x + 1) - 1.
Proof.
  intros X Y N. pose proof (Z.log2_nonneg x) as LN.
  assert (LU : Z.log2 x < 32) by (apply Z.log2_lt_pow2; lia).
  rewrite Z.sub_1_r, <- Z.ones_equiv. apply Z.bits_inj'. intros j J.
  destruct (Z_lt_le_dec j (Z.log2 x + 1)) as [L|L].
  - rewrite Z.ones_spec_low by lia. apply N; [exact J|]. exists (Z.log2 x - j). split; [lia|].
    replace (j + (Z.log2 x - j)) with (Z.log2 x) by lia. apply Z.bit_log2. lia.
  - rewrite Z.ones_spec_high by lia. destruct (Z.testbit y j) eqn:E; [|reflexivity].
    apply N in E; [|exact J]. destruct E as (d & D & H). rewrite Z.bits_above_log2 in H by lia. discriminate.
Qed.

Lemma ones32_ones k : 0 <= k <= 32 -> ones32 (2 ^ k - 1) = k.
Proof.
  intros K.
  assert (A : forallb (fun n => ones32 (2 ^ Z.of_nat n - 1) =? Z.of_nat n) (seq 0 33) = true) by (vm_compute; reflexivity).
  rewrite forallb_forall in A. specialize (A (Z.to_nat k)). rewrite Z2Nat.id in A by lia. apply Z.eqb_eq, A, in_seq. lia.
Qed.

(** x & (x - 1) takes the lowest bit away. *)
Lemma low_bit x : 0 < x -> exists k m, 0 <= k /\ 0 <= m /\ x = (2 * m + 1) * 2 ^ k.
Proof.
  intros X. assert (H : exists n : nat, x <= Z.of_nat n) by (exists (Z.to_nat x); lia). destruct H as (n & H). revert x X H.
  induction n as [|n IH]; intros x X H; [lia|]. destruct (Z.Even_or_Odd x) as [(y & E)|(y & E)].
  - destruct (IH y) as (k & m & K & M & F); [lia|lia|]. exists (k + 1), m. split; [lia|]. split; [lia|]. rewrite E, F, Z.pow_add_r by lia. lia.
  - exists 0, y. split; [lia|]. split; [lia|]. rewrite Z.pow_0_r. lia.
Qed.
Lemma land_low k m : 0 <= k -> 0 <= m -> Z.land ((2 * m + 1) * 2 ^ k) ((2 * m + 1) * 2 ^ k - 1) = 2 * m * 2 ^ k.
Proof.
  intros K M. apply Z.bits_inj'. intros j J. rewrite Z.land_spec.
  destruct (Z_lt_le_dec j k) as [L|L].
  - rewrite (Z.mul_pow2_bits_low (2 * m + 1)) by lia. rewrite (Z.mul_pow2_bits_low (2 * m)) by lia. reflexivity.
  - assert (P : 0 < 2 ^ k) by (apply Z.pow_pos_nonneg; lia).
    replace ((2 * m + 1) * 2 ^ k - 1) with (2 * m * 2 ^ k + (2 ^ k - 1)) by lia.
    assert (Q : Z.testbit (2 * m * 2 ^ k + (2 ^ k - 1)) j = Z.testbit (2 * m) (j - k)).
    { rewrite <- (Z.sub_add k j) at 1. rewrite <- Z.shiftr_spec by lia. rewrite Z.shiftr_div_pow2 by lia. rewrite Z.div_add_l by lia. rewrite Z.div_small by lia. rewrite Z.add_0_r. reflexivity. }
    rewrite Q. rewrite !Z.mul_pow2_bits by lia.
    destruct (Z.eq_dec (j - k) 0) as [E|E].
    + rewrite E, Z.testbit_odd_0, Z.testbit_even_0. reflexivity.
    + replace (j - k) with (Z.succ (j - k - 1)) by lia. rewrite Z.testbit_odd_succ, Z.testbit_even_succ by lia. apply andb_diag.
Qed.

Lemma sign_shift y : - 2 ^ 31 < y < 2 ^ 31 -> Z.shiftr (Z.lor y (- y)) 31 = if y =? 0 then 0 else -1.
Proof.
  intros Y. rewrite Z.shiftr_lor, !Z.shiftr_div_pow2 by lia. destruct (Z.eqb_spec y 0) as [->|N]; [reflexivity|].
  destruct (Z_lt_le_dec y 0) as [L|L].
  - assert (A : y / 2 ^ 31 = -1) by (symmetry; apply (Z.div_unique y (2 ^ 31) (-1) (y + 2 ^ 31)); lia).
    rewrite A. apply Z.lor_m1_l.
  - assert (A : (- y) / 2 ^ 31 = -1) by (symmetry; apply (Z.div_unique (- y) (2 ^ 31) (-1) (- y + 2 ^ 31)); lia).
    rewrite A. apply Z.lor_m1_r.
Qed.

Lemma log2_value x : 0 < x < 2 ^ 32 ->
  log2_of x = if Z.land x (x - 1) =? 2 ^ 31 then UB else Ok (Z.log2 x + (if Z.land x (x - 1) =? 0 then 0 else 1)).
Proof.
  intros X. unfold log2_of. assert (U : u32 (x - 1) = x - 1) by (apply Z.mod_small; unfold two32; lia). rewrite U.
  set (y := Z.land x (x - 1)).
  assert (Y : 0 <= y < 2 ^ 32).
  { destruct (low_bit x) as (k & m & K & M & E); [lia|]. unfold y. rewrite E, land_low by assumption.
    assert (P : 0 < 2 ^ k) by (apply Z.pow_pos_nonneg; lia). nia. }
  assert (E1 : (int32 y =? - 2 ^ 31) = (y =? 2 ^ 31)).
  { unfold int32, two32. change (2 ^ 31) with 2147483648 in *. change (2 ^ 32) with 4294967296 in *.
    destruct (Z.ltb_spec y 2147483648), (Z.eqb_spec y 2147483648); [lia|apply Z.eqb_neq; lia|apply Z.eqb_eq; lia|apply Z.eqb_neq; lia]. }
  rewrite E1. destruct (Z.eqb_spec y (2 ^ 31)) as [E|E]; [reflexivity|]. f_equal.
  assert (R : - 2 ^ 31 < int32 y < 2 ^ 31).
  { unfold int32, two32. change (2 ^ 31) with 2147483648 in *. change (2 ^ 32) with 4294967296 in *. destruct (Z.ltb_spec y 2147483648); lia. }
  rewrite (sign_shift _ R).
  assert (E0 : (int32 y =? 0) = (y =? 0)).
  { unfold int32, two32. change (2 ^ 31) with 2147483648 in *. change (2 ^ 32) with 4294967296 in *.
    destruct (Z.ltb_spec y 2147483648); [reflexivity|]. destruct (Z.eqb_spec y 0); [lia|apply Z.eqb_neq; lia]. }
  rewrite E0. clear E1 R E0 U. clearbody y.
  assert (NN : forall a w, 0 <= a -> 0 <= Z.lor a (Z.shiftr a w)).
  { intros a w A. apply Z.lor_nonneg. split; [exact A|]. apply Z.shiftr_nonneg. exact A. }
  match goal with |- u32 (ones32 ?s - 1 - _) = _ => assert (S : s = 2 ^ (Z.log2 x + 1) - 1) end.
  { apply smear; [exact X|repeat apply NN; lia|].
    pose proof (near_step 1 x _ ltac:(lia) (near_1 x)) as N1. pose proof (near_step 2 x _ ltac:(lia) N1) as N2.
    pose proof (near_step 4 x _ ltac:(lia) N2) as N4. pose proof (near_step 8 x _ ltac:(lia) N4) as N8.
    exact (near_step 16 x _ ltac:(lia) N8). }
  rewrite S. pose proof (Z.log2_nonneg x). assert (LU : Z.log2 x < 32) by (apply Z.log2_lt_pow2; lia).
  rewrite ones32_ones by lia. unfold u32, two32. change (2 ^ 32) with 4294967296.
  destruct (y =? 0); rewrite Z.mod_small by lia; lia.
Qed.

Lemma parity q a c : 0 < q -> q * (2 * a) + q = q * (2 * c) -> False.
Proof. intros Q H. assert (2 * a + 1 = 2 * c); [|lia]. apply (Z.mul_reg_l _ _ q); lia. Qed.

Lemma land_cases x : 0 < x < 2 ^ 32 ->
  (Z.land x (x - 1) = 2 ^ 31 <-> overflows x) /\ (Z.land x (x - 1) = 0 <-> x = 2 ^ Z.log2 x).
Proof.
  intros X. destruct (low_bit x) as (k & m & K & M & E); [lia|].
  assert (LD : Z.land x (x - 1) = 2 * m * 2 ^ k) by (rewrite E; apply land_low; assumption). rewrite LD. clear LD.
  assert (P : 0 < 2 ^ k) by (apply Z.pow_pos_nonneg; lia). split; split.
  - intros H. assert (K31 : k < 31).
    { destruct (Z_lt_le_dec k 31) as [L|L]; [exact L|]. assert (2 ^ 31 <= 2 ^ k) by (apply Z.pow_le_mono_r; lia). change (2 ^ 31) with 2147483648 in *. change (2 ^ 32) with 4294967296 in *. nia. }
    exists k. split; [lia|]. change (2 ^ 31) with 2147483648 in *. rewrite Z.mul_add_distr_r in E. lia.
  - intros (j & J & F). rewrite F in E. assert (Q : 0 < 2 ^ j) by (apply Z.pow_pos_nonneg; lia).
    assert (JK : j = k).
    { destruct (Z.lt_trichotomy j k) as [L|[L|L]]; [|exact L|]; exfalso.
      - assert (K1 : 2 ^ k = 2 ^ j * (2 * 2 ^ (k - j - 1))) by (change 2 with (2 ^ 1) at 3; rewrite <- !Z.pow_add_r by lia; f_equal; lia).
        assert (K2 : 2147483648 = 2 ^ j * (2 * 2 ^ (30 - j))) by (change 2147483648 with (2 ^ 31); change 2 with (2 ^ 1) at 3; rewrite <- !Z.pow_add_r by lia; f_equal; lia).
        rewrite K1, K2 in E. apply (parity (2 ^ j) (2 ^ (30 - j)) ((2 * m + 1) * 2 ^ (k - j - 1)) Q). rewrite E. ring.
      - assert (K1 : 2 ^ j = 2 ^ k * (2 * 2 ^ (j - k - 1))) by (change 2 with (2 ^ 1) at 3; rewrite <- !Z.pow_add_r by lia; f_equal; lia).
        assert (K2 : 2147483648 = 2 ^ k * (2 * 2 ^ (30 - k))) by (change 2147483648 with (2 ^ 31); change 2 with (2 ^ 1) at 3; rewrite <- !Z.pow_add_r by lia; f_equal; lia).
        rewrite K1, K2 in E. apply (parity (2 ^ k) m (2 ^ (30 - k) + 2 ^ (j - k - 1)) P).
        replace (2 ^ k * (2 * m) + 2 ^ k) with ((2 * m + 1) * 2 ^ k) by ring. rewrite <- E. ring. }
    subst j. change (2 ^ 31) with 2147483648. rewrite Z.mul_add_distr_r in E. lia.
  - intros H. assert (m = 0) by nia. subst m. rewrite E. replace ((2 * 0 + 1) * 2 ^ k) with (2 ^ k) by lia. rewrite Z.log2_pow2 by lia. reflexivity.
  - intros F. rewrite E in F at 1. set (j := Z.log2 x) in *. assert (0 <= j) by apply Z.log2_nonneg.
    destruct (Z.eq_dec m 0) as [->|N]; [reflexivity|exfalso].
    destruct (Z_lt_le_dec j (k + 1)) as [L|L].
    + assert (2 ^ j <= 2 ^ k) by (apply Z.pow_le_mono_r; lia). nia.
    + assert (K1 : 2 ^ j = 2 ^ k * (2 * 2 ^ (j - k - 1))) by (change 2 with (2 ^ 1) at 3; rewrite <- !Z.pow_add_r by lia; f_equal; lia).
      rewrite K1 in F. apply (parity (2 ^ k) m (2 ^ (j - k - 1)) P). rewrite <- F. ring.
Qed.

Lemma log2_spec x : 0 < x < 2 ^ 32 ->
  (overflows x -> log2_of x = UB) /\ (~ overflows x -> exists n, log2_of x = Ok n /\ 2 ^ (n - 1) < x <= 2 ^ n).
Proof.
  intros X. rewrite log2_value by exact X. destruct (land_cases x X) as (A & B). split.
  - intros O. apply A in O. rewrite O, Z.eqb_refl. reflexivity.
  - intros O. destruct (Z.eqb_spec (Z.land x (x - 1)) (2 ^ 31)) as [E|_]; [apply A in E; contradiction|].
    eexists. split; [reflexivity|]. destruct (Z.log2_spec x) as (L1 & L2); [lia|]. pose proof (Z.log2_nonneg x) as LN.
    destruct (Z.eqb_spec (Z.land x (x - 1)) 0) as [E|E].
    + apply B in E. rewrite Z.add_0_r. split; [|lia]. rewrite E at 2. destruct (Z.eq_dec (Z.log2 x) 0) as [->|N]; [reflexivity|]. apply Z.pow_lt_mono_r; lia.
    + replace (Z.log2 x + 1 - 1) with (Z.log2 x) by lia. change (Z.succ (Z.log2 x)) with (Z.log2 x + 1) in L2. split; [|lia].
      destruct (Z.eq_dec x (2 ^ Z.log2 x)) as [Q|Q]; [apply B in Q; contradiction|lia].
Qed.

Lemma index_spec x : latency x ->
  (overflows x -> index_of x = UB) /\
  (~ overflows x -> exists i, index_of x = Ok i /\ (i < 32)%nat /\ forall j, belongs j x = (j =? i)%nat).
Proof.
  intros X. unfold index_of, latency in *. destruct (Z.leb_spec x 2) as [L|L].
  - split.
    + intros (k & K & E). assert (0 < 2 ^ k) by (apply Z.pow_pos_nonneg; lia). lia.
    + intros _. exists 0%nat. split; [reflexivity|]. split; [lia|]. intros [|j]; cbn [belongs Nat.eqb]; [apply Z.leb_le; lia|].
      assert (2 ^ 1 <= 2 ^ Z.of_nat (S j)) by (apply Z.pow_le_mono_r; lia). change (2 ^ 1) with 2 in *.
      destruct (Z.ltb_spec (2 ^ Z.of_nat (S j)) x); [lia|reflexivity].
  - assert (X' : 0 < x < 2 ^ 32) by (change (2 ^ 32) with 4294967296; lia). destruct (log2_spec x X') as (A & B). split.
    + intros O. rewrite (A O). reflexivity.
    + intros O. destruct (B O) as (n & E & L1 & L2). rewrite E. cbn [bind]. exists (Z.to_nat (n - 1)). split; [reflexivity|].
      assert (N2 : 2 <= n).
      { destruct (Z_lt_le_dec n 2) as [G|G]; [|exact G]. destruct (Z_lt_le_dec n 0) as [G'|G']; [rewrite (Z.pow_neg_r 2 n) in L2 by lia; lia|].
        assert (2 ^ n <= 2 ^ 1) by (apply Z.pow_le_mono_r; lia). change (2 ^ 1) with 2 in *. lia. }
      assert (N32 : n <= 32).
      { destruct (Z_lt_le_dec 32 n) as [G|G]; [|exact G]. assert (2 ^ 32 <= 2 ^ (n - 1)) by (apply Z.pow_le_mono_r; lia). lia. }
      split; [lia|]. intros [|j].
      * cbn [belongs]. destruct (Z.leb_spec x 2); [lia|]. symmetry. apply Nat.eqb_neq. lia.
      * cbn [belongs]. destruct (Nat.eqb_spec (S j) (Z.to_nat (n - 1))) as [Q|Q].
        -- assert (Z.of_nat (S j) = n - 1) by lia. rewrite H. replace (n - 1 + 1) with n by lia.
           destruct (Z.ltb_spec (2 ^ (n - 1)) x); [|lia]. destruct (Z.leb_spec x (2 ^ n)); [reflexivity|lia].
        -- destruct (Z_lt_le_dec (Z.of_nat (S j)) (n - 1)) as [G|G].
           ++ assert (2 ^ (Z.of_nat (S j) + 1) <= 2 ^ (n - 1)) by (apply Z.pow_le_mono_r; lia).
              destruct (Z.leb_spec x (2 ^ (Z.of_nat (S j) + 1))); [lia|]. apply andb_false_r.
           ++ assert (2 ^ n <= 2 ^ Z.of_nat (S j)) by (apply Z.pow_le_mono_r; lia).
              destruct (Z.ltb_spec (2 ^ Z.of_nat (S j)) x); [lia|]. reflexivity.
Qed.

Lemma of_interval_belongs i x : fine x -> of_interval i x = belongs i x.
Proof.
  intros (L & O). destruct (index_spec x L) as (_ & B). destruct (B O) as (j & E & _ & F). unfold of_interval. rewrite E, F. apply Nat.eqb_sym.
Qed.
