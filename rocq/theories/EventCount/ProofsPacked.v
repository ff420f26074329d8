From Coq Require Import ZArith Lia Bool.
From Verif Require Import EventCount.Packed.
Local Open Scope Z_scope.

Lemma land_field x m n : 0 <= m -> 0 <= n ->
  Z.land x (Z.shiftl (Z.ones n) m) = ((x / 2 ^ m) mod 2 ^ n) * 2 ^ m.
Proof.
  intros A B. rewrite <- Z.shiftr_div_pow2, <- Z.land_ones, <- Z.shiftl_mul_pow2 by assumption.
  apply Z.bits_inj'. intros i I. rewrite Z.land_spec, !Z.shiftl_spec by assumption.
  destruct (Z.lt_ge_cases i m) as [L|G].
  - rewrite !Z.testbit_neg_r with (n := i - m) by lia. apply andb_false_r.
  - rewrite Z.land_spec, Z.shiftr_spec by lia. replace (i - m + m) with i by lia. reflexivity.
Qed.

Lemma field_stack e p k : 0 <= k < 2 ^ 16 -> Z.land (packed e p k) kStackMask = k.
Proof.
  intros K. change kStackMask with (Z.ones 16). rewrite Z.land_ones by lia. unfold packed.
  replace (e mod 2 ^ 32 * 2 ^ 32 + p * 2 ^ 16 + k) with (k + (e mod 2 ^ 32 * 2 ^ 16 + p) * 2 ^ 16) by ring.
  rewrite Z.mod_add by lia. apply Z.mod_small; exact K.
Qed.

Lemma field_waiter e p k : 0 <= k < 2 ^ 16 -> 0 <= p < 2 ^ 16 -> Z.land (packed e p k) kWaiterMask = p * 2 ^ 16.
Proof.
  intros K P. change kWaiterMask with (Z.shiftl (Z.ones 16) 16). rewrite land_field by lia. f_equal. unfold packed.
  replace (e mod 2 ^ 32 * 2 ^ 32 + p * 2 ^ 16 + k) with (k + (e mod 2 ^ 32 * 2 ^ 16 + p) * 2 ^ 16) by ring.
  rewrite Z.div_add, Z.div_small by lia. rewrite Z.add_0_l, Z.add_comm, Z.mod_add by lia. apply Z.mod_small; exact P.
Qed.

Lemma field_epoch e p k : 0 <= k < 2 ^ 16 -> 0 <= p < 2 ^ 16 -> Z.land (packed e p k) kEpochMask = (e mod 2 ^ 32) * 2 ^ 32.
Proof.
  intros K P. change kEpochMask with (Z.shiftl (Z.ones 32) 32). rewrite land_field by lia. f_equal. unfold packed.
  replace (e mod 2 ^ 32 * 2 ^ 32 + p * 2 ^ 16 + k) with ((p * 2 ^ 16 + k) + (e mod 2 ^ 32) * 2 ^ 32) by ring.
  rewrite Z.div_add, Z.div_small by lia. rewrite Z.add_0_l. apply Z.mod_mod. lia.
Qed.

Lemma u64_hi a r : 0 <= r < 2 ^ 32 -> u64 (a * 2 ^ 32 + r) = (a mod 2 ^ 32) * 2 ^ 32 + r.
Proof.
  intros R. unfold u64. replace (2 ^ 64) with (2 ^ 32 * 2 ^ 32) by reflexivity.
  rewrite (Z.div_mod a (2 ^ 32)) at 1 by lia.
  replace ((2 ^ 32 * (a / 2 ^ 32) + a mod 2 ^ 32) * 2 ^ 32 + r) with ((a mod 2 ^ 32 * 2 ^ 32 + r) + (a / 2 ^ 32) * (2 ^ 32 * 2 ^ 32)) by ring.
  rewrite Z.mod_add by lia. apply Z.mod_small. pose proof (Z.mod_pos_bound a (2 ^ 32)). nia.
Qed.

Lemma emod a b : (a mod 2 ^ 32 + b) mod 2 ^ 32 = (a + b) mod 2 ^ 32.
Proof. rewrite Z.add_mod_idemp_l by lia. reflexivity. Qed.

Lemma packed_prepare e p k : 0 <= k < 2 ^ 16 -> 0 <= p < 2 ^ 16 - 1 -> b_prepare (packed e p k) = packed e (p + 1) k.
Proof.
  intros K P. unfold b_prepare, packed, kWaiterInc. rewrite Z.shiftl_1_l.
  replace (e mod 2 ^ 32 * 2 ^ 32 + p * 2 ^ 16 + k + 2 ^ 16) with (e mod 2 ^ 32 * 2 ^ 32 + ((p + 1) * 2 ^ 16 + k)) by ring.
  rewrite u64_hi, Z.mod_mod by lia. ring.
Qed.

Lemma packed_ticket e p k : 0 <= k < 2 ^ 16 -> 0 <= p < 2 ^ 16 -> b_ticket (packed e p k) = ((e + p) mod 2 ^ 32) * 2 ^ 32.
Proof.
  intros K P. unfold b_ticket. rewrite field_epoch, field_waiter by assumption.
  rewrite Z.shiftr_div_pow2, Z.div_mul, Z.shiftl_mul_pow2 by lia.
  replace (e mod 2 ^ 32 * 2 ^ 32 + p * 2 ^ 32) with ((e mod 2 ^ 32 + p) * 2 ^ 32 + 0) by ring.
  rewrite u64_hi, emod by lia. ring.
Qed.

Lemma packed_cancel e p k : 0 <= k < 2 ^ 16 -> 1 <= p < 2 ^ 16 -> b_cancel (packed e p k) = packed (e + 1) (p - 1) k.
Proof.
  intros K P. unfold b_cancel, packed, kWaiterInc, kEpochInc. rewrite !Z.shiftl_1_l.
  replace (e mod 2 ^ 32 * 2 ^ 32 + p * 2 ^ 16 + k - 2 ^ 16 + 2 ^ 32)
    with ((e mod 2 ^ 32 + 1) * 2 ^ 32 + ((p - 1) * 2 ^ 16 + k)) by ring.
  rewrite u64_hi, emod by lia. ring.
Qed.

Lemma packed_one e p k : 0 <= k < 2 ^ 16 -> 1 <= p < 2 ^ 16 -> b_one (packed e p k) = packed (e + 1) (p - 1) k.
Proof.
  intros K P. rewrite <- packed_cancel by assumption. unfold b_one, b_cancel. f_equal. lia.
Qed.

Lemma packed_commit e p k w : 0 <= k < 2 ^ 16 -> 1 <= p < 2 ^ 16 -> 0 <= w < 2 ^ 16 ->
  b_commit (packed e p k) w = packed (e + 1) (p - 1) w.
Proof.
  intros K P W. unfold b_commit. fold (b_cancel (packed e p k)). rewrite packed_cancel by assumption.
  change (u64 (Z.lnot kStackMask)) with (Z.shiftl (Z.ones 48) 16). rewrite land_field by lia.
  assert (D : packed (e + 1) (p - 1) k / 2 ^ 16 mod 2 ^ 48 = (e + 1) mod 2 ^ 32 * 2 ^ 16 + (p - 1)).
  { unfold packed.
    replace ((e + 1) mod 2 ^ 32 * 2 ^ 32 + (p - 1) * 2 ^ 16 + k)
      with (k + ((e + 1) mod 2 ^ 32 * 2 ^ 16 + (p - 1)) * 2 ^ 16) by ring.
    rewrite Z.div_add, Z.div_small by lia. rewrite Z.add_0_l. apply Z.mod_small.
    pose proof (Z.mod_pos_bound (e + 1) (2 ^ 32)). lia. }
  rewrite D.
  assert (Z0 : Z.land (((e + 1) mod 2 ^ 32 * 2 ^ 16 + (p - 1)) * 2 ^ 16) w = 0).
  { set (a := (e + 1) mod 2 ^ 32 * 2 ^ 16 + (p - 1)).
    replace w with (Z.land w (Z.ones 16)) by (rewrite Z.land_ones by lia; apply Z.mod_small; lia).
    rewrite Z.land_assoc, (Z.land_comm _ w), <- Z.land_assoc.
    rewrite Z.land_ones, Z.mod_mul by lia. apply Z.land_0_r. }
  rewrite <- Z.lxor_lor, <- Z.add_nocarry_lxor by exact Z0. unfold packed. ring.
Qed.

Lemma packed_nobody e p k : 0 <= k < 2 ^ 16 -> 0 <= p < 2 ^ 16 ->
  (b_nobody (packed e p k) = true <-> p = 0 /\ k = 2 ^ 16 - 1).
Proof.
  intros K P. unfold b_nobody. rewrite field_stack, field_waiter by assumption.
  rewrite andb_true_iff, !Z.eqb_eq. change kStackMask with (2 ^ 16 - 1). lia.
Qed.

Lemma packed_all e p k : 0 <= k < 2 ^ 16 -> 0 <= p < 2 ^ 16 -> b_all (packed e p k) = packed (e + p) 0 (2 ^ 16 - 1).
Proof.
  intros K P. unfold b_all. rewrite field_epoch, field_waiter by assumption.
  rewrite Z.shiftr_div_pow2, Z.div_mul by lia. change kEpochInc with (2 ^ 32). change kStackMask with (2 ^ 16 - 1).
  replace (e mod 2 ^ 32 * 2 ^ 32 + 2 ^ 32 * p + (2 ^ 16 - 1)) with ((e mod 2 ^ 32 + p) * 2 ^ 32 + (2 ^ 16 - 1)) by ring.
  rewrite u64_hi, emod by lia. unfold packed. ring.
Qed.

Lemma packed_pop e k next : 0 <= k < 2 ^ 16 -> 0 <= next < 2 ^ 16 -> b_pop (packed e 0 k) next = packed e 0 next.
Proof.
  intros K N. unfold b_pop. rewrite field_epoch by lia. rewrite u64_hi, Z.mod_mod by lia. unfold packed. ring.
Qed.

Lemma packed_compare e p k t : 0 <= k < 2 ^ 16 -> 0 <= p < 2 ^ 16 -> - 2 ^ 31 < e - t < 2 ^ 31 ->
  b_compare (packed e p k) ((t mod 2 ^ 32) * 2 ^ 32) = (e - t) * 2 ^ 32.
Proof.
  intros K P D. unfold b_compare, i64. rewrite field_epoch by assumption.
  replace (e mod 2 ^ 32 * 2 ^ 32 - t mod 2 ^ 32 * 2 ^ 32) with ((e mod 2 ^ 32 - t mod 2 ^ 32) * 2 ^ 32 + 0) by ring.
  rewrite u64_hi by lia. rewrite <- Zminus_mod, Z.add_0_r.
  destruct (Z.lt_ge_cases (e - t) 0) as [N|N].
  - replace ((e - t) mod 2 ^ 32) with (e - t + 2 ^ 32).
    + destruct (Z.ltb_spec ((e - t + 2 ^ 32) * 2 ^ 32) (2 ^ 63)); lia.
    + rewrite <- (Z.mod_add _ 1) by lia. rewrite Z.mod_small; lia.
  - rewrite Z.mod_small by lia. destruct (Z.ltb_spec ((e - t) * 2 ^ 32) (2 ^ 63)); lia.
Qed.

Lemma packed_ops e p k w :
  0 <= k < 2 ^ 16 -> 0 <= p < 2 ^ 16 -> 0 <= w < 2 ^ 16 ->
  (p < 2 ^ 16 - 1 -> b_prepare (packed e p k) = packed e (p + 1) k) /\
  b_ticket (packed e p k) = ((e + p) mod 2 ^ 32) * 2 ^ 32 /\
  (1 <= p -> b_commit (packed e p k) w = packed (e + 1) (p - 1) w) /\
  (1 <= p -> b_cancel (packed e p k) = packed (e + 1) (p - 1) k) /\
  (1 <= p -> b_one (packed e p k) = packed (e + 1) (p - 1) k) /\
  (b_nobody (packed e p k) = true <-> p = 0 /\ k = 2 ^ 16 - 1) /\
  b_all (packed e p k) = packed (e + p) 0 (2 ^ 16 - 1) /\
  b_pop (packed e 0 k) w = packed e 0 w.
Proof.
  intros K P W.
  split; [intros; apply packed_prepare; lia|]. split; [apply packed_ticket; assumption|].
  split; [intros; apply packed_commit; lia|]. split; [intros; apply packed_cancel; lia|].
  split; [intros; apply packed_one; lia|]. split; [apply packed_nobody; assumption|].
  split; [apply packed_all; assumption|]. apply packed_pop; assumption.
Qed.
