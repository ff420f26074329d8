(** Polling: when a round is a permutation. *)
From Coq Require Import Permutation Znumtheory.
From Verif.Lib Require Import Base Bytes.
From Verif.LoadBalance Require Import Model Spec Proofs ProofsHash.
Local Open Scope Z_scope.

Lemma dup_pick n idx : 0 < n -> 0 <= idx < 2 ^ 32 -> 2 ^ 32 < idx + n -> ~ (n | 2 ^ 32) ->
  exists j1 j2, 0 <= j1 < j2 /\ j2 < n /\ (idx + j1) mod 2 ^ 32 mod n = (idx + j2) mod 2 ^ 32 mod n.
Proof.
  intros N I W D. set (B := 2 ^ 32) in *. assert (0 < B) by (unfold B; lia). clearbody B.
  set (k := B - idx). set (r := B mod n). assert (R : 0 < r < n).
  { pose proof (Z.mod_pos_bound B n N). assert (r <> 0); [|unfold r in *; lia]. intro Z0. apply D. apply Z.mod_divide; [lia|exact Z0]. }
  assert (Q : exists q, B = q * n + r). { exists (B / n). pose proof (Z.div_mod B n ltac:(lia)). unfold r. lia. }
  destruct Q as (q & Q). assert (K : 0 < k < n) by (unfold k; lia).
  assert (A : forall j, 0 <= j < k -> (idx + j) mod B = B - k + j) by (intros j J; replace (idx + j) with (B - k + j) by (unfold k; lia); apply Z.mod_small; unfold k in *; lia).
  assert (C : forall j, k <= j < n -> j - k < B -> (idx + j) mod B = j - k).
  { intros j J L. replace (idx + j) with (j - k + 1 * B) by (unfold k; lia). rewrite Z.mod_add by lia. apply Z.mod_small. lia. }
  assert (Rb : r <= B) by (apply Z.mod_le; lia).
  destruct (Z_le_gt_dec r k) as [L|L].
  - exists (k - r), k. split; [lia|]. split; [lia|]. rewrite A, C by lia. replace (B - k + (k - r)) with (q * n) by lia. rewrite Z.mod_mul by lia.
    rewrite Z.sub_diag, Z.mod_0_l by lia. reflexivity.
  - exists 0, r. split; [lia|]. split; [lia|]. rewrite A, C by lia. replace (B - k + 0) with (r - k + q * n) by lia. rewrite Z.mod_add by lia.
    reflexivity.
Qed.

Lemma polling_exact eps idx : eps <> [] -> NoDup eps -> 0 <= idx < 2 ^ 32 ->
  (Permutation (snd (pl_nexts (Some (eps, idx)) (length eps))) (map Some eps) <->
   idx + Z.of_nat (length eps) <= 2 ^ 32 \/ (Z.of_nat (length eps) | 2 ^ 32)).
Proof.
  intros Ne Nd I. split; [|apply polling_round; assumption]. intro P.
  destruct (Z_le_gt_dec (idx + Z.of_nat (length eps)) (2 ^ 32)) as [L|L]; [auto|].
  destruct (Zdivide_dec (Z.of_nat (length eps)) (2 ^ 32)) as [Dv|Dv]; [auto|]. exfalso.
  assert (Ln : (0 < length eps)%nat) by (destruct eps; [congruence|cbn; lia]).
  destruct (dup_pick (Z.of_nat (length eps)) idx) as (j1 & j2 & J1 & J2 & E); try assumption; try lia.
  destruct eps as [|d r] eqn:Ee; [congruence|]. rewrite <- Ee in *. rewrite (pl_nexts_spec eps d) in P by assumption. cbn [snd] in P.
  apply Permutation_sym in P. assert (Nd2 : NoDup (map Some eps)) by (apply FinFun.Injective_map_NoDup; [intros x y [= ->]; reflexivity|exact Nd]).
  apply (Permutation_NoDup P) in Nd2. rewrite NoDup_nth_error in Nd2.
  assert (X : Z.to_nat j1 = Z.to_nat j2); [|lia]. apply Nd2; [rewrite map_length, seq_length; lia|].
  rewrite !nth_error_map.
  assert (Q : forall j, (j < length eps)%nat -> nth_error (seq 0 (length eps)) j = Some j).
  { intros j Hj. rewrite (nth_error_nth' _ 0%nat) by (rewrite seq_length; exact Hj). rewrite seq_nth by exact Hj. reflexivity. }
  rewrite !Q by lia. cbn [option_map]. rewrite !Z2Nat.id by lia. rewrite E. reflexivity.
Qed.
