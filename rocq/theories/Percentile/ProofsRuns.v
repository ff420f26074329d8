(** Where percentiles go wrong. *)
From Coq Require Import List ZArith Bool Lia Permutation.
From Verif.Lib Require Import Base ListX Count.
From Verif.Percentile Require Import Model Spec ProofsLog ProofsMerge ProofsFind ProofsMain.
Import ListNotations.
Open Scope Z_scope.

Lemma merge_large n n2 m v w o : sampled n2 m w -> n2 < len m -> merge n v w o = Abort.
Proof.
  intros (A & B & _ & _) L. unfold merge. cbv zeta. unfold size. fold (len (samples v)) (len (samples w)). rewrite A, B.
  pose proof (len_pos (samples w)). pose proof (len_pos m). destruct (Z.eqb_spec (len m) 0); [lia|]. destruct (Z.eqb_spec (Z.min (len m) n2) (len m)); [lia|]. reflexivity.
Qed.

Lemma merge_wraps v w o : 0 <= added v < 4294967296 -> len (samples v) = 254 -> 1 <= len (samples w) <= 30 -> added w = len (samples w) ->
  4294967296 <= added v + added w -> merge 254 v w o = Abort.
Proof.
  intros A S W AW O. unfold merge. cbv zeta. unfold size. fold (len (samples v)) (len (samples w)). rewrite AW, S, Z.eqb_refl. cbn [negb].
  destruct (Z.eqb_spec (len (samples w)) 0); [lia|].
  assert (U : u32 (added v + len (samples w)) = added v + len (samples w) - 4294967296).
  { unfold u32, two32. change (2 ^ 32) with 4294967296. symmetry. apply Z.mod_unique with 1; lia. }
  rewrite U. destruct (Z.leb_spec (added v + len (samples w) - 4294967296) 254); [|lia]. destruct (Z.eqb_spec 254 (added v)); [lia|]. reflexivity.
Qed.

Lemma twice : exists l s g m, run l init = Some (Ok (s, [(g, m)])) /\ Forall fine (called l) /\ len (called l) = 31 /\ total g = 60.
Proof.
  exists (PNew :: repeat (PCall 0 7) 31 ++ [PNext 0 []; PReset; PVisit []; PReturn]).
  eexists _, _, _. split; [vm_compute; reflexivity|]. split; [|split; [vm_compute; reflexivity|vm_compute; reflexivity]].
  assert (H : fine 7) by (split; [unfold latency; lia|intros (k & K & E); pose proof (Z.pow_pos_nonneg 2 k); lia]).
  change (Forall fine (repeat 7 31)). apply Forall_forall. intros x X. apply repeat_spec in X. subst x. exact H.
Qed.

Lemma stale : exists v x w, sampled 254 [8; 9] v /\ sample_at 0 v = (8, w) /\ fst (sample_at 0 (add32 254 x w)) = 8 /\ kth 1 x [8; 9; x] /\ x <> 8.
Proof.
  exists {| added := 2; sorted := false; samples := [8; 9] |}, 5. eexists. split; [|split; [vm_compute; reflexivity|]].
  - repeat split. exists []. apply Permutation_refl.
  - split; [vm_compute; reflexivity|]. split; [vm_compute; split; [reflexivity|discriminate]|lia].
Qed.

Lemma many : exists gs o, Forall (holds 254 [7]) gs /\ len gs = 1023 /\ percentile 1 gs o = Ok 0.
Proof.
  exists (repeat (with_iv 2 {| added := 1; sorted := false; samples := [7] |} 1 empty) 1023), (repeat 1022 1023).
  split; [|split].
  - assert (H : fine 7) by (split; [unfold latency; lia|intros (k & K & E); pose proof (Z.pow_pos_nonneg 2 k); lia]).
    apply Forall_forall. intros g G. apply repeat_spec in G. subst g. split; [constructor; [exact H|constructor]|]. split; [reflexivity|]. split; [reflexivity|].
    intros i v N. assert (LT : (i < length (ivs (with_iv 2 {| added := 1; sorted := false; samples := [7]%Z |} 1 empty)))%nat) by (apply nth_error_Some; congruence).
    change (length (ivs (with_iv 2 {| added := 1; sorted := false; samples := [7] |} 1 empty))) with 32%nat in LT.
    do 3 (destruct i as [|i]; [cbn in N; injection N as <-; repeat split; exists []; reflexivity|]).
    destruct i as [|i]; [cbn in N; injection N as <-; repeat split; exists []; reflexivity|].
    assert (E : v = fresh).
    { do 28 (destruct i as [|i]; [cbn in N; injection N as <-; reflexivity|]). lia. }
    assert (F : filter (belongs (S (S (S (S i))))) [7] = []).
    { cbn [filter belongs]. destruct (Z.ltb_spec (2 ^ Z.of_nat (S (S (S (S i))))) 7) as [L|L]; [|reflexivity].
      pose proof (Z.pow_le_mono_r 2 3 (Z.of_nat (S (S (S (S i))))) ltac:(lia) ltac:(lia)). change (2 ^ 3) with 8 in *. lia. }
    rewrite F, E. apply sampled_fresh. lia.
  - unfold len. rewrite repeat_length. reflexivity.
  - vm_compute. reflexivity.
Qed.
