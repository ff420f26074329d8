(** Properties C30 and C33: bounded queue, rounding up to a power of two. *)
From Verif.Lib Require Import Base.
From Verif.Container Require Import Model Spec Proofs.
Local Open Scope Z_scope.

(* ------------------------------------------------------------------------- *)
(** * C30: bounded queue *)

(** Two queues, any calls on them and swaps between them: every answer is the deque's.  In
    particular no call reads or destroys raw memory, overwrites a live item or loops. *)
Theorem C30_is_a_bounded_deque :
  forall (A : Type) c1 c2 calls,
  1 <= c1 <= 2 ^ 31 -> 1 <= c2 <= 2 ^ 31 ->
  let '(l1, l2, answers) := deque_calls c1 c2 [] [] calls in
  exists q1 q2, bq_calls (bq_new A c1) (bq_new A c2) calls = Ok (q1, q2, answers).
Proof. exact bounded_queue_deque. Qed.
Print Assumptions C30_is_a_bounded_deque.

(** Finding: with capacity above 2^31 the 32-bit index start_ + count_ wraps; here the third item
    is constructed over the second. *)
Theorem C30_huge_capacity_refuted :
  bq_calls (bq_new nat (2 ^ 32 - 1)) (bq_new nat 1)
    [inl (true, QPushTop 1%nat); inl (true, QPush 2%nat); inl (true, QPush 3%nat)] = UB.
Proof. exact bounded_queue_huge. Qed.
Print Assumptions C30_huge_capacity_refuted.

(** Finding: ElimPush on a queue without room for any item writes outside the memory. *)
Theorem C30_zero_capacity_refuted :
  forall q2 x, bq_calls (bq_new nat 0) q2 [inl (true, QElimPush x)] = UB.
Proof. exact bounded_queue_zero. Qed.
Print Assumptions C30_zero_capacity_refuted.

Example C30_case :
  let on c := @inl (bool * bq_call nat) unit (true, c) in
  exists q1 q2, bq_calls (bq_new nat 3) (bq_new nat 1)
    [on (QPush 1); on (QPush 2); on (QPushTop 3); on (QPush 4); on (QElimPush 5); on QFull; on (QBottom 1);
     on QPopBottom; on QPop; inr tt; inl (false, QTop 0); on QEmpty; on (QPush 7); on (QElimPush 8); on QPop; on QPop]%nat =
  Ok (q1, q2, [ABool true; ABool true; ABool true; ABool false; AUnit; ABool true; AItem (Some 2);
     AItem (Some 5); AItem (Some 1); AItem (Some 2); ABool true; ABool true; AUnit; AItem (Some 8); AItem None])%nat.
Proof. eexists. eexists. vm_compute. reflexivity. Qed.

(* ------------------------------------------------------------------------- *)
(** * C33: rounding up *)

Theorem C33_rounds_up :
  forall n, 0 <= n <= 2 ^ 63 ->
  exists e r, round_up n = Ok r /\ 0 <= e <= 63 /\ r = 2 ^ e /\ n <= r /\ 1 <= r /\
    ((exists k, 0 < k /\ n = 2 ^ k) -> r = n) /\ (2 <= n -> r < 2 * n).
Proof. exact round_up_spec. Qed.
Print Assumptions C33_rounds_up.

(** Finding: above 2^63 the loop never ends, however long it runs. *)
Theorem C33_hangs_above_2_63_refuted :
  forall n, 2 ^ 63 < n < 2 ^ 64 -> forall fuel, round_loop fuel 1 n = NoFuel.
Proof. exact round_up_hangs. Qed.
Print Assumptions C33_hangs_above_2_63_refuted.

(** Finding: 1 is a power of two, but is rounded up to 2. *)
Theorem C33_one_refuted : round_up 1 = Ok 2.
Proof. exact eq_refl. Qed.
Print Assumptions C33_one_refuted.

Example C33_case :
  map round_up [0; 2; 3; 1000; 4096; 4097; 2 ^ 63 - 1; 2 ^ 63] =
  map Ok [1; 2; 4; 1024; 4096; 8192; 2 ^ 63; 2 ^ 63].
Proof. vm_compute. reflexivity. Qed.
