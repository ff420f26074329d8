(** Properties C37 and C38: the asynchronous semaphore and read-write lock. *)
From Coq Require Import Permutation.
From Verif.Lib Require Import Base.
From Verif.AsyncLock Require Import Model Spec Proofs.
Local Open Scope Z_scope.

(** However calls nest (without Broke): no undefined behaviour; units are conserved (as size_t); units are
    taken strictly in the order of the Wait calls, [s_next] of which were made so far (or successful TryWait
    calls); and promises are set in the order of those who had to wait. *)
Theorem C37_fifo : forall count l, 0 <= count < 2 ^ 64 -> Forall plain l -> exists s,
  do_calls l (sem_init count) = Ok s /\
  s_count s = (count + signalled (s_log s) - taken (s_log s)) mod 2 ^ 64 /\
  takers (s_log s) ++ map e_id (s_wait s) = seq 0 (s_next s) /\
  queued (s_log s) = notified (s_log s) ++ in_flight (s_stack s) ++ map e_id (s_wait s) /\
  failures (s_log s) = [].
Proof. exact sem_correct. Qed.
Print Assumptions C37_fifo.

(** If no promise is left to be set and yet the next waiter would fit, then nobody called Signal since the last
    promise was set. *)
Theorem C37_leftover : forall count l s, 0 <= count < 2 ^ 64 -> Forall plain l -> do_calls l (sem_init count) = Ok s ->
  in_flight (s_stack s) = [] -> fits s ->
  exists l1 i l2, s_log s = l1 ++ [Notified i] ++ l2 /\ no_signal l2.
Proof. exact sem_leftover. Qed.
Print Assumptions C37_leftover.

(** Broke: as long as it is not called by a callback it runs itself, every waiter is told exactly once. *)
Theorem C37_broke : forall count l, orderly l (sem_init count) -> exists s,
  do_calls l (sem_init count) = Ok s /\
  Permutation (queued (s_log s)) (notified (s_log s) ++ failures (s_log s) ++ in_flight (s_stack s) ++ map e_id (untouched s)) /\
  (s_broken s = true -> s_stack s = [] -> s_wait s = [] /\ Permutation (queued (s_log s)) (notified (s_log s) ++ failures (s_log s))).
Proof. exact broke_correct. Qed.
Print Assumptions C37_broke.

(** At any time there is at most one writer, and then no reader; nobody overtakes. *)
Theorem C38_exclusion : forall l, matched l (sem_init max_ops) -> exists s,
  do_calls (map rw_to_sem l) (sem_init max_ops) = Ok s /\
  0 <= readers (s_log s) /\ 0 <= writers (s_log s) <= 1 /\ (writers (s_log s) = 1 -> readers (s_log s) = 0) /\
  takers (s_log s) ++ map e_id (s_wait s) = seq 0 (s_next s).
Proof. exact rw_correct. Qed.
Print Assumptions C38_exclusion.

(** Concrete: two waiters wait for 2 and 1, the callback of the first waits again. *)
Example C37_run : match do_calls [CWait 2; CWait 1; CSignal 2; CWait 5; CReturn; CSignal 1; CReturn; CSignal 5; CReturn] (sem_init 0) with
  | Ok s => (s_log s, s_count s, s_stack s) =
      ([Queued 0; Queued 1; Signalled 2; Took 0 2; Notified 0; Queued 2; Signalled 1; Took 1 1; Notified 1;
        Signalled 5; Took 2 5; Notified 2], 0, [])
  | _ => False end.
Proof. reflexivity. Qed.
Example C38_run : match do_calls (map rw_to_sem [RwRead; RwRead; RwWrite; RwRead; RwReadUnlock; RwReadUnlock; RwReturn; RwWriteUnlock])
                                 (sem_init max_ops) with
  | Ok s => (takers (s_log s), readers (s_log s), writers (s_log s), map e_id (s_wait s)) = ([0; 1; 2; 3]%nat, 1, 0, [])
  | _ => False end.
Proof. reflexivity. Qed.

(** Findings. *)

(** A unit signalled by a callback while other promises are to be set is not given to the next waiter, who
    waits next to an available unit after all calls have returned. *)
Theorem C37_stuck_refuted : exists l s, Forall plain l /\ do_calls l (sem_init 0) = Ok s /\ s_stack s = [] /\ fits s.
Proof.
  exists [CWait 1; CWait 1; CWait 1; CSignal 2; CSignal 1; CReturn; CReturn]. eexists.
  split; [repeat constructor; cbn; lia|]. split; [reflexivity|]. split; [reflexivity|]. cbn. lia.
Qed.
Print Assumptions C37_stuck_refuted.

(** Broke called by a callback of Broke pops from an empty list. *)
Theorem C37_broke_nested_refuted : exists l, do_calls l (sem_init 0) = UB.
Proof. exists [CWait 1; CBroke; CBroke; CReturn; CReturn]. reflexivity. Qed.
Print Assumptions C37_broke_nested_refuted.

(** Waiting for nothing succeeds on a broken semaphore. *)
Theorem C37_broken_wait_refuted : exists l s, do_calls l (sem_init 3) = Ok s /\ s_broken s = true /\ takers (s_log s) = [0%nat].
Proof. exists [CBroke; CWait 0]. eexists. split; [reflexivity|]. split; reflexivity. Qed.
Print Assumptions C37_broken_wait_refuted.

(** One unlock too many wraps the counter to 0: nobody gets the lock any more. *)
Theorem C38_unmatched_refuted : exists s, do_calls (map rw_to_sem [RwReadUnlock; RwRead; RwTryWrite; RwWrite]) (sem_init max_ops) = Ok s /\
  takers (s_log s) = [] /\ map e_id (s_wait s) = [0; 1]%nat.
Proof. eexists. split; [reflexivity|]. split; reflexivity. Qed.
Print Assumptions C38_unmatched_refuted.
