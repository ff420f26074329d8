(** C68: the latch opens when everything has been counted, and for everybody. *)
From Coq Require Import Bool Arith List ZArith.
From Verif Require Import FiberLatch.Model FiberLatch.Spec FiberLatch.Proofs.
Import ListNotations.
Open Scope Z_scope.

(** Every history is one of a latch: waits and tests pass exactly when nothing is
    left, and a wait with a deadline gives up only while something is. *)
Theorem C68_history : forall c s, reach c s -> latch c (log s) /\ count s = left_ c (log s).
Proof. exact history. Qed.
Print Assumptions C68_history.

(** No wake-up is lost: with nothing left nobody is asleep ... *)
Theorem C68_all_woken : forall c s i t, reach c s -> left_ c (log s) = 0 -> at_ s i <> Waiting t.
Proof. exact all_woken. Qed.
Print Assumptions C68_all_woken.

(** ... and everybody passes with the next step. *)
Theorem C68_passes : forall c s i, reach c s -> dead s = false -> left_ c (log s) = 0 ->
  (at_ s i = Idle -> exec s (Wait i) = Some (say s i (Passed i)) /\ exec s (WaitFor i) = Some (say s i (Passed i))
                     /\ exec s (TryWait i) = Some (say s i (Passed i))) /\
  (at_ s i <> Idle -> exec s (Retry i) = Some (say s i (Passed i))).
Proof. exact passes. Qed.
Print Assumptions C68_passes.

(** An open latch stays open, if no update is negative. *)
Theorem C68_stays_open : forall c s a s', reach c s -> left_ c (log s) = 0 -> nonneg a ->
  exec s a = Some s' -> left_ c (log s') = 0.
Proof. exact stays_open. Qed.
Print Assumptions C68_stays_open.

(** The checks end the process only if more is counted than is left. *)
Theorem C68_dies_only_over : forall c s, reach c s -> 0 <= c -> dead s = true ->
  exists u r, log s = Over u :: r /\ left_ c r < u.
Proof. exact dies_only_over. Qed.
Print Assumptions C68_dies_only_over.

(** A negative update is accepted and closes the latch on a fiber already woken. *)
Theorem C68_rearm_refuted : exists s, reach 1 s /\ left_ 1 (tl (log s)) = 0 /\ at_ s 0%nat = Waiting false.
Proof. exact rearm. Qed.
Print Assumptions C68_rearm_refuted.

(** A latch made with a negative count: WaitFor waits where Wait ends the process. *)
Theorem C68_below_refuted : exists s s', reach (-1) s /\ exec s (WaitFor 0) = Some (go s 0 (Waiting true)) /\
  exec s (Wait 0) = Some s' /\ dead s' = true.
Proof. exact below. Qed.
Print Assumptions C68_below_refuted.

(** Three to count: one fiber waits, one waits with a deadline and gives up after
    two; the third opens the latch. *)
Example C68_example :
  option_map (fun s => (rev (log s), count s))
    (run (init 3) [Wait 0; WaitFor 1; CountDown 2; TryWait 2; Expire 1; Retry 1; CountDown 1; Retry 0; WaitFor 1; CountDown 1])
  = Some ([Counted 2; Missed 2; Missed 1; Counted 1; Passed 0; Passed 1; Over 1], 0).
Proof. vm_compute. reflexivity. Qed.
