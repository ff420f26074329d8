(** C54: the scheduler of a stream. *)
From Coq Require Import List Permutation.
From Verif.Lib Require Import Base.
From Verif.StreamSched Require Import Model Spec Proofs.
Import ListNotations.

(** There is at most one fiber in Run: the handlers of a stream do not run at the same time. *)
Theorem C54_one_run s : reach s -> length (runs s) <= 1.
Proof. exact (one_run s). Qed.
Print Assumptions C54_one_run.

(** The received messages are handled in order, each one once; all of them are, unless a handler fails. *)
Theorem C54_recv_order s : reach s -> beginning (out_r s) (in_r s) /\ (bad s = false -> runs s = [] -> out_r s = in_r s).
Proof. exact (recv_order s). Qed.
Print Assumptions C54_recv_order.

(** So are the messages to be sent, but for those that are pushed to the front. *)
Theorem C54_send_order s : reach s ->
  fair_order (out_s s) (in_s s) /\ (bad s = false -> runs s = [] -> Permutation (in_s s) (out_s s) /\ backs (in_s s) = backs (out_s s)).
Proof. exact (send_order s). Qed.
Print Assumptions C54_send_order.

(** As long as the stream is not done, a fiber is there when there is something to do. *)
Theorem C54_live s : reach s -> done s = false -> rq s <> [] \/ sq s <> [] \/ term s = true -> exists p, runs s = [p].
Proof. exact (live s). Qed.
Print Assumptions C54_live.

(** The fiber comes to its end if it is left alone, within a number of steps that is known in advance ... *)
Theorem C54_drains s : reach s -> sm s = false -> hm s = false -> exists n s', n <= measure s /\ run_steps n s s' /\ runs s' = [].
Proof. exact (drains s). Qed.
Print Assumptions C54_drains.

(** ... whatever the handlers do. *)
Theorem C54_terminates n s s' : run_steps n s s' -> n <= measure s.
Proof. exact (terminates n s s'). Qed.
Print Assumptions C54_terminates.

(** After Join nothing is handled and nothing is accepted any more. *)
Theorem C54_done s s' : reach s -> done s = true -> step s s' ->
  runs s = [] /\ done s' = true /\ out_r s' = out_r s /\ out_s s' = out_s s /\ in_r s' = in_r s /\ in_s s' = in_s s.
Proof. exact (fun R D St => conj (proj2 (over s R D)) (over_step s s' R D St)). Qed.
Print Assumptions C54_done.

(** A stream that is done was removed from the handler, unless the connection is closed; a stream that is not stopped is kept. *)
Theorem C54_removed s : reach s ->
  (done s = true -> sm s = false -> removes s <> 0 /\ (inmap s = false \/ closed s = true)) /\
  (running s = true -> removes s <= 1) /\ (term s = false -> removes s = 0).
Proof. exact (fun R => conj (removed s R) (conj (removed_once s R) (kept s R))). Qed.
Print Assumptions C54_removed.

(** It is not always removed once: every Stop of an idle stream does it again. *)
Theorem C54_removed_refuted : exists s, reach s /\ removes s = 2.
Proof. exact twice. Qed.
Print Assumptions C54_removed_refuted.

(** What the calls do. *)
Theorem C54_push_send s front m : reach s -> sm s = false ->
  fst (push_send front m s) = negb (term s) /\
  (term s = false ->
     in_s (snd (push_send front m s)) = in_s s ++ [(front, m)] /\
     sq (snd (push_send front m s)) = (if front then (front, m) :: sq s else sq s ++ [(front, m)])) /\
  (term s = true -> snd (push_send front m s) = s).
Proof. exact (calls_send s front m). Qed.
Print Assumptions C54_push_send.

Theorem C54_push_recv s m : reach s -> sm s = false ->
  (term s = false -> in_r (push_recv m s) = in_r s ++ [m] /\ rq (push_recv m s) = rq s ++ [m]) /\ (term s = true -> push_recv m s = s).
Proof. exact (calls_recv s m). Qed.
Print Assumptions C54_push_recv.

Theorem C54_stop s : reach s -> sm s = false -> term (stop s) = true /\ (runs s = [] -> done (stop s) = true).
Proof. exact (calls_stop s). Qed.
Print Assumptions C54_stop.

(** The fiber and those who have a mutex can go on, unless the two mutexes are held crosswise. *)
Theorem C54_progress s : reach s -> runs s <> [] \/ sm s = true \/ hm s = true -> ~ (sm s = true /\ hm s = true) -> exists s', own_step s s'.
Proof. exact (progress s). Qed.
Print Assumptions C54_progress.

(** They can be: Stop of an idle stream has stream_mutex_ and waits for mutex_, TrpcStreamHandler::Stop has mutex_ and waits for
    stream_mutex_.  Then nothing can be done with the stream or the connection any more. *)
Theorem C54_deadlock_refuted : exists s, reach s /\ out_s s = [(false, 7)] /\ sm s = true /\ hm s = true /\ forall s', ~ step s s'.
Proof. exact deadlock_stuck. Qed.
Print Assumptions C54_deadlock_refuted.

(** A fiber handles what was pushed before it started and what comes in meanwhile. *)
Example C54_case : exists s, reach s /\ out_r s = [1; 2] /\ out_s s = [(true, 6); (false, 5); (false, 8)] /\ runs s = [] /\ done s = true /\ removes s = 1.
Proof. exact example. Qed.
