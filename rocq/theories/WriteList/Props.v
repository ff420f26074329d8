(** C56: the queue of bytes to be written of a fiber connection. *)
From Coq Require Import List Arith Bool.
From Verif.WriteList Require Import Model Spec ProofsMain ProofsAlive ProofsRuns.
Import ListNotations.

(** The socket gets the bytes of the messages in the order in which Append exchanged tail_, none twice and none left out. *)
Theorem C56_order : forall cap iovmax s, reach cap iovmax s -> is_beginning (written s) (all_bytes (sent s)).
Proof. exact order. Qed.
Print Assumptions C56_order.

(** A message is reported as written once, in order, and not before its last byte is. *)
Theorem C56_finished : forall cap iovmax s, reach cap iovmax s ->
  is_beginning (finished s) (sent s) /\ is_beginning (all_bytes (finished s)) (written s).
Proof. exact finished_ok. Qed.
Print Assumptions C56_finished.

(** As many messages are in line as calls have put one in. *)
Theorem C56_accepted : forall cap iovmax s, reach cap iovmax s -> length (sent s) = length (filter accepted (prods s)).
Proof. exact accepted_ok. Qed.
Print Assumptions C56_accepted.

(** At most one thread writes. *)
Theorem C56_one_writer : forall cap iovmax s, reach cap iovmax s -> length (flushers s) <= 1.
Proof. exact one_writer. Qed.
Print Assumptions C56_one_writer.

(** No assertion fails and no freed node is touched. *)
Theorem C56_no_crash : forall cap iovmax s, reach cap iovmax s -> crash s = false.
Proof. exact no_crash. Qed.
Print Assumptions C56_no_crash.

(** size_ is exact; it never wraps. *)
Theorem C56_size : forall cap iovmax s, reach cap iovmax s ->
  size s + length (written s) = length (all_bytes (sent s)) + total (map (counted s) (prods s)) + total (map uncounted (flushers s)).
Proof. exact size_ok. Qed.
Print Assumptions C56_size.

(** Every node is in line or about to be, and those in line are the ones of unfinished messages, but for one that is being removed. *)
Theorem C56_no_leak : forall cap iovmax s, reach cap iovmax s ->
  (forall i, mem s i <> None -> In i (live s) \/ exists p, In p (prods s) /\ holds p i) /\
  length (finished s) + length (live s) <= length (sent s) + 1.
Proof. exact no_leak. Qed.
Print Assumptions C56_no_leak.

(** As long as a thread writes or is in Append, and not asleep, some thread can go on. *)
Theorem C56_progress : forall cap iovmax s, reach cap iovmax s ->
  flushers s <> [] \/ (exists p, In p (prods s) /\ ~ at_rest p) -> exists s', own_step cap iovmax s s'.
Proof. exact progress. Qed.
Print Assumptions C56_progress.

(** When no thread writes any more, and the connection is not dead, everything is written, reported and freed. *)
Theorem C56_quiet : forall cap iovmax s, reach cap iovmax s -> dead s = false -> flushers s = [] -> (forall p, In p (prods s) -> at_rest p) ->
  written s = all_bytes (sent s) /\ finished s = sent s /\ size s = 0 /\ tail s = None /\ forall i, mem s i = None.
Proof. exact quiet. Qed.
Print Assumptions C56_quiet.

(** If no message is empty, the connection is killed only when Writev fails. *)
Theorem C56_alive : forall cap iovmax, 0 < iovmax -> forall s z, reach cap iovmax s -> own_step cap iovmax s z -> (forall m, In m (sent z) -> sound m) ->
  dead s = false -> dead z = true -> exists h iov m, flushers s = [FWrite h iov m].
Proof. exact alive. Qed.
Print Assumptions C56_alive.

(** When Append goes on, when it waits and when it is refused *)
Theorem C56_calls : forall cap fresh m last s,
  (cap = 0 \/ size s < cap \/ stopped s = true -> prod_step cap fresh (PCheck m last) s = Some (PSize m, s)) /\
  (0 < cap -> cap <= size s -> stopped s = false -> prod_step cap fresh (PCheck m last) s = Some (if last then PDone false else PSleepy m, s)) /\
  prod_step cap fresh (PSize m) s = Some (PNew m, set_size (size s + length (concat m)) s).
Proof. exact calls. Qed.
Print Assumptions C56_calls.

(** What follows the results of Writev *)
Theorem C56_writes : forall iovmax max again h iov max0 s, length (concat iov) <= max0 ->
  flush_step iovmax max RAgain again (FWrite h iov max0) s = AGo FRest s /\
  flush_step iovmax max RError again (FWrite h iov max0) s = AEnd (set_dead true s) /\
  (forall n, 0 < n -> n <= length (concat iov) -> flush_step iovmax max (RWrote n) again (FWrite h iov max0) s =
     AGo (FSub h n (length (concat iov))) (set_written (written s ++ firstn n (concat iov)) s)) /\
  (forall rc total, 0 < rc -> flush_step iovmax max RAgain again (FNext rc total) s = AGo (if (rc =? total) && again then FLoad else FRest) s).
Proof. exact writes. Qed.
Print Assumptions C56_writes.

(** When there is room again, one of those asleep is woken. *)
Theorem C56_wakes : forall cap iovmax s z h rc total, reach cap iovmax s -> own_step cap iovmax s z -> flushers s = [FSub h rc total] ->
  flushers z = [FRewind h rc rc total] -> size s - rc < cap -> existsb asleep (prods s) = true ->
  length (filter asleep (prods s)) = S (length (filter asleep (prods z))).
Proof. exact wakes. Qed.
Print Assumptions C56_wakes.

(** Finding: an empty message and a second one behind it; the connection is killed with a socket that never failed, and the second is lost. *)
Theorem C56_empty_refuted : exists s, reach 0 4 s /\ dead s = true /\ sent s = [[]; [[7]]] /\ written s = [] /\ flushers s = [] /\ stopped s = false.
Proof. exact empty_kills. Qed.
Print Assumptions C56_empty_refuted.

(** Finding: a thread adds its message though the capacity is used up. *)
Theorem C56_cap_refuted : exists s, reach 1 4 s /\ stopped s = false /\ size s = 1 /\ prods s = [PNew [[1]]; PSize [[2]]].
Proof. exact cap_passed. Qed.
Print Assumptions C56_cap_refuted.

(** Finding: a wake-up is lost; a thread sleeps until its time is over though the queue is empty. *)
Theorem C56_wakeup_refuted : exists s, reach 1 4 s /\ dead s = false /\ flushers s = [] /\ size s = 0 /\ prods s = [PDone true; PAsleep [[2]]].
Proof. exact wake_lost. Qed.
Print Assumptions C56_wakeup_refuted.

(** Two messages, three of their four bytes written in two calls of Writev, the second of which takes bytes of the first message only *)
Example C56_case : exists s, reach 0 4 s /\ sent s = [[[1; 2]; [3]]; [[4]]] /\ written s = [1; 2; 3] /\ size s = 1 /\
  prods s = [PDone true; PDone true] /\ exists h, flushers s = [FRewind h 1 1 2].
Proof. exact case_ok. Qed.
