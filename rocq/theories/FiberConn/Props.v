(** C57: a fiber connection runs its callbacks one at a time, hands the right to
    write from one thread to the next without losing it, and cleans up once. *)
From Coq Require Import List Bool Arith.
From Verif.FiberConn Require Import Model Spec Proofs ProofsQuiet ProofsRuns ProofsTold ProofsMain ProofsUnread.
Import ListNotations.

(** No assertion of the connection fails, whatever the handshake asks for,
    whoever sends and whenever it is stopped. *)
Theorem C57_no_crash : forall e s, calm e -> reach e s -> crash s = false.
Proof. exact no_crash. Qed.
Print Assumptions C57_no_crash.

(** At most one thread writes to the socket, and it has something to write. *)
Theorem C57_one_writer : forall e s, calm e -> reach e s ->
  at_most_one (fun x => x = SFlush) (snds s) /\ at_most_one (fun x => x = WFlush) (wfs s) /\
  ~ (sender_writes s /\ fiber_writes s) /\ (sender_writes s \/ fiber_writes s -> 1 <= qn s /\ done s = true).
Proof. exact one_writer. Qed.
Print Assumptions C57_one_writer.

(** At most one fiber is inside OnReadable() and at most one inside OnWritable(). *)
Theorem C57_one_fiber : forall e s, calm e -> reach e s ->
  at_most_one in_read (rfs s) /\ at_most_one in_write (wfs s).
Proof. exact one_fiber. Qed.
Print Assumptions C57_one_fiber.

(** The restart counts stay between 0 and 2 and an event is enabled exactly when
    its count is not 0. *)
Theorem C57_counts : forall e s, calm e -> reach e s -> en s = true ->
  rcnt s <= 2 /\ wcnt s <= 2 /\ (rset s = true <-> 1 <= rcnt s) /\ (wset s = true <-> 1 <= wcnt s).
Proof. exact counts. Qed.
Print Assumptions C57_counts.

Theorem C57_disabled : forall e s, calm e -> reach e s -> en s = false ->
  rset s = false /\ wset s = false /\ killed s = true.
Proof. exact disabled. Qed.
Print Assumptions C57_disabled.

(** OnCleanup() runs at most once, and when it has, nobody is inside a callback
    or writing to the socket. *)
Theorem C57_cleanup : forall e s, calm e -> reach e s -> cleaned s <= 1 /\ (1 <= cleaned s ->
  en s = false /\ killed s = true /\ (forall x, In x (rfs s) -> x = REnd) /\ (forall x, In x (wfs s) -> x = WEnd) /\
  (forall x, In x (efs s) -> x = EEnd) /\ ~ sender_writes s).
Proof. exact cleanup. Qed.
Print Assumptions C57_cleanup.

(** As long as the connection is not being closed, a message in the queue has
    somebody who will write it. *)
Theorem C57_not_lost : forall e s, calm e -> reach e s -> killed s = false -> 1 <= qn s ->
  if done s then cared_for s else pendw s = true \/ exists x, In x (snds s) /\ deciding x.
Proof. exact not_lost. Qed.
Print Assumptions C57_not_lost.

(** Somebody can go on unless the connection is quiet, and a quiet connection
    was cleaned up if it was to be closed; otherwise it waits for the socket to
    become readable, and writable exactly if something is left to write; during
    the handshake it waits for the one event the handshake asked for. *)
Theorem C57_progress : forall e s, quiet s \/ exists s', works e s s'.
Proof. exact progress. Qed.
Print Assumptions C57_progress.

Theorem C57_works : forall e s s', works e s s' -> step e s s'.
Proof. exact works_step. Qed.
Print Assumptions C57_works.

Theorem C57_quiet : forall e s, calm e -> reach e s -> quiet s ->
  if killed s then cleaned s = 1
  else en s = true /\ (if done s then rset s = true /\ (qn s = 0 <-> wset s = false)
                       else if needr s then rset s = false /\ wset s = true else rset s = true /\ wset s = false).
Proof. exact quiet_ends. Qed.
Print Assumptions C57_quiet.

(** A readable event is not forgotten: until somebody has read the socket, or
    the connection is being closed, somebody will read it or reading is off (and
    turning it on tells again).  A connection that is quiet with reading on has
    read everything it was told of. *)
Theorem C57_read_not_lost : forall e s, calm e -> unread e s -> killed s = false -> attended s.
Proof. exact read_not_lost. Qed.
Print Assumptions C57_read_not_lost.

Theorem C57_read_done : forall e s, calm e -> reach e s -> killed s = false -> quiet s -> rset s = true -> ~ unread e s.
Proof. exact read_done. Qed.
Print Assumptions C57_read_done.

(** The event arrives while the fiber is about to stop. *)
Example C57_unread_case : exists s, unread quick s /\ killed s = false /\ rset s = true /\ rfs s = [RDec] /\ revs s = 2.
Proof. exact unread_case. Qed.

(** Send() fails only if the connection is being closed. *)
Theorem C57_send_error : forall e s, calm e -> reach e s -> In SErr (snds s) -> killed s = true.
Proof. exact error_told. Qed.
Print Assumptions C57_send_error.

(** An error event closes the connection. *)
Theorem C57_error_event : forall e s, calm e -> reach e s ->
  (en s = true -> eseen (handle_close s) = true) /\ (eseen s = true -> killed s = true \/ In EErr (efs s)).
Proof. exact error_event. Qed.
Print Assumptions C57_error_event.

(** FINDING.  A handshake that succeeds inside OnWritable() aborts the process
    when nothing was sent yet: OnWritable() goes on to flush an empty queue. *)
Theorem C57_handshake_abort_refuted : exists s, reach lateh s /\ crash s = true /\ snds s = [] /\ killed s = false.
Proof. exact late_crash. Qed.
Print Assumptions C57_handshake_abort_refuted.

(** FINDING.  If it succeeds while a call of Send() that found the queue empty
    has not yet looked at the state of the handshake, both write to the socket
    at the same time. *)
Theorem C57_handshake_writers_refuted : exists s, reach lateh s /\ sender_writes s /\ fiber_writes s.
Proof. exact late_two. Qed.
Print Assumptions C57_handshake_writers_refuted.

(** FINDING.  A message sent before StartHandshaking() succeeds at once is
    reported as sent and stays in the queue for ever, together with all later
    ones. *)
Theorem C57_early_send_refuted : exists s, reach earlys s /\ snds s = [SOk] /\ killed s = false /\
  forall s', later earlys s s' -> 1 <= qn s' /\ wfs s' = [] /\ ~ sender_writes s'.
Proof. exact early_lost. Qed.
Print Assumptions C57_early_send_refuted.

(** A run through a handshake, two messages, a full socket and Stop(). *)
Example C57_case : exists s, reach quick s /\ quiet s /\ cleaned s = 1 /\ qn s = 0 /\ crash s = false /\ snds s = [SOk; SOk].
Proof. exact case_ok. Qed.
