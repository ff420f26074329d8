(** What a connection promises, without looking at how it keeps count. *)
From Coq Require Import List Bool Arith.
From Verif.FiberConn Require Import Model.
Import ListNotations.

(** Threads inside a callback of the connection. *)
Definition in_read (x : rst) : Prop := x = RHs \/ x = RRead.
Definition in_write (x : wst) : Prop := x = WHs \/ x = WFlush.

(** No two different places of a list hold such elements. *)
Definition at_most_one {A} (P : A -> Prop) (l : list A) : Prop :=
  forall a x b y c, l = a ++ x :: b ++ y :: c -> P x -> P y -> False.

(** Somebody writes to the socket. *)
Definition sender_writes (s : cn) : Prop := In SFlush (snds s).
Definition fiber_writes (s : cn) : Prop := In WFlush (wfs s).

(** A call of Send() that found the queue empty and has not decided yet. *)
Definition deciding (x : sst) : Prop := x = SDone \/ x = SLock \/ x = SMutex \/ x = SFlush \/ x = SRest.

(** Somebody will see to the messages in the queue. *)
Definition cared_for (s : cn) : Prop :=
  (exists x, In x (snds s) /\ deciding x) \/ In KRestW (tasks s) \/ wset s = true.

(** Nobody but the network, the callers of Send() and the callers of Stop() has
    anything to do. *)
Definition returned (x : sst) : Prop := x = SOk \/ x = SErr \/ x = STime.
Definition quiet (s : cn) : Prop :=
  tasks s = [] /\ rfs s = [] /\ wfs s = [] /\ efs s = [] /\ Forall returned (snds s) /\
  (str s = StFail \/ str s = StEnd) /\ ksub s = false /\ (queued s = true -> cleaned s <> 0).

(** Steps of the connection itself. *)
Inductive works (e : env) (s : cn) : cn -> Prop :=
| works_task t l s' : tasks s = t :: l -> run_task t (set_tasks l s) = Some s' -> works e s s'
| works_read h bad l1 x l2 y s' : rfs s = l1 ++ x :: l2 -> rstep h bad x s = Some (y, s') ->
    works e s (set_rfs (l1 ++ y ++ l2) s')
| works_write h f l1 x l2 y s' : wfs s = l1 ++ x :: l2 -> wstep h f x s = Some (y, s') ->
    (h = HSucc -> x = WHs -> late_ok e = true \/ done s = true) -> works e s (set_wfs (l1 ++ y ++ l2) s')
| works_err l1 x l2 y s' : efs s = l1 ++ x :: l2 -> estep x s = Some (y, s') -> works e s (set_efs (l1 ++ y ++ l2) s')
| works_send f late l1 x l2 y s' : snds s = l1 ++ x :: l2 -> sstep f late x s = Some (y, s') ->
    works e s (set_snds (l1 ++ y :: l2) s')
| works_start h s' : ststep h s = Some s' -> works e s s'
| works_ksub : ksub s = true -> works e s (sub KKill (set_ksub false s))
| works_clean : queued s = true -> cleaned s = 0 -> works e s (clean s).

(** Later states. *)
Inductive later (e : env) (s : cn) : cn -> Prop :=
| later_refl : later e s s
| later_step s1 s2 : later e s s1 -> step e s1 s2 -> later e s s2.

(** The handshake never finishes inside OnWritable(), and Send() is only called
    after StartHandshaking() has returned. *)
Definition calm (e : env) : Prop := late_ok e = false /\ early_ok e = false.

(** Environments: the calm one; a handshake that may succeed inside OnWritable();
    callers that may send before StartHandshaking() has returned. *)
Definition quick : env := {| late_ok := false; early_ok := false |}.
Definition lateh : env := {| late_ok := true; early_ok := false |}.
Definition earlys : env := {| late_ok := false; early_ok := true |}.

(** This step reads the socket until nothing is left: OnReadable() does, and so does a handshake that asks for more. *)
Definition reads (s s' : cn) : Prop :=
  exists h bad l1 x l2 y s1, rfs s = l1 ++ x :: l2 /\ rstep h bad x s = Some (y, s1) /\ s' = set_rfs (l1 ++ y ++ l2) s1 /\
    (x = RRead \/ x = RHs /\ h = HRead).
(** An event told that there is something to read, and since then nobody has read and reading was not enabled anew (when it
    is, the kernel tells again). *)
Inductive unread (e : env) : cn -> Prop :=
| unread_event s : reach e s -> rset s = true -> unread e (handle_read s)
| unread_step s s' : unread e s -> step e s s' -> ~ reads s s' -> (rset s = false -> rset s' = false) -> unread e s'.
(** Somebody will read: a fiber on its way to the socket, one that will go around once more, or one that suppresses reads
    and is then called again; or reads are off. *)
Definition attended (s : cn) : Prop :=
  (exists x, In x (rfs s) /\ (x = RTop \/ x = RHs \/ x = RRead \/ x = RNeedW \/ x = RSupp)) \/
  In RDec (rfs s) /\ 2 <= revs s \/ In KSuppR (tasks s) \/ rset s = false.
