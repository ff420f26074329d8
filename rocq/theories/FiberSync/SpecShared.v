(** What a shared mutex should do. *)
From Verif.Lib Require Import Base.
From Verif.FiberSync Require Import ModelShared.

(** The lock has been given to the fiber. *)
Definition reads (c : pc) : Prop := c = RRel \/ c = Reading.
Definition writes (c : pc) : Prop := c = WRel \/ c = Writing.
(** It waits for other fibers. *)
Definition waits (c : pc) : Prop := c = RSleep \/ c = WSleep \/ c = WLock.
(** A writer that has announced itself in reader_quota_ and has not taken that back yet. *)
Definition claims (c : pc) : Prop :=
  (exists p, c = WWant p \/ c = WAdd p) \/ c = WChk \/ c = WGo \/ c = WSleep \/ c = WRe \/ c = WRel \/ c = Writing.
(** It is in lock_shared() and has not got the lock. *)
Definition asks (c : pc) : bool := match c with RWant | RChk | RGo | RSleep => true | _ => false end.
Definition stuck (s : shm) : Prop := forall i s', ~ tstep i s s'.
