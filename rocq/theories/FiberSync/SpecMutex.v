(** What a mutex should do. *)
From Verif.Lib Require Import Base.
From Verif.FiberSync Require Import ModelMutex.

(** The lock has been given to the thread: it is in its critical section or about to enter it. *)
Definition holds (c : pc) : Prop := c = LRet \/ c = LWoken \/ c = Own.
(** It is passing the lock on. *)
Definition passing (c : pc) : Prop := c = USlow \/ c = UWake \/ (exists t, c = UUnl t) \/ (exists t, c = URes t).
(** It waits until the lock is handed to it. *)
Definition waits (c : pc) : Prop := c = LUnl \/ c = LSleep.
Definition stuck (s : mutex) : Prop := forall i s', ~ tstep i s s'.
