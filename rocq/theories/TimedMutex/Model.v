(** The fiber mutex that can give up waiting.
    Source: trpc/coroutine/fiber_timed_mutex.cc lines 20-68, class FiberTimedMutex.

    Simplified:
    - what a member function does under mutex_ is one step (C40);
    - waiting on cv_ is being in a set: notify_one wakes any one waiting fiber, if
      there is one (C52), a deadline wakes a fiber that has one, and a fiber may
      wake without a reason;
    - fibers are numbered below [n]; time is not modelled. *)
From Coq Require Import List Bool Arith.
Import ListNotations.

(** Where a fiber is.  [timed]: it called try_lock_for or try_lock_until. *)
Inductive pc :=
| Idle
| Held                             (* it has the mutex *)
| Waiting (timed : bool)           (* on cv_ *)
| Woken (timed expired : bool).    (* woken, before it has mutex_ again *)

(** What the calls report: an attempt failed, the mutex was taken, it was released. *)
Inductive event := Failed (i : nat) | Took (i : nat) | Released (i : nat).

Record st := { locked : bool; at_ : nat -> pc; log : list event }.

Definition init : st := {| locked := false; at_ := fun _ => Idle; log := [] |}.

Definition upd (f : nat -> pc) (i : nat) (p : pc) : nat -> pc := fun k => if k =? i then p else f k.

Definition take (s : st) (i : nat) : st := {| locked := true; at_ := upd (at_ s) i Held; log := Took i :: log s |}.
Definition give_up (s : st) (i : nat) : st := {| locked := locked s; at_ := upd (at_ s) i Idle; log := Failed i :: log s |}.
Definition go (s : st) (i : nat) (p : pc) : st := {| locked := locked s; at_ := upd (at_ s) i p; log := log s |}.

Definition waits (p : pc) : bool := match p with Waiting _ => true | _ => false end.
(** Is fiber [k] waiting, or nobody if there is no [k]? *)
Definition can_notify (n : nat) (s : st) (k : option nat) : bool :=
  match k with
  | Some k => (k <? n) && waits (at_ s k)
  | None => forallb (fun k => negb (waits (at_ s k))) (seq 0 n)
  end.

(** notify_one. *)
Definition notify (s : st) (k : option nat) : st :=
  match k with
  | Some k => match at_ s k with Waiting t => go s k (Woken t false) | _ => s end
  | None => s
  end.

Inductive action :=
| Lock (i : nat)                       (* lock(), lines 20-27 *)
| TryLock (i : nat)                    (* try_lock(), lines 29-37 *)
| TimedLock (i : nat)                  (* try_lock_for, try_lock_until, lines 39-61 *)
| Unlock (i : nat) (k : option nat)    (* unlock(), lines 63-68, which wakes k *)
| Expire (i : nat)                     (* the deadline of i passes *)
| Spurious (i : nat)                   (* i wakes without a reason *)
| Retry (i : nat).                     (* i has mutex_ again and tests locked_ *)

(** [polite]: unlock is called only by the fiber that has the mutex. *)
Definition exec (polite : bool) (n : nat) (s : st) (a : action) : option st :=
  match a with
  | Lock i =>
      match (i <? n), at_ s i with
      | true, Idle => Some (if locked s then go s i (Waiting false) else take s i)
      | _, _ => None
      end
  | TryLock i =>
      match (i <? n), at_ s i with
      | true, Idle => Some (if locked s then give_up s i else take s i)
      | _, _ => None
      end
  | TimedLock i =>
      match (i <? n), at_ s i with
      | true, Idle => Some (if locked s then go s i (Waiting true) else take s i)
      | _, _ => None
      end
  | Unlock i k =>
      match (i <? n) && can_notify n s k, at_ s i with
      | true, Held => Some (notify {| locked := false; at_ := upd (at_ s) i Idle; log := Released i :: log s |} k)
      | true, Idle => if polite then None else Some (notify {| locked := false; at_ := at_ s; log := Released i :: log s |} k)
      | _, _ => None
      end
  | Expire i => match at_ s i with Waiting true => Some (go s i (Woken true true)) | _ => None end
  | Spurious i => match at_ s i with Waiting t => Some (go s i (Woken t false)) | _ => None end
  | Retry i =>
      match at_ s i with
      | Woken t expired =>
          Some (if locked s then if expired then give_up s i else go s i (Waiting t) else take s i)
      | _ => None
      end
  end.

Inductive reach (polite : bool) (n : nat) : st -> Prop :=
| reach_init : reach polite n init
| reach_step s a s' : reach polite n s -> exec polite n s a = Some s' -> reach polite n s'.

Fixpoint run (polite : bool) (n : nat) (s : st) (l : list action) : option st :=
  match l with [] => Some s | a :: r => match exec polite n s a with Some s' => run polite n s' r | None => None end end.
