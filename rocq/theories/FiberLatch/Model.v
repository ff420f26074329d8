(** The latch of fibers.
    Source: trpc/coroutine/fiber_latch.cc lines 15-41 and fiber_latch.h lines 40-54,
    class FiberLatch.

    Simplified:
    - what a member function does under lock_ is one step (C40); ArriveAndWait
      (fiber_latch.cc lines 38-41) is CountDown and then Wait;
    - waiting on cv_ is being in a set: notify_all wakes all that wait (C52), a
      deadline wakes a fiber that has one, and a fiber may wake without a reason;
    - count_ is an integer without bounds; with updates that are not negative it
      stays between zero and its first value. *)
From Coq Require Import List Bool Arith ZArith.
Import ListNotations.
Open Scope Z_scope.

(** Where a fiber is.  [timed]: it called WaitFor or WaitUntil. *)
Inductive pc :=
| Idle
| Waiting (timed : bool)           (* on cv_ *)
| Woken (timed expired : bool).    (* woken, before it has lock_ again *)

(** What the calls report: the latch was counted down, a wait (or test) found it at
    zero, a test or a wait with a deadline did not, a check ended the process. *)
Inductive event := Counted (u : Z) | Passed (i : nat) | Missed (i : nat) | Over (u : Z) | Below (i : nat).

Record st := { count : Z; at_ : nat -> pc; dead : bool; log : list event }.

Definition init (c : Z) : st := {| count := c; at_ := fun _ => Idle; dead := false; log := [] |}.

Definition upd (f : nat -> pc) (i : nat) (p : pc) : nat -> pc := fun k => if Nat.eqb k i then p else f k.
Definition go (s : st) (i : nat) (p : pc) : st :=
  {| count := count s; at_ := upd (at_ s) i p; dead := dead s; log := log s |}.
Definition say (s : st) (i : nat) (e : event) : st :=
  {| count := count s; at_ := upd (at_ s) i Idle; dead := dead s; log := e :: log s |}.
Definition die (s : st) (e : event) : st := {| count := count s; at_ := at_ s; dead := true; log := e :: log s |}.

(** notify_all. *)
Definition wake (p : pc) : pc := match p with Waiting t => Woken t false | p => p end.

Inductive action :=
| CountDown (u : Z)      (* fiber_latch.cc lines 17-24 *)
| TryWait (i : nat)      (* lines 26-30 *)
| Wait (i : nat)         (* lines 32-36 *)
| WaitFor (i : nat)      (* fiber_latch.h lines 42-54, WaitFor and WaitUntil *)
| Expire (i : nat)       (* the deadline of i passes *)
| Spurious (i : nat)     (* i wakes without a reason *)
| Retry (i : nat).       (* i has lock_ again and tests count_ *)

Definition exec1 (s : st) (a : action) : option st :=
  match a with
  | CountDown u =>
      Some (if count s <? u then die s (Over u)
            else {| count := count s - u;
                    at_ := if count s - u =? 0 then fun k => wake (at_ s k) else at_ s;
                    dead := false; log := Counted u :: log s |})
  | TryWait i =>
      match at_ s i with
      | Idle => Some (if count s <? 0 then die s (Below i)
                      else if count s =? 0 then say s i (Passed i) else say s i (Missed i))
      | _ => None
      end
  | Wait i =>
      match at_ s i with
      | Idle => Some (if count s <? 0 then die s (Below i)
                      else if count s =? 0 then say s i (Passed i) else go s i (Waiting false))
      | _ => None
      end
  | WaitFor i =>
      match at_ s i with
      | Idle => Some (if count s =? 0 then say s i (Passed i) else go s i (Waiting true))
      | _ => None
      end
  | Expire i => match at_ s i with Waiting true => Some (go s i (Woken true true)) | _ => None end
  | Spurious i => match at_ s i with Waiting t => Some (go s i (Woken t false)) | _ => None end
  | Retry i =>
      match at_ s i with
      | Woken t expired =>
          Some (if count s =? 0 then say s i (Passed i)
                else if expired then say s i (Missed i) else go s i (Waiting t))
      | _ => None
      end
  end.

Definition exec (s : st) (a : action) : option st := if dead s then None else exec1 s a.

Inductive reach (c : Z) : st -> Prop :=
| reach_init : reach c (init c)
| reach_step s a s' : reach c s -> exec s a = Some s' -> reach c s'.

Fixpoint run (s : st) (l : list action) : option st :=
  match l with [] => Some s | a :: r => match exec s a with Some s' => run s' r | None => None end end.
