(** What a semaphore and a read-write lock should do, in terms of what happened. *)
From Verif.Lib Require Import Base.
From Verif.AsyncLock Require Import Model.
Local Open Scope Z_scope.

Fixpoint taken (l : list event) : Z := match l with [] => 0 | Took _ n :: r => n + taken r | _ :: r => taken r end.
Fixpoint signalled (l : list event) : Z := match l with [] => 0 | Signalled n :: r => n + signalled r | _ :: r => signalled r end.
(** Who took, in this order; who had to wait; who was told. *)
Fixpoint takers (l : list event) : list nat := match l with [] => [] | Took i _ :: r => i :: takers r | _ :: r => takers r end.
Fixpoint queued (l : list event) : list nat := match l with [] => [] | Queued i :: r => i :: queued r | _ :: r => queued r end.
Fixpoint notified (l : list event) : list nat := match l with [] => [] | Notified i :: r => i :: notified r | _ :: r => notified r end.
Fixpoint failures (l : list event) : list nat := match l with [] => [] | Failed i :: r => i :: failures r | _ :: r => failures r end.
(** Calls without Broke, with a size_t of at least 0. *)
Definition plain (c : call) : Prop :=
  match c with CBroke => False | CWait n | CTryWait n | CSignal n => 0 <= n < 2 ^ 64 | CReturn => True end.
(** Waiters taken off the list whose promises Signal has yet to set. *)
Fixpoint in_flight (k : list frame) : list nat :=
  match k with [] => [] | FSignal r :: k => map e_id r ++ in_flight k | FBroke :: k => in_flight k end.
(** Broke is not called by a callback that Broke runs. *)
Definition broke_free (s : sem) : Prop := Forall (fun f => f <> FBroke) (s_stack s).
Definition fits (s : sem) : Prop := match s_wait s with [] => False | e :: _ => e_num e <= s_count s end.
Fixpoint no_signal (l : list event) : Prop := match l with [] => True | Signalled _ :: _ => False | _ :: r => no_signal r end.

(** Histories in which Broke is not nested. *)
Fixpoint orderly (l : list call) (s : sem) : Prop :=
  match l with
  | [] => True
  | c :: r => (c = CBroke -> broke_free s) /\ match do_call c s with Ok s1 => orderly r s1 | _ => True end
  end.
(** The waiters whose promises were not touched yet. *)
Definition untouched (s : sem) : list entry :=
  if existsb (fun f => match f with FBroke => true | _ => false end) (s_stack s) then tl (s_wait s) else s_wait s.

(** Read-write lock: holders are those who took and did not unlock. *)
Fixpoint readers (l : list event) : Z :=
  match l with [] => 0 | Took _ n :: r => (if n =? 1 then 1 else 0) + readers r
             | Signalled n :: r => (if n =? 1 then -1 else 0) + readers r | _ :: r => readers r end.
Fixpoint writers (l : list event) : Z :=
  match l with [] => 0 | Took _ n :: r => (if n =? 1 then 0 else 1) + writers r
             | Signalled n :: r => (if n =? 1 then 0 else -1) + writers r | _ :: r => writers r end.
(** Only locks that are held are unlocked. *)
Fixpoint matched (l : list rw_call) (s : sem) : Prop :=
  match l with
  | [] => True
  | c :: r =>
      match c with RwReadUnlock => 0 < readers (s_log s) | RwWriteUnlock => 0 < writers (s_log s) | _ => True end /\
      match do_call (rw_to_sem c) s with Ok s1 => matched r s1 | _ => True end
  end.
