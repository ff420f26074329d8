(** Model of ConditionVariable, AsyncWaker and the wait chain, trpc/runtime/threadmodel/fiber/detail/waitable.cc.

    Fibers and pthreads interleave at the acquisitions and releases of the user's mutex, the operations on the wait chain (each under lock_),
    the exchanges of satisfied, the operations of the futex, and suspending and resuming.  A step is one constructor.  The memory is
    sequentially consistent.  The user's mutex is a flag.
    Every wait has a wait block of its own on the stack of the waiter: [t_gen] numbers them, and touching one that is gone is [Crash].
    Resume waits for the scheduler lock, which the waiter holds until it is suspended.  A time-out can come at any time.
    A sleep in the futex that is interrupted starts again. *)
From Verif.Lib Require Import Base ListX.
Local Open Scope Z_scope.

(** The timer of a wait: not set, set, or its callback has won the exchange and is about to resume the waiter. *)
Inductive tmr := TNone | TSet | TRes.
Inductive pc :=
| Idle                            (* outside, without the mutex *)
| Hold                            (* outside, with the mutex *)
(* WaitUntilFromFiber, 313-350; t: with a time limit *)
| FIn (t : bool)                  (* in the chain, scheduler lock held, before lock.unlock() *)
| FUn (t : bool)                  (* before Suspend *)
| FSusp (t : bool)
| FRun (t : bool)                 (* resumed, before TryRemoveWaiter *)
| FClean (t r : bool)             (* before Cleanup *)
| FLock (t r : bool)              (* before lock.lock() *)
(* WaitUntilFromPthread, 352-364 *)
| PAdd (t : bool)                 (* in the chain, before GetState *)
| PGot (t : bool)                 (* before lock.unlock() *)
| PUn (t : bool)                  (* before the futex *)
| PWait (t : bool)
| PRet (t r : bool)               (* before TryRemoveWaiter *)
| PLock (t r : bool)              (* before lock.lock() *)
(* notify_one and notify_all, 366-397; h: with the mutex, a: notify_all *)
| NGo (h a : bool)                (* before WakeOne *)
| NRes (h a : bool) (j g : nat)   (* before Resume of fiber j *)
| NWake (h a : bool) (j g : nat)  (* before the addition in futex.Wake *)
| NSys (h a : bool) (j g : nat)   (* before the system call in futex.Wake *)
| Crash.

(** [t_fib]: whether the waiter is a fiber; [t_val]: pending_wake_; [t_st]: the state read by GetState; [t_ret]: what the last wait returned. *)
Record thr := { t_pc : pc; t_gen : nat; t_fib : bool; t_sat : bool; t_val : Z; t_st : Z; t_tm : tmr; t_ret : bool }.
Record cv := { c_chain : list (nat * nat); c_mx : bool; c_ths : list thr }.

Definition t0 : thr := {| t_pc := Idle; t_gen := 0; t_fib := false; t_sat := false; t_val := 0; t_st := 0; t_tm := TNone; t_ret := false |}.
Definition cv_new (n : nat) : cv := {| c_chain := []; c_mx := false; c_ths := repeat t0 n |}.
Definition th (i : nat) (s : cv) : thr := nth i (c_ths s) t0.

Definition at_pc (i : nat) (c : pc) (s : cv) : Prop := (i < length (c_ths s))%nat /\ t_pc (th i s) = c.
Definition set_pc (c : pc) (t : thr) : thr :=
  {| t_pc := c; t_gen := t_gen t; t_fib := t_fib t; t_sat := t_sat t; t_val := t_val t; t_st := t_st t; t_tm := t_tm t; t_ret := t_ret t |}.
Definition set_sat (t : thr) : thr :=
  {| t_pc := t_pc t; t_gen := t_gen t; t_fib := t_fib t; t_sat := true; t_val := t_val t; t_st := t_st t; t_tm := t_tm t; t_ret := t_ret t |}.
Definition set_tm (m : tmr) (t : thr) : thr :=
  {| t_pc := t_pc t; t_gen := t_gen t; t_fib := t_fib t; t_sat := t_sat t; t_val := t_val t; t_st := t_st t; t_tm := m; t_ret := t_ret t |}.
Definition set_val (v : Z) (t : thr) : thr :=
  {| t_pc := t_pc t; t_gen := t_gen t; t_fib := t_fib t; t_sat := t_sat t; t_val := v; t_st := t_st t; t_tm := t_tm t; t_ret := t_ret t |}.
Definition set_st (v : Z) (t : thr) : thr :=
  {| t_pc := t_pc t; t_gen := t_gen t; t_fib := t_fib t; t_sat := t_sat t; t_val := t_val t; t_st := v; t_tm := t_tm t; t_ret := t_ret t |}.
Definition set_ret (r : bool) (t : thr) : thr :=
  {| t_pc := t_pc t; t_gen := t_gen t; t_fib := t_fib t; t_sat := t_sat t; t_val := t_val t; t_st := t_st t; t_tm := t_tm t; t_ret := r |}.
(** A new wait block; WaitBlock in waitable.h, 41-46 *)
Definition block (fib : bool) (m : tmr) (t : thr) : thr :=
  {| t_pc := t_pc t; t_gen := S (t_gen t); t_fib := fib; t_sat := false; t_val := 0; t_st := 0; t_tm := m; t_ret := t_ret t |}.

Definition upd (i : nat) (f : thr -> thr) (s : cv) : cv := {| c_chain := c_chain s; c_mx := c_mx s; c_ths := lset (c_ths s) i (f (th i s)) |}.
Definition go (i : nat) (c : pc) (s : cv) : cv := upd i (set_pc c) s.
Definition set_mx (b : bool) (s : cv) : cv := {| c_chain := c_chain s; c_mx := b; c_ths := c_ths s |}.
Definition set_chain (l : list (nat * nat)) (s : cv) : cv := {| c_chain := l; c_mx := c_mx s; c_ths := c_ths s |}.

(** AddWaiter, 99-107; persistent_awakened_ is never set here *)
Definition add (i : nat) (s : cv) : cv := set_chain (c_chain s ++ [(i, t_gen (th i s))]) s.
(** TryRemoveWaiter, 109-112 *)
Definition mine (i g : nat) (p : nat * nat) : bool := (fst p =? i)%nat && (snd p =? g)%nat.
Definition remove (i : nat) (s : cv) : cv := set_chain (filter (fun p => negb (mine i (t_gen (th i s)) p)) (c_chain s)) s.
Definition linked (i : nat) (s : cv) : bool := existsb (mine i (t_gen (th i s))) (c_chain s).

(** Whether thread i is in a wait, so that its block exists. *)
Definition in_wait (c : pc) : bool :=
  match c with FIn _ | FUn _ | FSusp _ | FRun _ | FClean _ _ | FLock _ _ | PAdd _ | PGot _ | PUn _ | PWait _ | PRet _ _ | PLock _ _ => true | _ => false end.
Definition live (j g : nat) (s : cv) : bool := (t_gen (th j s) =? g)%nat && in_wait (t_pc (th j s)).

(** WakeOne, 114-128 *)
Inductive woken := WNone | WBad | WOne (j g : nat).
Fixpoint wake_one (l : list (nat * nat)) (s : cv) : woken * list (nat * nat) :=
  match l with
  | [] => (WNone, [])
  | (j, g) :: r => if live j g s then (if t_fib (th j s) && t_sat (th j s) then wake_one r s else (WOne j g, r)) else (WBad, r)
  end.
(** After WakeOne: the block is unlinked and, if it is a fiber's, satisfied. *)
Definition taken (j : nat) (r : list (nat * nat)) (s : cv) : cv :=
  set_chain r (if t_fib (th j s) then upd j set_sat s else s).
Definition back (h : bool) : pc := if h then Hold else Idle.
Definition next (h a : bool) : pc := if a then NGo h true else back h.

(** [tstep i s s']: thread i, or its timer, takes a step inside of a call. *)
Inductive tstep (i : nat) : cv -> cv -> Prop :=
| (* WaitUntilFromFiber *)
  f_unlock s t : at_pc i (FIn t) s -> tstep i s (go i (FUn t) (set_mx false s))
| f_susp s t : at_pc i (FUn t) s -> tstep i s (go i (FSusp t) s)
| f_remove s t : at_pc i (FRun t) s -> tstep i s (go i (FClean t (negb (linked i s))) (remove i s))
| f_clean s t r : at_pc i (FClean t r) s -> t_tm (th i s) <> TRes -> tstep i s (go i (FLock t r) (upd i (set_tm TNone) s))
| f_lock s t r : at_pc i (FLock t r) s -> c_mx s = false -> tstep i s (go i Hold (upd i (set_ret r) (set_mx true s)))
| (* the callback of AsyncWaker, 42-54 *)
  m_late s c : at_pc i c s -> t_tm (th i s) = TSet -> in_wait c = true -> t_sat (th i s) = true -> tstep i s (upd i (set_tm TNone) s)
| m_fire s c : at_pc i c s -> t_tm (th i s) = TSet -> in_wait c = true -> t_sat (th i s) = false -> tstep i s (upd i (set_tm TRes) (upd i set_sat s))
| m_dead s c : at_pc i c s -> t_tm (th i s) = TSet -> in_wait c = false -> tstep i s (go i Crash s)
| m_resume s t : t_tm (th i s) = TRes -> at_pc i (FSusp t) s -> tstep i s (go i (FRun t) (upd i (set_tm TNone) s))
| m_bad s c : t_tm (th i s) = TRes -> at_pc i c s -> (forall t, c <> FIn t /\ c <> FUn t /\ c <> FSusp t) -> tstep i s (go i Crash s)
| (* WaitUntilFromPthread *)
  p_state s t : at_pc i (PAdd t) s -> tstep i s (go i (PGot t) (upd i (set_st (t_val (th i s))) s))
| p_unlock s t : at_pc i (PGot t) s -> tstep i s (go i (PUn t) (set_mx false s))
| (* FutexNotifier::Wait, futex_notifier.h, 64-105 *)
  p_expired s : at_pc i (PUn true) s -> tstep i s (go i (PRet true false) s)
| p_again s t : at_pc i (PUn t) s -> t_val (th i s) <> t_st (th i s) -> tstep i s (go i (PRet t true) s)
| p_sleep s t : at_pc i (PUn t) s -> t_val (th i s) = t_st (th i s) -> tstep i s (go i (PWait t) s)
| p_timeout s : at_pc i (PWait true) s -> tstep i s (go i (PRet true false) s)
| p_remove s t r : at_pc i (PRet t r) s -> tstep i s (go i (PLock t r) (remove i s))
| p_lock s t r : at_pc i (PLock t r) s -> c_mx s = false -> tstep i s (go i Hold (upd i (set_ret r) (set_mx true s)))
| (* notify_one, notify_all *)
  n_none s h a r : at_pc i (NGo h a) s -> wake_one (c_chain s) s = (WNone, r) -> tstep i s (go i (back h) (set_chain r s))
| n_bad s h a r : at_pc i (NGo h a) s -> wake_one (c_chain s) s = (WBad, r) -> tstep i s (go i Crash s)
| n_one s h a j g r : at_pc i (NGo h a) s -> wake_one (c_chain s) s = (WOne j g, r) ->
    tstep i s (go i (if t_fib (th j s) then NRes h a j g else NWake h a j g) (taken j r s))
| n_resume s h a j g t : at_pc i (NRes h a j g) s -> live j g s = true -> at_pc j (FSusp t) s -> tstep i s (go i (next h a) (go j (FRun t) s))
| n_resume_bad s h a j g : at_pc i (NRes h a j g) s -> live j g s = false \/ (forall t, t_pc (th j s) <> FIn t /\ t_pc (th j s) <> FUn t /\ t_pc (th j s) <> FSusp t) ->
    tstep i s (go i Crash s)
| (* FutexNotifier::Wake, futex_notifier.h, 44-48 *)
  n_wake s h a j g : at_pc i (NWake h a j g) s -> live j g s = true -> tstep i s (go i (NSys h a j g) (upd j (set_val (t_val (th j s) + 2)) s))
| n_wake_bad s h a j g : at_pc i (NWake h a j g) s -> live j g s = false -> tstep i s (go i Crash s)
| n_sys s h a j g t : at_pc i (NSys h a j g) s -> t_gen (th j s) = g -> at_pc j (PWait t) s ->
    tstep i s (go i (next h a) (go j (if t_val (th j s) =? t_st (th j s) then PUn t else PRet t true) s))
| n_sys_none s h a j g : at_pc i (NSys h a j g) s -> t_gen (th j s) <> g \/ (forall t, t_pc (th j s) <> PWait t) -> tstep i s (go i (next h a) s).

(** [pth]: whether pthreads wait; [locked]: whether notify_one and notify_all are only called with the mutex. *)
Section Calls.
Variables pth locked : bool.
Inductive step : cv -> cv -> Prop :=
| s_inner i s s' : tstep i s s' -> step s s'
| s_lock i s : at_pc i Idle s -> c_mx s = false -> step s (go i Hold (set_mx true s))
| s_unlock i s : at_pc i Hold s -> step s (go i Idle (set_mx false s))
| (* 313-330: a new block, AddWaiter, SetTimer *)
  s_fiber i s t : at_pc i Hold s -> step s (go i (FIn t) (add i (upd i (block true (if t then TSet else TNone)) s)))
| (* 352-356 *)
  s_pthread i s t : pth = true -> at_pc i Hold s -> step s (go i (PAdd t) (add i (upd i (block false TNone) s)))
| (* EINTR; futex_notifier.h, 93-98 *)
  s_intr i s t : at_pc i (PWait t) s -> step s (go i (PUn t) s)
| s_notify i s h a : (locked = true -> h = true) -> at_pc i (back h) s -> step s (go i (NGo h a) s).
Inductive run (n : nat) : cv -> Prop :=
| run_new : run n (cv_new n)
| run_step s s' : run n s -> step s s' -> run n s'.
End Calls.
