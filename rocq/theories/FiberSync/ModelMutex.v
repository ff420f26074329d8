(** Model of the fiber mutex, class Mutex in trpc/runtime/threadmodel/fiber/detail/waitable.{h,cc}.

    Threads (fibers, or threads that are not fibers) interleave at the atomic operations on count_, the acquisitions and releases of
    slow_path_lock_, the operations on the wait chain and the hand-over to a waiter.  A step of a thread is one constructor.  The memory is
    sequentially consistent.
    A WaitBlock is the thread that waits in it.  WakeOne (waitable.cc:114-128) is a single step, as it holds lock_; a WaitBlock of a mutex has
    no timer, so `satisfied` is never set when it is popped.  The waiting itself (Suspend with scheduler_lock held, or a futex whose state was
    read under slow_path_lock_) ends when the waker has called Resume or Wake, and not before: FutexNotifier::Wait (futex_notifier.h) goes
    back to sleep after interruptions.  Which fiber runs next on the processor (SetPost and the two kinds of Resume in unlock) is not modelled. *)
From Verif.Lib Require Import Base ListX.

Inductive pc :=
| Idle
| LSlow                  (* try_lock has failed; about to acquire slow_path_lock_ *)
| LInc                   (* in slow_path_lock_, before fetch_add *)
| LAdd                   (* in slow_path_lock_; count_ was not 0 *)
| LUnl                   (* in slow_path_lock_; in the wait chain *)
| LRet                   (* in slow_path_lock_; count_ was 0 *)
| LSleep
| LWoken
| Own                    (* lock() or try_lock() has returned; the caller is in its critical section *)
| USlow                  (* in unlock(); count_ was more than 1 *)
| UWake                  (* in slow_path_lock_, before WakeOne *)
| UUnl (t : nat)         (* in slow_path_lock_; WakeOne has returned t *)
| URes (t : nat)         (* before Resume or Wake *)
| Crash.                 (* a TRPC_CHECK has failed *)

(** [m_regs] and [m_grants] record the order in which threads have entered the wait chain and in which WakeOne has returned them. *)
Record mutex := { m_count : Z; m_slow : bool; m_queue : list nat; m_pcs : list pc; m_regs : list nat; m_grants : list nat }.
Definition mutex_new (n : nat) : mutex :=
  {| m_count := 0; m_slow := false; m_queue := []; m_pcs := repeat Idle n; m_regs := []; m_grants := [] |}.

(** uint32_t *)
Definition w32 (x : Z) : Z := (x mod 2 ^ 32)%Z.
Definition at_pc (i : nat) (c : pc) (s : mutex) : Prop := i < length (m_pcs s) /\ nth i (m_pcs s) Idle = c.
Definition go (i : nat) (c : pc) (s : mutex) : mutex :=
  {| m_count := m_count s; m_slow := m_slow s; m_queue := m_queue s; m_pcs := lset (m_pcs s) i c; m_regs := m_regs s; m_grants := m_grants s |}.
Definition set_count (x : Z) (s : mutex) : mutex :=
  {| m_count := x; m_slow := m_slow s; m_queue := m_queue s; m_pcs := m_pcs s; m_regs := m_regs s; m_grants := m_grants s |}.
Definition set_slow (x : bool) (s : mutex) : mutex :=
  {| m_count := m_count s; m_slow := x; m_queue := m_queue s; m_pcs := m_pcs s; m_regs := m_regs s; m_grants := m_grants s |}.
Definition enqueue (i : nat) (s : mutex) : mutex :=
  {| m_count := m_count s; m_slow := m_slow s; m_queue := m_queue s ++ [i]; m_pcs := m_pcs s; m_regs := m_regs s ++ [i]; m_grants := m_grants s |}.
Definition dequeue (i : nat) (q : list nat) (s : mutex) : mutex :=
  {| m_count := m_count s; m_slow := m_slow s; m_queue := q; m_pcs := m_pcs s; m_regs := m_regs s; m_grants := m_grants s ++ [i] |}.

(** [tstep i s s']: thread i takes a step inside of lock, try_lock or unlock. *)
Inductive tstep (i : nat) : mutex -> mutex -> Prop :=
| (* LockSlowFromFiber / LockSlowFromPthread, waitable.cc:240-293 *)
  t_slow s : at_pc i LSlow s -> m_slow s = false -> tstep i s (go i LInc (set_slow true s))
| t_lucky s : at_pc i LInc s -> m_count s = 0%Z -> tstep i s (go i LRet (set_count 1 s))
| t_inc s : at_pc i LInc s -> m_count s <> 0%Z -> tstep i s (go i LAdd (set_count (w32 (m_count s + 1)) s))
| t_add s : at_pc i LAdd s -> tstep i s (go i LUnl (enqueue i s))
| t_sleep s : at_pc i LUnl s -> tstep i s (go i LSleep (set_slow false s))
| t_woken s : at_pc i LWoken s -> tstep i s (go i Own s)
| t_ret s : at_pc i LRet s -> tstep i s (go i Own (set_slow false s))
| (* unlock, waitable.cc:214-237 *)
  t_uslow s : at_pc i USlow s -> m_slow s = false -> tstep i s (go i UWake (set_slow true s))
| t_wake s t q : at_pc i UWake s -> m_queue s = t :: q -> tstep i s (go i (UUnl t) (dequeue t q s))
| t_wake_null s : at_pc i UWake s -> m_queue s = [] -> tstep i s (go i Crash s)
| t_unl s t : at_pc i (UUnl t) s -> tstep i s (go i (URes t) (set_slow false s))
| t_res s t : at_pc i (URes t) s -> at_pc t LSleep s -> tstep i s (go i Idle (go t LWoken s)).

Inductive step : mutex -> mutex -> Prop :=
| s_inner i s s' : tstep i s s' -> step s s'
| (* lock() or try_lock(), waitable.h:145-161: the compare and exchange succeeds *)
  s_try i s : at_pc i Idle s -> m_count s = 0%Z -> step s (go i Own (set_count 1 s))
| (* lock(): it fails *)
  s_lock i s : at_pc i Idle s -> m_count s <> 0%Z -> step s (go i LSlow s)
| (* unlock, waitable.cc:199-212: fetch_sub *)
  s_unlock_last i s : at_pc i Own s -> m_count s = 1%Z -> step s (go i Idle (set_count 0 s))
| s_unlock i s : at_pc i Own s -> (1 < m_count s)%Z -> step s (go i USlow (set_count (m_count s - 1) s))
| s_unlock_bad i s : at_pc i Own s -> m_count s = 0%Z -> step s (go i Crash (set_count (w32 (-1)) s)).

Inductive run (n : nat) : mutex -> Prop :=
| run_new : run n (mutex_new n)
| run_step s s' : run n s -> step s s' -> run n s'.
