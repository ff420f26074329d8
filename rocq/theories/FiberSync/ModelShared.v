(** Model of the fiber shared mutex, trpc/coroutine/fiber_shared_mutex.{h,cc}.

    Fibers interleave at the atomic operations on reader_quota_ and pending_readers_, the acquisitions and releases of writer_lock_ and
    wakeup_lock_ and the operations of the condition variables.  A step of a fiber is one constructor.  The memory is sequentially consistent.
    The two FiberMutex are flags and a condition variable is the set of the fibers asleep on it: wait enters it before it releases the lock,
    notify_all wakes all fibers in it and notify_one wakes one if there is one.  (The fiber mutex itself is in ModelMutex.v.)
    The int32_t counters do not wrap in this model; C39_range shows that they need not. *)
From Verif.Lib Require Import Base ListX.
Local Open Scope Z_scope.

(** fiber_shared_mutex.h:47 *)
Definition kmax : Z := 1073741823.

Inductive pc :=
| Idle
(* lock_shared and WaitForRead, fiber_shared_mutex.cc:15-22, 101-110 *)
| RWant                  (* about to acquire wakeup_lock_ *)
| RChk                   (* in wakeup_lock_, before the predicate *)
| RGo                    (* in wakeup_lock_, the predicate was false; about to wait *)
| RSleep
| RRel                   (* in wakeup_lock_, the predicate was true *)
| Reading
(* unlock_shared and WakeupWriter, 36-45, 112-116 *)
| RDec                   (* before the decrement of pending_readers_ *)
| RWk1                   (* about to acquire wakeup_lock_ *)
| RWk2                   (* in wakeup_lock_ *)
| RWk3                   (* before notify_one *)
(* lock, 47-66 *)
| WLock                  (* about to acquire writer_lock_ *)
| WSub                   (* before fetch_sub *)
| WWant (p : Z)          (* about to acquire wakeup_lock_; p: pending_readers *)
| WAdd (p : Z)           (* in wakeup_lock_, before fetch_add *)
| WChk                   (* in wakeup_lock_, before the predicate *)
| WGo                    (* in wakeup_lock_, the predicate was false; about to wait *)
| WSleep
| WRe                    (* about to acquire wakeup_lock_ again *)
| WRel                   (* in wakeup_lock_, about to return *)
| Writing
(* try_lock, 68-81 *)
| WTry                   (* writer_lock_ was acquired *)
(* unlock, 83-99 *)
| WU1 (w : Z)            (* about to acquire wakeup_lock_; w: was *)
| WU2 (w : Z)            (* in wakeup_lock_, before the store *)
| WU2b                   (* in wakeup_lock_, after it *)
| WU3                    (* before notify_all *)
| WU4                    (* before writer_lock_.unlock() *)
| Crash.                 (* a TRPC_CHECK has failed *)

Record shm := { x_quota : Z; x_pend : Z; x_granted : Z; x_wk : bool; x_wl : bool; x_pcs : list pc }.
Definition shm_new (n : nat) : shm :=
  {| x_quota := kmax; x_pend := 0; x_granted := 0; x_wk := false; x_wl := false; x_pcs := repeat Idle n |}.

Definition at_pc (i : nat) (c : pc) (s : shm) : Prop := (i < length (x_pcs s))%nat /\ nth i (x_pcs s) Idle = c.
Definition set_pcs (l : list pc) (s : shm) : shm :=
  {| x_quota := x_quota s; x_pend := x_pend s; x_granted := x_granted s; x_wk := x_wk s; x_wl := x_wl s; x_pcs := l |}.
Definition go (i : nat) (c : pc) (s : shm) : shm := set_pcs (lset (x_pcs s) i c) s.
Definition set_quota (x : Z) (s : shm) : shm :=
  {| x_quota := x; x_pend := x_pend s; x_granted := x_granted s; x_wk := x_wk s; x_wl := x_wl s; x_pcs := x_pcs s |}.
Definition set_pend (x : Z) (s : shm) : shm :=
  {| x_quota := x_quota s; x_pend := x; x_granted := x_granted s; x_wk := x_wk s; x_wl := x_wl s; x_pcs := x_pcs s |}.
Definition set_granted (x : Z) (s : shm) : shm :=
  {| x_quota := x_quota s; x_pend := x_pend s; x_granted := x; x_wk := x_wk s; x_wl := x_wl s; x_pcs := x_pcs s |}.
Definition set_wk (x : bool) (s : shm) : shm :=
  {| x_quota := x_quota s; x_pend := x_pend s; x_granted := x_granted s; x_wk := x; x_wl := x_wl s; x_pcs := x_pcs s |}.
Definition set_wl (x : bool) (s : shm) : shm :=
  {| x_quota := x_quota s; x_pend := x_pend s; x_granted := x_granted s; x_wk := x_wk s; x_wl := x; x_pcs := x_pcs s |}.
(** notify_all of reader_cv_ *)
Definition wake_reader (c : pc) : pc := match c with RSleep => RWant | _ => c end.

(** [tstep i s s']: fiber i takes a step inside of a call. *)
Inductive tstep (i : nat) : shm -> shm -> Prop :=
| (* WaitForRead, 101-110 *)
  r_want s : at_pc i RWant s -> x_wk s = false -> tstep i s (go i RChk (set_wk true s))
| r_granted s : at_pc i RChk s -> x_granted s <> 0 -> tstep i s (go i RRel (set_granted (x_granted s - 1) s))
| r_none s : at_pc i RChk s -> x_granted s = 0 -> tstep i s (go i RGo s)
| r_sleep s : at_pc i RGo s -> tstep i s (go i RSleep (set_wk false s))
| r_rel s : at_pc i RRel s -> tstep i s (go i Reading (set_wk false s))
| (* unlock_shared, 41-43 *)
  r_dec s : at_pc i RDec s -> x_pend s <> 1 -> tstep i s (go i Idle (set_pend (x_pend s - 1) s))
| r_dec_last s : at_pc i RDec s -> x_pend s = 1 -> tstep i s (go i RWk1 (set_pend 0 s))
| (* WakeupWriter, 112-116 *)
  r_wk1 s : at_pc i RWk1 s -> x_wk s = false -> tstep i s (go i RWk2 (set_wk true s))
| r_wk2 s : at_pc i RWk2 s -> tstep i s (go i RWk3 (set_wk false s))
| r_notify s j : at_pc i RWk3 s -> at_pc j WSleep s -> tstep i s (go i Idle (go j WRe s))
| r_notify_none s : at_pc i RWk3 s -> (forall j, nth j (x_pcs s) Idle <> WSleep) -> tstep i s (go i Idle s)
| (* lock, 47-66 *)
  w_lock s : at_pc i WLock s -> x_wl s = false -> tstep i s (go i WSub (set_wl true s))
| w_free s : at_pc i WSub s -> x_quota s = kmax -> tstep i s (go i Writing (set_quota (x_quota s - kmax) s))
| w_busy s : at_pc i WSub s -> x_quota s < kmax -> 0 < x_quota s ->
    tstep i s (go i (WWant (kmax - x_quota s)) (set_quota (x_quota s - kmax) s))
| w_bad s : at_pc i WSub s -> (kmax < x_quota s \/ x_quota s <= 0) -> tstep i s (go i Crash (set_quota (x_quota s - kmax) s))
| w_want s p : at_pc i (WWant p) s -> x_wk s = false -> tstep i s (go i (WAdd p) (set_wk true s))
| w_add_done s p : at_pc i (WAdd p) s -> x_pend s = - p -> tstep i s (go i WRel (set_pend (x_pend s + p) s))
| w_add s p : at_pc i (WAdd p) s -> x_pend s <> - p -> tstep i s (go i WChk (set_pend (x_pend s + p) s))
| w_chk_done s : at_pc i WChk s -> x_pend s = 0 -> tstep i s (go i WRel s)
| w_chk s : at_pc i WChk s -> x_pend s <> 0 -> tstep i s (go i WGo s)
| w_sleep s : at_pc i WGo s -> tstep i s (go i WSleep (set_wk false s))
| w_re s : at_pc i WRe s -> x_wk s = false -> tstep i s (go i WChk (set_wk true s))
| w_rel s : at_pc i WRel s -> tstep i s (go i Writing (set_wk false s))
| (* try_lock, 73-80 *)
  w_try_busy s : at_pc i WTry s -> x_quota s <> kmax -> tstep i s (go i Idle (set_wl false s))
| w_try s : at_pc i WTry s -> x_quota s = kmax -> tstep i s (go i Writing (set_quota 0 s))
| (* unlock, 88-98 *)
  w_u1 s w : at_pc i (WU1 w) s -> x_wk s = false -> tstep i s (go i (WU2 w) (set_wk true s))
| w_u2 s w : at_pc i (WU2 w) s -> tstep i s (go i WU2b (set_granted (- w) s))
| w_u2b s : at_pc i WU2b s -> tstep i s (go i WU3 (set_wk false s))
| w_u3 s : at_pc i WU3 s -> tstep i s (go i WU4 (set_pcs (map wake_reader (x_pcs s)) s))
| w_u4 s : at_pc i WU4 s -> tstep i s (go i Idle (set_wl false s)).

Inductive step : shm -> shm -> Prop :=
| s_inner i s s' : tstep i s s' -> step s s'
| (* lock_shared, 15-22: fetch_sub *)
  s_read i s : at_pc i Idle s -> 1 < x_quota s <= kmax -> step s (go i Reading (set_quota (x_quota s - 1) s))
| s_read_wait i s : at_pc i Idle s -> x_quota s <= 0 -> step s (go i RWant (set_quota (x_quota s - 1) s))
| s_read_bad i s : at_pc i Idle s -> x_quota s = 1 \/ kmax < x_quota s -> step s (go i Crash (set_quota (x_quota s - 1) s))
| (* try_lock_shared, 24-34: the compare and exchange that succeeds; returning false changes nothing *)
  s_try_read i s : at_pc i Idle s -> 1 < x_quota s <= kmax -> step s (go i Reading (set_quota (x_quota s - 1) s))
| (* unlock_shared, 36-39: fetch_add *)
  s_done i s : at_pc i Reading s -> 0 < x_quota s < kmax -> step s (go i Idle (set_quota (x_quota s + 1) s))
| s_done_last i s : at_pc i Reading s -> x_quota s <= 0 -> step s (go i RDec (set_quota (x_quota s + 1) s))
| s_done_bad i s : at_pc i Reading s -> kmax <= x_quota s -> step s (go i Crash (set_quota (x_quota s + 1) s))
| (* lock, 47 *)
  s_write i s : at_pc i Idle s -> step s (go i WLock s)
| (* try_lock, 68-72 *)
  s_try_write i s : at_pc i Idle s -> x_wl s = false -> step s (go i WTry (set_wl true s))
| (* unlock, 83-87: fetch_add *)
  s_free i s : at_pc i Writing s -> x_quota s = 0 -> step s (go i WU4 (set_quota (x_quota s + kmax) s))
| s_free_wake i s : at_pc i Writing s -> - kmax < x_quota s < 0 -> step s (go i (WU1 (x_quota s)) (set_quota (x_quota s + kmax) s))
| s_free_bad i s : at_pc i Writing s -> (0 < x_quota s \/ x_quota s <= - kmax) -> step s (go i Crash (set_quota (x_quota s + kmax) s)).

Inductive run (n : nat) : shm -> Prop :=
| run_new : run n (shm_new n)
| run_step s s' : run n s -> step s s' -> run n s'.
