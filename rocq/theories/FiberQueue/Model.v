(** Model of FiberBlockingBoundedQueue, trpc/coroutine/fiber_blocking_bounded_queue.h.

    Fibers interleave at the acquisitions and releases of mutex_, the evaluations of the predicates, the operations of the condition variables
    and, in Stop and SetCapacity, which take no lock, the writes.  A step of a fiber is one constructor.  The memory is sequentially consistent
    (stop_token_ and capacity_ are plain variables; Stop and SetCapacity race with the other functions, which is undefined behaviour in
    itself and which is left out here).
    mutex_ is a flag and a condition variable is the set of the fibers asleep on it: wait enters it before it releases the lock, notify_one
    wakes one fiber in it if there is one.  A time-out can come at any time, and then the predicate is evaluated once more.
    An item is a number; [szf] is size_func_.  The deques are unbounded.  Copying and moving a queue is not modelled. *)
From Verif.Lib Require Import Base ListX.
Local Open Scope Z_scope.

Inductive kind := Block | Timed | Try.
Inductive pc :=
| Idle
(* Push and TryPush, 53-114 *)
| UWant (k : kind) (x : nat)   (* about to acquire mutex_ *)
| UIn (k : kind) (x : nat)     (* in mutex_, before the predicate *)
| UGo (k : kind) (x : nat)     (* in mutex_, the predicate was false; about to wait *)
| USleep (k : kind) (x : nat)
| UPut (x : nat)               (* in mutex_, the predicate was true; before the test of stop_token_ *)
| UNot                         (* before not_empty_.notify_one() *)
(* Pop and TryPop, 116-177 *)
| OWant (k : kind)
| OIn (k : kind)
| OGo (k : kind)
| OSleep (k : kind)
| OTake
| ONot                         (* before not_full_.notify_one() *)
(* Stop, 189-193 *)
| SFull                        (* before not_full_.notify_one(), with UNot to follow *)
| Crash.                       (* front() of an empty deque *)

(** [q_in], [q_out]: what was put into and taken out of content_ so far, in order. *)
Record bq := { q_items : list nat; q_size : Z; q_cap : Z; q_stop : bool; q_mx : bool; q_pcs : list pc; q_in : list nat; q_out : list nat }.
Definition bq_new (cap : Z) (n : nat) : bq :=
  {| q_items := []; q_size := 0; q_cap := cap; q_stop := false; q_mx := false; q_pcs := repeat Idle n; q_in := []; q_out := [] |}.

Definition at_pc (i : nat) (c : pc) (s : bq) : Prop := (i < length (q_pcs s))%nat /\ nth i (q_pcs s) Idle = c.
Definition go (i : nat) (c : pc) (s : bq) : bq :=
  {| q_items := q_items s; q_size := q_size s; q_cap := q_cap s; q_stop := q_stop s; q_mx := q_mx s; q_pcs := lset (q_pcs s) i c;
     q_in := q_in s; q_out := q_out s |}.
Definition set_mx (b : bool) (s : bq) : bq :=
  {| q_items := q_items s; q_size := q_size s; q_cap := q_cap s; q_stop := q_stop s; q_mx := b; q_pcs := q_pcs s; q_in := q_in s; q_out := q_out s |}.
Definition set_stop (s : bq) : bq :=
  {| q_items := q_items s; q_size := q_size s; q_cap := q_cap s; q_stop := true; q_mx := q_mx s; q_pcs := q_pcs s; q_in := q_in s; q_out := q_out s |}.
Definition set_cap (c : Z) (s : bq) : bq :=
  {| q_items := q_items s; q_size := q_size s; q_cap := c; q_stop := q_stop s; q_mx := q_mx s; q_pcs := q_pcs s; q_in := q_in s; q_out := q_out s |}.

Section Queue.
Variable szf : nat -> Z.
(** size_t *)
Definition u64 (x : Z) : Z := x mod 2 ^ 64.

(** 59-60, 121-123 *)
Definition put (x : nat) (s : bq) : bq :=
  {| q_items := q_items s ++ [x]; q_size := u64 (q_size s + szf x); q_cap := q_cap s; q_stop := q_stop s; q_mx := q_mx s; q_pcs := q_pcs s;
     q_in := q_in s ++ [x]; q_out := q_out s |}.
Definition take (x : nat) (r : list nat) (s : bq) : bq :=
  {| q_items := r; q_size := u64 (q_size s - szf x); q_cap := q_cap s; q_stop := q_stop s; q_mx := q_mx s; q_pcs := q_pcs s;
     q_in := q_in s; q_out := q_out s ++ [x] |}.
(** CanPush and CanPop, 206-208 *)
Definition can_push (x : nat) (s : bq) : bool := (u64 (szf x + q_size s) <=? q_cap s) || q_stop s.
Definition can_pop (s : bq) : bool := match q_items s with [] => q_stop s | _ => true end.

(** [tstep i s s']: fiber i takes a step inside of a call. *)
Inductive tstep (i : nat) : bq -> bq -> Prop :=
| u_lock s k x : at_pc i (UWant k x) s -> q_mx s = false -> tstep i s (go i (UIn k x) (set_mx true s))
| u_room s k x : at_pc i (UIn k x) s -> can_push x s = true -> tstep i s (go i (UPut x) s)
| u_try s x : at_pc i (UIn Try x) s -> can_push x s = false -> tstep i s (go i Idle (set_mx false s))
| u_full s k x : at_pc i (UIn k x) s -> can_push x s = false -> k <> Try -> tstep i s (go i (UGo k x) s)
| u_wait s k x : at_pc i (UGo k x) s -> tstep i s (go i (USleep k x) (set_mx false s))
| u_timeout s x : at_pc i (USleep Timed x) s -> tstep i s (go i (UWant Try x) s)
| u_put s x : at_pc i (UPut x) s -> q_stop s = false -> tstep i s (go i UNot (set_mx false (put x s)))
| u_drop s x : at_pc i (UPut x) s -> q_stop s = true -> tstep i s (go i UNot (set_mx false s))
| u_notify s j k : at_pc i UNot s -> at_pc j (OSleep k) s -> tstep i s (go i Idle (go j (OWant k) s))
| u_notify_none s : at_pc i UNot s -> (forall j k, nth j (q_pcs s) Idle <> OSleep k) -> tstep i s (go i Idle s)
| o_lock s k : at_pc i (OWant k) s -> q_mx s = false -> tstep i s (go i (OIn k) (set_mx true s))
| o_some s k : at_pc i (OIn k) s -> can_pop s = true -> tstep i s (go i OTake s)
| o_try s : at_pc i (OIn Try) s -> can_pop s = false -> tstep i s (go i Idle (set_mx false s))
| o_none s k : at_pc i (OIn k) s -> can_pop s = false -> k <> Try -> tstep i s (go i (OGo k) s)
| o_wait s k : at_pc i (OGo k) s -> tstep i s (go i (OSleep k) (set_mx false s))
| o_timeout s : at_pc i (OSleep Timed) s -> tstep i s (go i (OWant Try) s)
| o_take s x r : at_pc i OTake s -> q_stop s = false -> q_items s = x :: r -> tstep i s (go i ONot (set_mx false (take x r s)))
| o_take_bad s : at_pc i OTake s -> q_stop s = false -> q_items s = [] -> tstep i s (go i Crash s)
| o_drop s : at_pc i OTake s -> q_stop s = true -> tstep i s (go i ONot (set_mx false s))
| o_notify s j k x : at_pc i ONot s -> at_pc j (USleep k x) s -> tstep i s (go i Idle (go j (UWant k x) s))
| o_notify_none s : at_pc i ONot s -> (forall j k x, nth j (q_pcs s) Idle <> USleep k x) -> tstep i s (go i Idle s)
| st_notify s j k x : at_pc i SFull s -> at_pc j (USleep k x) s -> tstep i s (go i UNot (go j (UWant k x) s))
| st_notify_none s : at_pc i SFull s -> (forall j k x, nth j (q_pcs s) Idle <> USleep k x) -> tstep i s (go i UNot s).

(** [stops], [resizes]: whether Stop and SetCapacity are called; [top]: the largest capacity. *)
Variables (stops resizes : bool) (top : Z).
Inductive step : bq -> bq -> Prop :=
| s_inner i s s' : tstep i s s' -> step s s'
| s_push i s k x : at_pc i Idle s -> step s (go i (UWant k x) s)
| s_pop i s k : at_pc i Idle s -> step s (go i (OWant k) s)
| (* 189-193 *)
  s_stop i s : stops = true -> at_pc i Idle s -> step s (go i SFull (set_stop s))
| (* SetCapacity, 183-187 *)
  s_cap i s c : resizes = true -> 0 <= c <= top -> at_pc i Idle s -> step s (go i (if q_cap s <? c then ONot else Idle) (set_cap c s)).
Inductive run (cap : Z) (n : nat) : bq -> Prop :=
| run_new : run cap n (bq_new cap n)
| run_step s s' : run cap n s -> step s s' -> run cap n s'.
End Queue.
