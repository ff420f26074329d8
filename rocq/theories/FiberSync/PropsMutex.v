(** C40: the fiber mutex. *)
From Verif.Lib Require Import Base.
From Verif.FiberSync Require Import ModelMutex SpecMutex ProofsMutex.

(** At most one thread has the lock, and none while another one is passing it on. *)
Theorem C40_exclusion n s i j : (Z.of_nat n < 2 ^ 32)%Z -> run n s -> i < n -> j < n ->
  holds (nth i (m_pcs s) Idle) -> holds (nth j (m_pcs s) Idle) \/ passing (nth j (m_pcs s) Idle) -> i = j.
Proof. exact (exclusion n s i j). Qed.
Print Assumptions C40_exclusion.

(** The lock is handed to the waiters in the order in which they entered the wait chain. *)
Theorem C40_fifo n s : (Z.of_nat n < 2 ^ 32)%Z -> run n s -> m_regs s = m_grants s ++ m_queue s.
Proof. exact (fifo n s). Qed.
Print Assumptions C40_fifo.

(** The counter is 0 exactly when nobody has the lock, so that lock() and try_lock() take it at once. *)
Theorem C40_free n s : (Z.of_nat n < 2 ^ 32)%Z -> run n s ->
  (m_count s = 0%Z <-> forall i, i < n -> ~ holds (nth i (m_pcs s) Idle) /\ ~ passing (nth i (m_pcs s) Idle)).
Proof. exact (free_lock n s). Qed.
Print Assumptions C40_free.

(** As long as somebody waits, some thread has the lock or is passing it on. *)
Theorem C40_waiting n s i : (Z.of_nat n < 2 ^ 32)%Z -> run n s -> i < n -> waits (nth i (m_pcs s) Idle) ->
  exists j, j < n /\ (holds (nth j (m_pcs s) Idle) \/ passing (nth j (m_pcs s) Idle)).
Proof. exact (waiting n s i). Qed.
Print Assumptions C40_waiting.

(** When nothing can move inside of a call, all threads are outside, in their critical section or asleep, and nobody sleeps unless some
    thread is in its critical section: no wake-up is lost. *)
Theorem C40_quiet n s : (Z.of_nat n < 2 ^ 32)%Z -> run n s -> stuck s ->
  (forall i, i < n -> nth i (m_pcs s) Idle = Idle \/ nth i (m_pcs s) Idle = Own \/ nth i (m_pcs s) Idle = LSleep) /\
  ((exists i, i < n /\ nth i (m_pcs s) Idle = LSleep) -> exists j, j < n /\ nth j (m_pcs s) Idle = Own).
Proof. exact (quiet n s). Qed.
Print Assumptions C40_quiet.

(** Every thread inside of a call can go on, unless it sleeps or another thread that can go on holds slow_path_lock_. *)
Theorem C40_progress n s i : (Z.of_nat n < 2 ^ 32)%Z -> run n s -> i < n ->
  (exists s', tstep i s s') \/ nth i (m_pcs s) Idle = Idle \/ nth i (m_pcs s) Idle = Own \/ nth i (m_pcs s) Idle = LSleep \/
  exists j s', j <> i /\ tstep j s s'.
Proof. exact (progress n s i). Qed.
Print Assumptions C40_progress.

(** What a call begins with: lock() takes a free lock at once; unlock() frees the lock when nobody waits and otherwise passes it on. *)
Theorem C40_calls n s i : (Z.of_nat n < 2 ^ 32)%Z -> run n s -> i < n ->
  (nth i (m_pcs s) Idle = Idle -> exists s', step s s' /\ nth i (m_pcs s') Idle = (if (m_count s =? 0)%Z then Own else LSlow)) /\
  (nth i (m_pcs s) Idle = Own -> exists s', step s s' /\
     ((forall j, j < n -> ~ waits (nth j (m_pcs s) Idle) /\ nth j (m_pcs s) Idle <> LAdd) -> m_count s' = 0%Z /\ nth i (m_pcs s') Idle = Idle) /\
     ((exists j, j < n /\ waits (nth j (m_pcs s) Idle)) -> nth i (m_pcs s') Idle = USlow)).
Proof. exact (calls n s i). Qed.
Print Assumptions C40_calls.

(** No TRPC_CHECK fails. *)
Theorem C40_no_crash n s i : (Z.of_nat n < 2 ^ 32)%Z -> run n s -> nth i (m_pcs s) Idle <> Crash.
Proof. exact (no_crash n s i). Qed.
Print Assumptions C40_no_crash.

(** Three threads: two wait, the lock goes to the first of them. *)
Example C40_example : exists s, run 3 s /\ m_pcs s = [Idle; Own; LSleep] /\ m_grants s = [1] /\ m_queue s = [2].
Proof. exact hand_over_run. Qed.
