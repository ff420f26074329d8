(** C39: the fiber shared mutex. *)
From Verif.Lib Require Import Base.
From Verif.FiberSync Require Import ModelShared SpecShared ProofsSharedProps.
Local Open Scope Z_scope.

(** At most one writer, and no readers beside a writer. *)
Theorem C39_exclusion n s i j : Z.of_nat n < 2 ^ 30 - 1 -> run n s -> (i < n)%nat -> (j < n)%nat ->
  writes (nth i (x_pcs s) Idle) -> reads (nth j (x_pcs s) Idle) \/ writes (nth j (x_pcs s) Idle) -> i = j.
Proof. exact (fun H R => exclusion n s H R i j). Qed.
Print Assumptions C39_exclusion.

(** The counters stay in the range of int32_t, and no TRPC_CHECK fails. *)
Theorem C39_range n s : Z.of_nat n < 2 ^ 30 - 1 -> run n s ->
  - Z.of_nat n <= x_quota s <= 2 ^ 30 - 1 /\ - Z.of_nat n <= x_pend s <= Z.of_nat n /\ 0 <= x_granted s <= Z.of_nat n.
Proof. exact (fun H R => range n s H R). Qed.
Print Assumptions C39_range.

Theorem C39_no_crash n s i : Z.of_nat n < 2 ^ 30 - 1 -> run n s -> nth i (x_pcs s) Idle <> Crash.
Proof. exact (fun H R => no_crash n s H R i). Qed.
Print Assumptions C39_no_crash.

(** When nothing can move inside of a call, everybody is outside, reads, writes or waits, and nobody waits unless somebody reads or writes:
    no wake-up is lost. *)
Theorem C39_quiet n s : Z.of_nat n < 2 ^ 30 - 1 -> run n s -> stuck s ->
  (forall i, (i < n)%nat -> nth i (x_pcs s) Idle = Idle \/ nth i (x_pcs s) Idle = Reading \/ nth i (x_pcs s) Idle = Writing \/
                           waits (nth i (x_pcs s) Idle)) /\
  ((exists i, (i < n)%nat /\ waits (nth i (x_pcs s) Idle)) ->
   exists j, (j < n)%nat /\ (nth j (x_pcs s) Idle = Reading \/ nth j (x_pcs s) Idle = Writing)).
Proof. exact (fun H R => quiet n s H R). Qed.
Print Assumptions C39_quiet.

(** A fiber inside of a call can go on, unless it waits or another fiber that can go on has wakeup_lock_. *)
Theorem C39_progress n s i : Z.of_nat n < 2 ^ 30 - 1 -> run n s -> (i < n)%nat ->
  (exists s', tstep i s s') \/ nth i (x_pcs s) Idle = Idle \/ nth i (x_pcs s) Idle = Reading \/ nth i (x_pcs s) Idle = Writing \/
  waits (nth i (x_pcs s) Idle) \/ x_wk s = true /\ exists j s', j <> i /\ tstep j s s'.
Proof. exact (fun H R => progress n s H R i). Qed.
Print Assumptions C39_progress.

(** lock_shared() gets the lock at once if no writer has announced itself, and otherwise waits. *)
Theorem C39_read_call n s i : Z.of_nat n < 2 ^ 30 - 1 -> run n s -> (i < n)%nat -> nth i (x_pcs s) Idle = Idle ->
  ((forall j, (j < n)%nat -> ~ claims (nth j (x_pcs s) Idle)) -> exists s', step s s' /\ nth i (x_pcs s') Idle = Reading) /\
  ((exists j, (j < n)%nat /\ claims (nth j (x_pcs s) Idle)) -> exists s', step s s' /\ nth i (x_pcs s') Idle = RWant).
Proof. exact (fun H R => read_call n s H R i). Qed.
Print Assumptions C39_read_call.

(** Once a writer has announced itself, only readers that have waited for its predecessor get the lock before it. *)
Theorem C39_preference n s j i s' : Z.of_nat n < 2 ^ 30 - 1 -> run n s -> (j < n)%nat -> claims (nth j (x_pcs s) Idle) -> step s s' ->
  reads (nth i (x_pcs s') Idle) -> reads (nth i (x_pcs s) Idle) \/ nth i (x_pcs s) Idle = RChk.
Proof. exact (fun H R => preference n s H R j i s'). Qed.
Print Assumptions C39_preference.

(** unlock() lets in all fibers that wait in lock_shared(). *)
Theorem C39_grant n s i w s' : Z.of_nat n < 2 ^ 30 - 1 -> run n s -> (i < n)%nat -> nth i (x_pcs s) Idle = WU2 w -> tstep i s s' ->
  x_granted s' = Z.of_nat (length (filter asks (x_pcs s))).
Proof. exact (fun H R => grant n s H R i w s'). Qed.
Print Assumptions C39_grant.

(** lock() of a lock that nobody has or asks for does not wait. *)
Theorem C39_write_free n s i : Z.of_nat n < 2 ^ 30 - 1 -> run n s -> (i < n)%nat -> nth i (x_pcs s) Idle = WSub ->
  (forall j, (j < n)%nat -> ~ reads (nth j (x_pcs s) Idle) /\ asks (nth j (x_pcs s) Idle) = false) ->
  forall s', tstep i s s' -> nth i (x_pcs s') Idle = Writing.
Proof. exact (fun H R => write_free n s H R i). Qed.
Print Assumptions C39_write_free.

(** Two readers, a writer that waits for them and a third reader that waits for the writer; then the writer and the third reader have had their turn. *)
Example C39_example : exists s1 s2, run 4 s1 /\ x_pcs s1 = [Reading; Reading; WSleep; RSleep] /\
  run 4 s2 /\ x_pcs s2 = [Idle; Idle; Idle; Reading] /\ x_quota s2 = 2 ^ 30 - 2.
Proof. exact four_fibers. Qed.
