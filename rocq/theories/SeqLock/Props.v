(** C64: what a sequence lock promises to its readers and writers.  [M] is the
    modulus of the counter (2^32 in the code), [q] its first value. *)
From Coq Require Import List Bool Arith.
From Verif.SeqLock Require Import Model Spec Proofs ProofsMain ProofsRuns.
Import ListNotations.

(** At most one thread is between WriteSeqLock() and WriteSeqUnlock(). *)
Theorem C64_exclusive : forall M q v0 ps s i j t u, M <> 0 -> Nat.even M = true -> Nat.even q = true -> q < M -> sized v0 ps ->
  reach M (start q v0 ps) s -> nth_error (ths s) i = Some t -> nth_error (ths s) j = Some u -> writing (at_ t) -> writing (at_ u) -> i = j.
Proof. exact exclusive. Qed.
Print Assumptions C64_exclusive.

(** With fewer than M / 2 writes in all, an accepted read is the first content or
    one that was written, never a mixture. *)
Theorem C64_snapshot : forall M q v0 ps s i t x, M <> 0 -> Nat.even M = true -> Nat.even q = true -> q < M -> sized v0 ps ->
  2 * length (written ps) < M -> reach M (start q v0 ps) s -> nth_error (ths s) i = Some t -> In x (snaps t) -> x = v0 \/ In x (written ps).
Proof. exact snapshot. Qed.
Print Assumptions C64_snapshot.

(** Whatever happened before: a read during which the counter was incremented
    fewer than M times is accepted only if it was not incremented at all, and
    returns the version that was the latest all the time. *)
Theorem C64_consistent : forall M q v0 ps s i t got e e', M <> 0 -> Nat.even M = true -> Nat.even q = true -> q < M -> sized v0 ps ->
  reach M (start q v0 ps) s -> nth_error (ths s) i = Some t -> In (got, e, e') (seen t) -> e' - e < M ->
  e = e' /\ nth_error (vers s) (e / 2) = Some got.
Proof. exact consistent. Qed.
Print Assumptions C64_consistent.

(** At the moment a read is accepted it is the content of the memory, and nobody
    is storing. *)
Theorem C64_current : forall M q v0 ps s i t r e got, M <> 0 -> Nat.even M = true -> Nat.even q = true -> q < M -> sized v0 ps ->
  reach M (start q v0 ps) s -> nth_error (ths s) i = Some t -> at_ t = RLoad r e got -> length got = length (mem s) -> seq s = r -> incs s - e < M ->
  got = mem s /\ forall j u, nth_error (ths s) j = Some u -> ~ storing (at_ u).
Proof. exact current. Qed.
Print Assumptions C64_current.

(** The history of versions: one for every two increments, all of them written,
    the last one in the memory unless someone is storing. *)
Theorem C64_latest : forall M q v0 ps s, M <> 0 -> Nat.even M = true -> Nat.even q = true -> q < M -> sized v0 ps ->
  reach M (start q v0 ps) s -> length (vers s) = S (incs s / 2) /\ (forall v, In v (vers s) -> v = v0 \/ In v (written ps)) /\
  ((forall j u, nth_error (ths s) j = Some u -> ~ storing (at_ u)) -> nth_error (vers s) (incs s / 2) = Some (mem s)).
Proof. exact latest. Qed.
Print Assumptions C64_latest.

(** The counter is even exactly when nobody is storing. *)
Theorem C64_even : forall M q v0 ps s, M <> 0 -> Nat.even M = true -> Nat.even q = true -> q < M -> sized v0 ps ->
  reach M (start q v0 ps) s -> ((forall j u, nth_error (ths s) j = Some u -> ~ storing (at_ u)) <-> Nat.even (seq s) = true).
Proof. exact calm. Qed.
Print Assumptions C64_even.

(** A writer that has the mutex waits for nobody. *)
Theorem C64_writer_goes : forall M s i t, nth_error (ths s) i = Some t -> writing (at_ t) -> step M i s <> None.
Proof. exact writer_goes. Qed.
Print Assumptions C64_writer_goes.

(** A reader that is left alone while nobody is storing is done after loading the
    counter, the cells and the counter again. *)
Theorem C64_reader_done : forall M q v0 ps s i t, M <> 0 -> Nat.even M = true -> Nat.even q = true -> q < M -> sized v0 ps ->
  reach M (start q v0 ps) s -> nth_error (ths s) i = Some t -> at_ t = RBegin -> (forall j u, nth_error (ths s) j = Some u -> ~ storing (at_ u)) ->
  exists s', alone M i (length v0 + 2) s = Some s' /\ nth_error (ths s') i = Some {| todo := todo t; at_ := Idle; seen := seen t ++ [(mem s, incs s, incs s)] |}.
Proof. exact reader_done. Qed.
Print Assumptions C64_reader_done.

(** FINDING: the counter has no initialiser.  If the lock is made with an odd
    value in that place (FiberSeqLock lock; on a stack or on the heap), readers
    are let in while someone stores ... *)
Theorem C64_uninitialised_refuted : forall M, 2 < M ->
  exists s, reach M (start 1 [0; 0] [[Read]; [Write [7; 7]]]) s /\ map snaps (ths s) = [[[7; 0]]; []].
Proof. exact torn_odd. Qed.
Print Assumptions C64_uninitialised_refuted.

(** ... and no read ever ends while nobody writes. *)
Theorem C64_spin_refuted : forall M q v0 ps s, Nat.odd q = true -> written ps = [] -> reach M (start q v0 ps) s ->
  seq s = q /\ forall t, In t (ths s) -> seen t = [].
Proof. exact spin. Qed.
Print Assumptions C64_spin_refuted.

(** The bound of C64_snapshot cannot be improved: M / 2 writes during one read
    bring the counter back to where it was, and the reader accepts a mixture. *)
Theorem C64_wrap_refuted : forall k, 1 <= k ->
  exists s, reach (2 * k) (start 0 [0; 0] [[Read]; repeat (Write [7; 7]) k]) s /\ map snaps (ths s) = [[[0; 7]]; []].
Proof. exact torn_wrap. Qed.
Print Assumptions C64_wrap_refuted.

(** A reader is overtaken by a writer, notices it and reads again. *)
Example C64_retry_case : exists s, reach 8 (start 0 [0; 0] [[Read]; [Write [7; 7]]; [Read]]) s /\ map snaps (ths s) = [[[7; 7]]; []; [[0; 0]]].
Proof. exact retry_ok. Qed.
