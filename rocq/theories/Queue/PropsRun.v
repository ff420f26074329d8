(** C47: the run queue loses, duplicates and reorders no fiber. *)
From Verif.Lib Require Import Base.
From Verif.Queue Require Import SpecMpmc ModelRun SpecRun ProofsRun.
Local Open Scope Z_scope.

(** At any moment: at most [2 ^ k] positions are taken, the check in BatchPush never fails, every fiber returned is the one accepted at
    its position, no position is returned twice, and what Steal returned was not pushed as instealable. *)
Theorem C47_correct : forall (V : Type) (k : Z), 1 <= k -> forall n (s : runq V), rreach (2 ^ k) n s ->
  0 <= r_tail s <= r_head s /\ r_head s <= r_tail s + 2 ^ k /\ Z.of_nat (length (r_acc s)) = r_head s /\ r_abort s = false /\
  NoDup (map (fun o => fst (fst o)) (r_out s)) /\
  (forall p st x, In (p, st, x) (r_out s) -> 0 <= p < r_tail s /\
    exists e f, fiber_at s p = Some (e, f) /\ x = Some e /\ (st = true -> f = false)).
Proof. exact (fun V k H n s => @run_correct V k H n s). Qed.
Print Assumptions C47_correct.

(** When nothing is going on, every position below the front was returned and the others are held. *)
Theorem C47_quiet : forall (V : Type) (k : Z), 1 <= k -> forall n (s : runq V), rreach (2 ^ k) n s -> rquiet s ->
  (forall p, 0 <= p < r_tail s -> exists st e f, fiber_at s p = Some (e, f) /\ In (p, st, Some e) (r_out s)) /\
  (forall p, r_tail s <= p < r_head s -> exists e f, fiber_at s p = Some (e, f) /\
    r_seq s (rslot (2 ^ k) p) = p + 1 /\ r_data s (rslot (2 ^ k) p) = Some e /\ r_flag s (rslot (2 ^ k) p) = f).
Proof. exact (fun V k H n s => @run_quiet V k H n s). Qed.
Print Assumptions C47_quiet.

(** First in, first out. *)
Theorem C47_order : forall (V : Type) (k : Z), 1 <= k -> forall n (s s' : runq V),
  rreach (2 ^ k) n s -> steps (rstep (2 ^ k)) s s' -> exists acc out,
  r_acc s' = r_acc s ++ acc /\ r_out s' = r_out s ++ out /\ forall p st x, In (p, st, x) out -> r_tail s <= p \/ rpopping s p.
Proof. exact (fun V k H n s s' => @run_order V k H n s s'). Qed.
Print Assumptions C47_order.

(** What is accepted is accepted in one step, the fibers of a batch next to each other. *)
Theorem C47_whole_batch : forall (V : Type) (k : Z), 1 <= k -> forall (s s' : runq V), rstep (2 ^ k) s s' ->
  r_acc s' = r_acc s \/ exists i c l f, nth_error (r_thr s) i = Some c /\
  (c = BCas l f (r_head s) \/ exists e, l = [e] /\ c = PCas e f (r_head s)) /\ r_acc s' = r_acc s ++ map (fun e => (e, f)) l.
Proof. exact (fun V k H s s' => @whole_batch V k s s'). Qed.
Print Assumptions C47_whole_batch.

(** Push returns false only if all places are taken (one perhaps by a pop that is not finished), BatchPush only if the batch would
    leave no place free; Pop and Steal return nullptr only if the queue is empty or the push of the first fiber is not finished, and
    Steal also if the first fiber is instealable (or no longer the first). *)
Theorem C47_push_false : forall (V : Type) (k : Z), 1 <= k -> forall n (s s' : runq V) i e f h,
  rreach (2 ^ k) n s -> rstep (2 ^ k) s s' -> nth_error (r_thr s) i = Some (PSeq e f h) -> nth_error (r_thr s') i = Some RIdle ->
  all_used (2 ^ k) s.
Proof. exact (fun V k H n s s' i e f h => @push_false V k H n s s' i e f h). Qed.
Print Assumptions C47_push_false.

Theorem C47_batch_false : forall (V : Type) (k : Z), 1 <= k -> forall n (s s' : runq V) i c l f h,
  rreach (2 ^ k) n s -> rstep (2 ^ k) s s' -> nth_error (r_thr s) i = Some c ->
  (c = BSeq l f h \/ exists j, c = BTest l f h j) -> nth_error (r_thr s') i = Some RIdle -> no_room (2 ^ k) (Z.of_nat (length l)) s.
Proof. exact (fun V k H n s s' i c l f h => @batch_false V k H n s s' i c l f h). Qed.
Print Assumptions C47_batch_false.

Theorem C47_pop_null : forall (V : Type) (k : Z), 1 <= k -> forall n (s s' : runq V) i st t,
  rreach (2 ^ k) n s -> rstep (2 ^ k) s s' -> nth_error (r_thr s) i = Some (QSeq st t) -> nth_error (r_thr s') i = Some RIdle ->
  r_head s = r_tail s \/ rpushing s (r_tail s).
Proof. exact (fun V k H n s s' i st t => @pop_none V k H n s s' i st t). Qed.
Print Assumptions C47_pop_null.

Theorem C47_steal_null : forall (V : Type) (k : Z), 1 <= k -> forall n (s s' : runq V) i t,
  rreach (2 ^ k) n s -> rstep (2 ^ k) s s' -> nth_error (r_thr s) i = Some (QTest t) -> nth_error (r_thr s') i = Some RIdle ->
  t < r_tail s \/ (t = r_tail s /\ exists e, fiber_at s t = Some (e, true)).
Proof. exact (fun V k H n s s' i t => @steal_none V k H n s s' i t). Qed.
Print Assumptions C47_steal_null.

(** Calls return only there, with an empty batch, or at the end of a successful call. *)
Theorem C47_returns : forall (V : Type) (k : Z), 1 <= k -> forall (s s' : runq V) i c,
  rstep (2 ^ k) s s' -> nth_error (r_thr s) i = Some c -> c <> RIdle -> nth_error (r_thr s') i = Some RIdle ->
  (exists e f h, c = PSeq e f h) \/ (exists l f h, c = BSeq l f h \/ exists j, c = BTest l f h j) \/ (exists f h, c = BCas [] f h) \/
  (exists e f p, c = WPub [e] f p) \/ (exists st t, c = QSeq st t) \/ (exists t, c = QTest t) \/ exists st t x, c = QPub st t x.
Proof. exact (fun V k H s s' i c => @run_returns V k H s s' i c). Qed.
Print Assumptions C47_returns.

(** No thread is ever stuck, and a call that runs alone does what is expected. *)
Theorem C47_progress : forall (V : Type) (k : Z), 1 <= k -> forall n (s : runq V) i c,
  rreach (2 ^ k) n s -> nth_error (r_thr s) i = Some c -> c <> RIdle ->
  exists s' c', rstep (2 ^ k) s s' /\ r_thr s' = ListX.lset (r_thr s) i c'.
Proof. exact (fun V k H n s i c => @run_progress V k H n s i c). Qed.
Print Assumptions C47_progress.

Theorem C47_push_alone : forall (V : Type) (k : Z), 1 <= k -> forall n (s : runq V) i e f,
  rreach (2 ^ k) n s -> rquiet s -> (i < length (r_thr s))%nat -> exists s', steps (rstep (2 ^ k)) s s' /\ rquiet s' /\
  r_acc s' = (if r_head s - r_tail s <? 2 ^ k then r_acc s ++ [(e, f)] else r_acc s) /\ r_tail s' = r_tail s /\ r_out s' = r_out s.
Proof. exact (fun V k H n s i e f => @run_push_alone V k H n s i e f). Qed.
Print Assumptions C47_push_alone.

Theorem C47_batch_alone : forall (V : Type) (k : Z), 1 <= k -> forall n (s : runq V) i l f,
  rreach (2 ^ k) n s -> rquiet s -> (i < length (r_thr s))%nat -> l <> [] -> Z.of_nat (length l) < 2 ^ k ->
  exists s', steps (rstep (2 ^ k)) s s' /\ rquiet s' /\
  r_acc s' = (if r_head s - r_tail s + Z.of_nat (length l) <? 2 ^ k then r_acc s ++ map (fun e => (e, f)) l else r_acc s) /\
  r_tail s' = r_tail s /\ r_out s' = r_out s.
Proof. exact (fun V k H n s i l f => @run_batch_alone V k H n s i l f). Qed.
Print Assumptions C47_batch_alone.

Theorem C47_pop_alone : forall (V : Type) (k : Z), 1 <= k -> forall n (s : runq V) i st,
  rreach (2 ^ k) n s -> rquiet s -> (i < length (r_thr s))%nat -> exists s', steps (rstep (2 ^ k)) s s' /\ rquiet s' /\ r_acc s' = r_acc s /\
  r_out s' = (match fiber_at s (r_tail s) with
              | Some (e, f) => if st && f then r_out s else r_out s ++ [(r_tail s, st, Some e)]
              | None => r_out s end).
Proof. exact (fun V k H n s i st => @run_pop_alone V k H n s i st). Qed.
Print Assumptions C47_pop_alone.

(** A batch that exactly fits is refused. *)
Theorem C47_exact_fit_refuted : exists s s' : runq Z, rreach 2 1 s /\ rquiet s /\ r_head s - r_tail s = 1 /\ steps (rstep 2) s s' /\ rquiet s' /\
  r_acc s' = r_acc s /\ steps (rstep 2) s (moves 0 (BLoad [8] false) s) /\ steps (rstep 2) (moves 0 (BLoad [8] false) s) s'.
Proof. exact run_exact_fit. Qed.
Print Assumptions C47_exact_fit_refuted.

(** BatchPush does not wait for a pop that is not finished with one of its places. *)
Theorem C47_batch_busy : forall (V : Type) (k : Z), 1 <= k -> forall n (s s' : runq V) i l f h j,
  rreach (2 ^ k) n s -> rstep (2 ^ k) s s' -> nth_error (r_thr s) i = Some (BTest l f h j) -> (j < length l)%nat ->
  rpopping s (h + Z.of_nat j - 2 ^ k) -> nth_error (r_thr s') i = Some (BTest l f h j) \/ nth_error (r_thr s') i = Some RIdle.
Proof. exact (fun V k H n s s' i l f h j => @batch_busy V k H n s s' i l f h j). Qed.
Print Assumptions C47_batch_busy.

(** A batch as large as the queue is never accepted, and if nobody else does anything BatchPush never returns. *)
Theorem C47_batch_small : forall (V : Type) (k : Z), 1 <= k -> forall n (s : runq V) i l f,
  rreach (2 ^ k) n s -> nth_error (r_thr s) i = Some (BCas l f (r_head s)) -> Z.of_nat (length l) < 2 ^ k.
Proof. exact (fun V k H n s i l f => @batch_small V k H n s i l f). Qed.
Print Assumptions C47_batch_small.

Theorem C47_large_batch_refuted : forall (V : Type) (k : Z), 1 <= k -> forall (s : runq V) l f,
  rreach (2 ^ k) 1 s -> 2 ^ k <= Z.of_nat (length l) -> r_thr s = [BLoad l f] -> forall s', steps (rstep (2 ^ k)) s s' ->
  (r_thr s' = [BLoad l f] \/ r_thr s' = [BSeq l f (r_head s)]) /\ r_head s' = r_head s /\ r_acc s' = r_acc s.
Proof. exact (fun V k H s l f => @batch_spins V k H s l f). Qed.
Print Assumptions C47_large_batch_refuted.

(** Pop on an empty queue need not return nullptr: it waits as long as a pop [2 ^ k] positions ago is not finished. *)
Theorem C47_pop_waits_refuted : exists s : runq Z, rreach 2 2 s /\ r_head s = 2 /\ r_tail s = 2 /\ r_thr s = [QSeq false 2; QRead false 0] /\
  forall s', rstep 2 s s' -> nth_error (r_thr s') 0 <> Some RIdle.
Proof. exact run_pop_waits. Qed.
Print Assumptions C47_pop_waits_refuted.

(** UnsafeSize is the number of fibers, but zero if the queue is full. *)
Theorem C47_size : forall (V : Type) (k : Z), 1 <= k -> forall n (s : runq V), rreach (2 ^ k) n s -> 2 ^ k < 2 ^ 64 ->
  run_size (2 ^ k) (r_head s) (r_tail s) = if r_head s - r_tail s <? 2 ^ k then r_head s - r_tail s else 0.
Proof. exact (fun V k H n s => @run_size_ok V k H n s). Qed.
Print Assumptions C47_size.

Theorem C47_full_size_refuted : exists s : runq Z, rreach 2 1 s /\ rquiet s /\ r_head s - r_tail s = 2 /\ run_size 2 (r_head s) (r_tail s) = 0.
Proof. exact run_full. Qed.
Print Assumptions C47_full_size_refuted.

Theorem C47_empty : forall (V : Type) (k : Z), 1 <= k -> forall n (s : runq V), rreach (2 ^ k) n s ->
  run_empty (r_head s) (r_tail s) = (r_head s - r_tail s =? 0).
Proof. exact (fun V k H n s => @run_empty_ok V k H n s). Qed.
Print Assumptions C47_empty.

(** The capacity is the least power of two that is large enough, ... *)
Theorem C47_capacity : forall n, 2 <= n <= 2 ^ 63 -> exists c, run_capacity 65 n = Ok c /\ least_power n c.
Proof. exact run_capacity_ok. Qed.
Print Assumptions C47_capacity.

(** ... but Init(0) makes no node at all, and Init(1) a queue in which a second push overwrites the first fiber. *)
Theorem C47_capacity_one_refuted : run_capacity 65 0 = Ok 0 /\ run_capacity 65 1 = Ok 1 /\ exists s : runq Z, rreach 1 1 s /\ rquiet s /\
  r_acc s = [(7, false); (8, false)] /\ r_out s = [] /\ r_tail s = 0 /\ r_data s 0 = Some 8 /\ r_seq s 0 = 2.
Proof. exact (conj eq_refl (conj eq_refl run_capacity_one)). Qed.
Print Assumptions C47_capacity_one_refuted.

(** Thread 0 pushes a batch while thread 1 tries to steal an instealable fiber, pops it, and steals the first of the batch. *)
Example C47_example : exists s : runq Z, rreach 4 2 s /\ rquiet s /\ r_acc s = [(5, true); (7, false); (8, false)] /\
  r_out s = [(0, false, Some 5); (1, true, Some 7)] /\ r_head s = 3 /\ r_tail s = 2.
Proof. exact run_run. Qed.
