(** C31: the bounded queues lose, duplicate and reorder nothing. *)
From Verif.Lib Require Import Base.
From Verif.Queue Require Import ModelMpmc SpecMpmc ProofsMpmc.
Local Open Scope Z_scope.

(** At any moment: at most [cap] positions are taken, every accepted value has its own position, and every finished pop
    returned the value accepted at its position, a position that no other pop returned. *)
Theorem C31_correct : forall (V : Type) (k : Z), 1 <= k -> forall (single : bool) n (s : queue V), reach (2 ^ k) single n s ->
  0 <= q_deq s <= q_enq s /\ q_enq s <= q_deq s + 2 ^ k /\ Z.of_nat (length (q_acc s)) = q_enq s /\
  NoDup (map fst (q_out s)) /\
  (forall p x, In (p, x) (q_out s) -> 0 <= p < q_deq s /\ x = accepted_at s p /\ x <> None).
Proof. exact (fun V k H single n s => @queue_correct V k H single n s). Qed.
Print Assumptions C31_correct.

(** When nothing is going on, every position below the front was returned and the others are held. *)
Theorem C31_quiet : forall (V : Type) (k : Z), 1 <= k -> forall (single : bool) n (s : queue V), reach (2 ^ k) single n s -> quiet s ->
  (forall p, 0 <= p < q_deq s -> In (p, accepted_at s p) (q_out s)) /\
  (forall p, q_deq s <= p < q_enq s -> q_seq s (slot (2 ^ k) p) = p + 1 /\ q_data s (slot (2 ^ k) p) = accepted_at s p).
Proof. exact (fun V k H single n s => @queue_quiet V k H single n s). Qed.
Print Assumptions C31_quiet.

(** First in, first out: values are accepted behind the accepted ones, and a pop started later returns a later position. *)
Theorem C31_order : forall (V : Type) (k : Z), 1 <= k -> forall (single : bool) n (s s' : queue V),
  reach (2 ^ k) single n s -> steps (step (2 ^ k) single) s s' -> exists acc out,
  q_acc s' = q_acc s ++ acc /\ q_out s' = q_out s ++ out /\ forall p x, In (p, x) out -> q_deq s <= p \/ popping s p.
Proof. exact (fun V k H single n s s' => @queue_order V k H single n s s'). Qed.
Print Assumptions C31_order.

(** A push that returns "full" saw a full queue, and a pop that returns "empty" an empty one. *)
Theorem C31_full : forall (V : Type) (k : Z), 1 <= k -> forall (single : bool) n (s s' : queue V) i v pos,
  reach (2 ^ k) single n s -> step (2 ^ k) single s s' -> nth_error (q_thr s) i = Some (PFull v pos) ->
  nth_error (q_thr s') i = Some Idle -> q_enq s - q_deq s = 2 ^ k.
Proof. exact (fun V k H single n s s' i v pos => @full_return V k H single n s s' i v pos). Qed.
Print Assumptions C31_full.

Theorem C31_empty : forall (V : Type) (k : Z), 1 <= k -> forall (single : bool) n (s s' : queue V) i pos,
  reach (2 ^ k) single n s -> step (2 ^ k) single s s' -> nth_error (q_thr s) i = Some (QEmpty pos) ->
  nth_error (q_thr s') i = Some Idle -> q_enq s = q_deq s.
Proof. exact (fun V k H single n s s' i pos => @empty_return V k H single n s s' i pos). Qed.
Print Assumptions C31_empty.

(** Calls return only there, at the end of a successful push or pop, and in BoundedMPSCQueue from the look at the sequence. *)
Theorem C31_returns : forall (V : Type) (k : Z), 1 <= k -> forall (single : bool) (s s' : queue V) i c,
  step (2 ^ k) single s s' -> nth_error (q_thr s) i = Some c -> c <> Idle -> nth_error (q_thr s') i = Some Idle ->
  (exists v p, c = PFull v p \/ c = PPub v p) \/ (exists p, c = QEmpty p \/ c = QSeq p) \/ exists p x, c = QPub p x.
Proof. exact (fun V k H single s s' i c => @other_return V k H single s s' i c). Qed.
Print Assumptions C31_returns.

(** No thread is ever stuck; and a call that runs alone does what is expected: a push is accepted unless the queue is full, a
    pop returns the oldest value unless the queue is empty. *)
Theorem C31_progress : forall (V : Type) (c : Z) (single : bool) (s : queue V) i p, nth_error (q_thr s) i = Some p -> p <> Idle ->
  exists s' p', step c single s s' /\ q_thr s' = ListX.lset (q_thr s) i p'.
Proof. exact @thread_step. Qed.
Print Assumptions C31_progress.

Theorem C31_push_alone : forall (V : Type) (k : Z), 1 <= k -> forall (single : bool) n (s : queue V) i v,
  reach (2 ^ k) single n s -> quiet s -> (i < length (q_thr s))%nat -> exists s', steps (step (2 ^ k) single) s s' /\ quiet s' /\
  q_acc s' = (if q_enq s - q_deq s <? 2 ^ k then q_acc s ++ [v] else q_acc s) /\ q_deq s' = q_deq s /\ q_out s' = q_out s.
Proof. exact (fun V k H single n s i v => @push_alone V k H single n s i v). Qed.
Print Assumptions C31_push_alone.

Theorem C31_pop_alone : forall (V : Type) (k : Z), 1 <= k -> forall (single : bool) n (s : queue V) i,
  reach (2 ^ k) single n s -> quiet s -> (i < length (q_thr s))%nat -> (single = true -> i = 0%nat) ->
  exists s', steps (step (2 ^ k) single) s s' /\ quiet s' /\ q_acc s' = q_acc s /\
  q_out s' = (if q_deq s <? q_enq s then q_out s ++ [(q_deq s, accepted_at s (q_deq s))] else q_out s).
Proof. exact (fun V k H single n s i => @pop_alone V k H single n s i). Qed.
Print Assumptions C31_pop_alone.

(** A pop of BoundedMPSCQueue returns false only if the queue is empty or the push of the oldest item is not finished... *)
Theorem C31_mpsc_false : forall (V : Type) (k : Z), 1 <= k -> forall single n (s s' : queue V) i pos,
  reach (2 ^ k) single n s -> step (2 ^ k) single s s' -> nth_error (q_thr s) i = Some (QSeq pos) ->
  nth_error (q_thr s') i = Some Idle -> single = true /\
  (q_enq s = q_deq s \/ exists j c, nth_error (q_thr s) j = Some c /\ (exists v, c = PWrite v (q_deq s) \/ c = PPub v (q_deq s))).
Proof. exact (fun V k H single n s s' i pos => @single_return V k H single n s s' i pos). Qed.
Print Assumptions C31_mpsc_false.

(** ... and the latter does happen although another item has been pushed completely: false does not mean empty. *)
Theorem C31_mpsc_behind_refuted : exists s : queue Z, reach 2 true 3 s /\
  nth_error (q_thr s) 0 = Some (QSeq 0) /\ q_seq s (slot 2 0) - (0 + 1) <> 0 /\
  nth_error (q_thr s) 1 = Some (PWrite 7 0) /\ nth_error (q_thr s) 2 = Some Idle /\ q_acc s = [7; 8].
Proof. exact mpsc_behind. Qed.
Print Assumptions C31_mpsc_behind_refuted.

(** The capacity is the least power of two that is large enough, ... *)
Theorem C31_capacity : forall n, 2 <= n <= 2 ^ 63 -> exists c, round_up 65 n = Ok c /\ least_power n c.
Proof. exact round_up_correct. Qed.
Print Assumptions C31_capacity.

(** ... above 2^63 the computation does not end, ... *)
Theorem C31_capacity_refuted : forall n fuel, 2 ^ 63 < n < 2 ^ 64 -> round_up fuel n = NoFuel.
Proof. exact round_up_diverges. Qed.
Print Assumptions C31_capacity_refuted.

(** ... and Init(0) makes a queue of capacity one, where a second push overwrites the first value (and the next pop, which
    waits for sequence 1 at position 0, spins). *)
Theorem C31_capacity_one_refuted : round_up 65 0 = Ok 1 /\ exists s : queue Z, reach 1 false 1 s /\ quiet s /\
  q_acc s = [7; 8] /\ q_out s = [] /\ q_deq s = 0 /\ q_data s 0 = Some 8 /\ q_seq s 0 = 2.
Proof. exact (conj eq_refl capacity_one). Qed.
Print Assumptions C31_capacity_one_refuted.

(** Two threads push at the same time, one of them loses the race for the position and retries; the first pops. *)
Example C31_example : exists s : queue Z, reach (2 ^ 1) false 2 s /\ quiet s /\ q_acc s = [7; 8] /\ q_out s = [(0, Some 7)] /\
  q_enq s = 2 /\ q_deq s = 1.
Proof. exact mpmc_run. Qed.
Example C31_capacity_example : round_up 65 1 = Ok 2 /\ round_up 65 5 = Ok 8 /\ round_up 65 8 = Ok 8.
Proof. repeat split. Qed.
