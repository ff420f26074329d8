(** Model of the bounded queues with sequence numbers: BoundedMPMCQueue (trpc/util/queue/bounded_mpmc_queue.h),
    LockFreeQueue (lockfree_queue.h) and BoundedMPSCQueue (bounded_mpsc_queue.h), as an interleaving of any number
    of threads, one atomic access per step.

    Simplified: sequentially consistent memory; positions are numbers without bound (they are size_t, so this
    holds for the first 2^63 pushes).  The three classes differ in when they reload the position, which does
    not matter here (a failed compare_exchange of LockFreeQueue is a failed one and a load in one step).
    LockFreeQueue::count_ is not modelled. *)
From Verif.Lib Require Import Base ListX.
Local Open Scope Z_scope.

(** RoundUpPowerOf2, trpc/util/algorithm/power_of_two.cc:18-30, on size_t; the loop need not end. *)
Fixpoint round_loop (fuel : nat) (tmp n : Z) : out Z :=
  match fuel with
  | O => NoFuel
  | S f => if tmp <=? n then round_loop f (Z.shiftl tmp 1 mod 2 ^ 64) n else Ok tmp
  end.
Definition round_up (fuel : nat) (n : Z) : out Z :=
  if (2 <=? n) && (Z.land n (n - 1) =? 0) then Ok n else round_loop fuel 1 n.

Section Queue.
Context {V : Type}.
Variable cap : Z.
(** BoundedMPSCQueue: thread 0 is the only one that pops. *)
Variable single : bool.

(** Where a thread is.  Push and Enqueue, bounded_mpmc_queue.h:60-88, 100-131 (lockfree_queue.h:76-104,
    bounded_mpsc_queue.h:51-77); Dequeue, 139-171 (lockfree_queue.h:109-136, bounded_mpsc_queue.h:119-134). *)
Inductive pc :=
| Idle
| PLoad (v : V)                  (* load enqueue_pos_ *)
| PSeq (v : V) (pos : Z)         (* load the sequence of the element *)
| PCas (v : V) (pos : Z)
| PFull (v : V) (pos : Z)        (* load dequeue_pos_ *)
| PWrite (v : V) (pos : Z)       (* write the data *)
| PPub (v : V) (pos : Z)         (* store the sequence *)
| QLoad                          (* load dequeue_pos_ *)
| QSeq (pos : Z)
| QCas (pos : Z)
| QEmpty (pos : Z)               (* load enqueue_pos_ *)
| QRead (pos : Z)
| QPub (pos : Z) (x : option V).

(** [q_acc] and [q_out] are bookkeeping: the values in the order in which enqueue_pos_ was advanced for them, and
    what the pops returned, with the position. *)
Record queue := { q_enq : Z; q_deq : Z; q_seq : Z -> Z; q_data : Z -> option V; q_thr : list pc;
  q_acc : list V; q_out : list (Z * option V) }.
(** Init, 45-57. *)
Definition init (n : nat) : queue :=
  {| q_enq := 0; q_deq := 0; q_seq := fun i => i; q_data := fun _ => None; q_thr := repeat Idle n; q_acc := []; q_out := [] |}.

Definition slot (pos : Z) : Z := Z.land pos (cap - 1).
Definition zset {A} (f : Z -> A) (i : Z) (x : A) : Z -> A := fun j => if j =? i then x else f j.
Definition with_pc (i : nat) (p : pc) (s : queue) : queue :=
  {| q_enq := q_enq s; q_deq := q_deq s; q_seq := q_seq s; q_data := q_data s; q_thr := lset (q_thr s) i p;
     q_acc := q_acc s; q_out := q_out s |}.

Inductive step : queue -> queue -> Prop :=
| push_start i v s : nth_error (q_thr s) i = Some Idle -> step s (with_pc i (PLoad v) s)
| p_load i v s : nth_error (q_thr s) i = Some (PLoad v) -> step s (with_pc i (PSeq v (q_enq s)) s)
| p_seq i v pos s : nth_error (q_thr s) i = Some (PSeq v pos) ->
    let dif := q_seq s (slot pos) - pos in
    step s (with_pc i (if dif =? 0 then PCas v pos else if dif <? 0 then PFull v pos else PLoad v) s)
| p_cas i v pos s : nth_error (q_thr s) i = Some (PCas v pos) -> q_enq s = pos ->
    step s {| q_enq := pos + 1; q_deq := q_deq s; q_seq := q_seq s; q_data := q_data s; q_thr := lset (q_thr s) i (PWrite v pos);
              q_acc := q_acc s ++ [v]; q_out := q_out s |}
| (* compare_exchange_weak may fail *)
  p_cas_fail i v pos s : nth_error (q_thr s) i = Some (PCas v pos) -> step s (with_pc i (PLoad v) s)
| (* returns full *)
  p_full i v pos s : nth_error (q_thr s) i = Some (PFull v pos) -> pos - q_deq s = cap -> step s (with_pc i Idle s)
| (* not full, or Enqueue(data, true) *)
  p_again i v pos s : nth_error (q_thr s) i = Some (PFull v pos) -> step s (with_pc i (PLoad v) s)
| p_write i v pos s : nth_error (q_thr s) i = Some (PWrite v pos) ->
    step s {| q_enq := q_enq s; q_deq := q_deq s; q_seq := q_seq s; q_data := zset (q_data s) (slot pos) (Some v);
              q_thr := lset (q_thr s) i (PPub v pos); q_acc := q_acc s; q_out := q_out s |}
| p_pub i v pos s : nth_error (q_thr s) i = Some (PPub v pos) ->
    step s {| q_enq := q_enq s; q_deq := q_deq s; q_seq := zset (q_seq s) (slot pos) (pos + 1); q_data := q_data s;
              q_thr := lset (q_thr s) i Idle; q_acc := q_acc s; q_out := q_out s |}
| pop_start i s : nth_error (q_thr s) i = Some Idle -> (single = true -> i = 0%nat) -> step s (with_pc i QLoad s)
| q_load i s : nth_error (q_thr s) i = Some QLoad -> step s (with_pc i (QSeq (q_deq s)) s)
| q_seq_multi i pos s : nth_error (q_thr s) i = Some (QSeq pos) -> single = false ->
    let dif := q_seq s (slot pos) - (pos + 1) in
    step s (with_pc i (if dif =? 0 then QCas pos else if dif <? 0 then QEmpty pos else QLoad) s)
| (* bounded_mpsc_queue.h:125, 133: returns false *)
  q_seq_single i pos s : nth_error (q_thr s) i = Some (QSeq pos) -> single = true ->
    let dif := q_seq s (slot pos) - (pos + 1) in
    step s (with_pc i (if dif =? 0 then QCas pos else Idle) s)
| q_cas i pos s : nth_error (q_thr s) i = Some (QCas pos) -> q_deq s = pos -> single = false ->
    step s {| q_enq := q_enq s; q_deq := pos + 1; q_seq := q_seq s; q_data := q_data s; q_thr := lset (q_thr s) i (QRead pos);
              q_acc := q_acc s; q_out := q_out s |}
| (* bounded_mpsc_queue.h:126: a store *)
  q_store i pos s : nth_error (q_thr s) i = Some (QCas pos) -> single = true ->
    step s {| q_enq := q_enq s; q_deq := pos + 1; q_seq := q_seq s; q_data := q_data s; q_thr := lset (q_thr s) i (QRead pos);
              q_acc := q_acc s; q_out := q_out s |}
| q_cas_fail i pos s : nth_error (q_thr s) i = Some (QCas pos) -> single = false -> step s (with_pc i QLoad s)
| (* returns empty *)
  q_empty i pos s : nth_error (q_thr s) i = Some (QEmpty pos) -> pos - q_enq s = 0 -> step s (with_pc i Idle s)
| q_again i pos s : nth_error (q_thr s) i = Some (QEmpty pos) -> step s (with_pc i QLoad s)
| q_read i pos s : nth_error (q_thr s) i = Some (QRead pos) -> step s (with_pc i (QPub pos (q_data s (slot pos))) s)
| q_pub i pos x s : nth_error (q_thr s) i = Some (QPub pos x) ->
    step s {| q_enq := q_enq s; q_deq := q_deq s; q_seq := zset (q_seq s) (slot pos) (pos + cap); q_data := q_data s;
              q_thr := lset (q_thr s) i Idle; q_acc := q_acc s; q_out := q_out s ++ [(pos, x)] |}.
Inductive reach (n : nat) : queue -> Prop :=
| r_init : reach n (init n)
| r_step s s' : reach n s -> step s s' -> reach n s'.
End Queue.
Arguments pc : clear implicits.
Arguments queue : clear implicits.
