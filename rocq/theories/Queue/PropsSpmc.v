(** C32: the work-stealing deques hand out each task exactly once. *)
From Coq Require Import Permutation.
From Verif.Lib Require Import Base.
From Verif.Queue Require Import ModelMpmc SpecMpmc ModelSpmc SpecSpmc ProofsSpmc.
Local Open Scope Z_scope.

(** Every step of the unbounded deque is a step of the abstract one (or changes nothing there): pushes append, pops take the
    last item, steals the first, and every call returns what it took.  The bounded one does so as long as it is [lucky]. *)
Theorem C32_deque : forall (V : Type) (bounded : bool) (ok : deque V -> Prop) (c : Z), pow2 c ->
  (bounded = true -> forall s, ok s -> lucky s) -> forall n s s', reach bounded ok c n s -> ok s -> step bounded s s' ->
  astep (abs s) (abs s').
Proof. exact (fun V bounded ok c Hc Hok n s s' => @deque_step V bounded ok c Hc Hok n s s'). Qed.
Print Assumptions C32_deque.

(** Nothing is lost and nothing is returned twice. *)
Theorem C32_exactly_once : forall (V : Type) (bounded : bool) (ok : deque V -> Prop) (c : Z), pow2 c ->
  (bounded = true -> forall s, ok s -> lucky s) -> forall n s, reach bounded ok c n s ->
  Permutation (map Some (d_in s)) (d_got s ++ taken s ++ held s).
Proof. exact (fun V bounded ok c Hc Hok n s => @deque_balanced V bounded ok c Hc Hok n s). Qed.
Print Assumptions C32_exactly_once.

(** While the owner does nothing: the tasks pushed are those returned and those between top_ and bottom_. *)
Theorem C32_quiescent : forall (V : Type) (bounded : bool) (ok : deque V -> Prop) (c : Z), pow2 c ->
  (bounded = true -> forall s, ok s -> lucky s) -> forall n s, reach bounded ok c n s -> d_own s = OIdle -> d_top s <= d_bot s /\
  Permutation (map Some (d_in s)) (d_got s ++ map (fun k => cell s (d_cur s) (d_top s + Z.of_nat k)) (seq 0 (Z.to_nat (d_bot s - d_top s)))).
Proof. exact (fun V bounded ok c Hc Hok n s => @idle_balanced V bounded ok c Hc Hok n s). Qed.
Print Assumptions C32_quiescent.

(** Pop returns nullptr only if the deque is empty. *)
Theorem C32_pop_null : forall (V : Type) (bounded : bool) (ok : deque V -> Prop) (c : Z), pow2 c ->
  (bounded = true -> forall s, ok s -> lucky s) -> forall n s b, reach bounded ok c n s -> d_own s = OPopE b None -> held s = [].
Proof. exact (fun V bounded ok c Hc Hok n s b => @pop_null V bounded ok c Hc Hok n s b). Qed.
Print Assumptions C32_pop_null.

(** Steal returns nullptr only if the deque is empty, the owner is popping the last item, or somebody else took the item. *)
Theorem C32_steal_null : forall (V : Type) (bounded : bool) (ok : deque V -> Prop) (c : Z), pow2 c ->
  (bounded = true -> forall s, ok s -> lucky s) -> forall n s i t s', reach bounded ok c n s ->
  nth_error (d_thr s) i = Some (TB t) -> step bounded s s' -> nth_error (d_thr s') i = Some TIdle ->
  held s = [] \/ (length (held s) = 1%nat /\ exists b, d_own s = OPopT b \/ d_own s = OPopR b b \/ exists x, d_own s = OPopC b x).
Proof. exact (fun V bounded ok c Hc Hok n s i t s' => @steal_null V bounded ok c Hc Hok n s i t s'). Qed.
Print Assumptions C32_steal_null.

Theorem C32_steal_lost : forall (V : Type) (bounded : bool) (ok : deque V -> Prop) (c : Z), pow2 c ->
  (bounded = true -> forall s, ok s -> lucky s) -> forall n s i t x, reach bounded ok c n s ->
  nth_error (d_thr s) i = Some (TC t x) -> d_top s <> t -> t < d_top s.
Proof. exact (fun V bounded ok c Hc Hok n s i t x => @steal_lost V bounded ok c Hc Hok n s i t x). Qed.
Print Assumptions C32_steal_lost.

(** Nobody is ever stuck, and calls that run alone on the unbounded deque do what is expected. *)
Theorem C32_progress : forall (V : Type) bounded (s : deque V),
  (d_own s <> OIdle -> exists s', step bounded s s' /\ d_thr s' = d_thr s) /\
  (forall i p, nth_error (d_thr s) i = Some p -> exists s' p', step bounded s s' /\ d_own s' = d_own s /\ d_thr s' = ListX.lset (d_thr s) i p').
Proof. exact (fun V bounded s => conj (owner_step bounded s) (fun i p => thief_moves bounded s i p)). Qed.
Print Assumptions C32_progress.

Theorem C32_push_alone : forall (V : Type) (c : Z), pow2 c -> forall n (s : deque V) v, d_own s = OIdle -> reach false any c n s ->
  exists s', steps (step false) s s' /\ d_own s' = OIdle /\ d_thr s' = d_thr s /\
  d_in s' = d_in s ++ [v] /\ held s' = held s ++ [Some v] /\ d_got s' = d_got s.
Proof. exact (fun V c H n s v => @push_alone V c H n s v). Qed.
Print Assumptions C32_push_alone.

Theorem C32_pop_alone : forall (V : Type) (c : Z), pow2 c -> forall n (s : deque V), d_own s = OIdle -> reach false any c n s ->
  exists s', steps (step false) s s' /\ d_own s' = OIdle /\ d_thr s' = d_thr s /\ d_in s' = d_in s /\
  ((held s = [] /\ held s' = [] /\ d_got s' = d_got s) \/ exists x, held s = held s' ++ [x] /\ d_got s' = d_got s ++ [x]).
Proof. exact (fun V c H n s => @pop_alone V c H n s). Qed.
Print Assumptions C32_pop_alone.

Theorem C32_steal_alone : forall (V : Type) (c : Z), pow2 c -> forall n (s : deque V) i, d_own s = OIdle ->
  nth_error (d_thr s) i = Some TIdle -> reach false any c n s ->
  exists s', steps (step false) s s' /\ d_own s' = OIdle /\ d_thr s' = d_thr s /\ d_in s' = d_in s /\
  ((held s = [] /\ held s' = [] /\ d_got s' = d_got s) \/ exists x, held s = x :: held s' /\ d_got s' = d_got s ++ [x]).
Proof. exact (fun V c H n s i => @steal_alone V c H n s i). Qed.
Print Assumptions C32_steal_alone.

(** Without luck the bounded deque is broken.  A Dequeue on a new deque returns nullptr and leaves bottom_ at 2^64 - 1; the
    next Enqueue is refused as if the deque were full, whatever its capacity... *)
Theorem C32_bounded_fresh_refuted : forall c, 1 <= c <= 2 ^ 63 -> exists s s' : deque Z, reach true any c 0 s /\
  d_own s = OIdle /\ d_in s = [] /\ d_got s = [None] /\ d_bot s = 2 ^ 64 - 1 /\
  steps (step true) s s' /\ d_own s' = OIdle /\ d_in s' = [].
Proof. exact fresh_pop. Qed.
Print Assumptions C32_bounded_fresh_refuted.

(** ... a Dequeue that loses the race for the last item leaves bottom_ too small: nothing is ever accepted again, ... *)
Theorem C32_bounded_stuck_refuted : forall (V : Type) c n (s s' : deque V) b x s'', pow2 c -> reach true lucky c n s ->
  d_own s = OPopC b x -> d_top s <> b -> d_own s' = OIdle -> step true s s' -> 1 <= b < 2 ^ 63 -> cap s <= 2 ^ 63 ->
  steps (step true) s' s'' -> d_in s'' = d_in s /\ d_got s'' = d_got s.
Proof. exact (@lost_dead). Qed.
Print Assumptions C32_bounded_stuck_refuted.

(** ... which does happen, ... *)
Theorem C32_bounded_stuck_reached : exists s : deque Z, reach true lucky 2 1 s /\ d_own s = OPopC 1 (Some 8) /\ d_top s = 2 /\
  cap s = 2 /\ d_in s = [7; 8] /\ d_got s = [Some 7; Some 8].
Proof. exact lost_run. Qed.
Print Assumptions C32_bounded_stuck_reached.

(** ... and if it was the first item ever, the item is returned twice. *)
Theorem C32_bounded_twice_refuted : exists s : deque Z, reach true any 2 1 s /\ d_own s = OIdle /\ d_in s = [7] /\
  d_got s = [Some 7; None; Some 7].
Proof. exact twice. Qed.
Print Assumptions C32_bounded_twice_refuted.

(** The second push resizes; a thief that still holds the old array gets the first item, the owner the second. *)
Example C32_example : exists s : deque Z, reach false any 1 1 s /\ d_own s = OIdle /\ d_in s = [7; 8] /\
  d_got s = [Some 7; Some 8] /\ cap s = 2.
Proof. exact unbounded_run. Qed.
