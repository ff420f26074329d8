(** C41: the blocking queue. *)
From Verif.Lib Require Import Base.
From Verif.FiberQueue Require Import Model Spec Proofs ProofsProps.
Local Open Scope Z_scope.

(** What is taken out is what was put in, in order, and size_ is the size of what is left. *)
Theorem C41_fifo szf stops resizes top cap n s : sane szf top -> 0 <= cap <= top -> run szf stops resizes top cap n s ->
  q_in s = q_out s ++ q_items s /\ q_size s = total szf (q_items s).
Proof. exact (fun H1 H2 R => fifo szf stops resizes top cap n s H1 H2 R). Qed.
Print Assumptions C41_fifo.

(** The queue does not grow beyond its capacity unless the capacity changes. *)
Theorem C41_bound szf stops top cap n s : sane szf top -> 0 <= cap <= top -> run szf stops false top cap n s -> total szf (q_items s) <= cap.
Proof.
  exact (fun H1 H2 R => eq_ind _ (fun c => total szf (q_items s) <= c)
           (eq_ind _ (fun z => z <= q_cap s) (bound szf stops false top cap n s H1 H2 R eq_refl) _ (proj2 (fifo szf stops false top cap n s H1 H2 R)))
           _ (cap_same szf stops false top cap n s R eq_refl)).
Qed.
Print Assumptions C41_bound.

(** front() is not called on an empty deque. *)
Theorem C41_no_crash szf stops resizes top cap n s i : sane szf top -> 0 <= cap <= top -> run szf stops resizes top cap n s -> nth i (q_pcs s) Idle <> Crash.
Proof. exact (fun H1 H2 R => no_crash szf stops resizes top cap n s H1 H2 R i). Qed.
Print Assumptions C41_no_crash.

(** What a call does once it has the lock, if the queue is not stopped. *)
Theorem C41_calls szf stops resizes top cap n s i s' : sane szf top -> 0 <= cap <= top -> run szf stops resizes top cap n s -> tstep szf i s s' ->
  (forall k x, nth i (q_pcs s) Idle = UIn k x -> q_stop s = false ->
     (szf x + q_size s <= q_cap s -> nth i (q_pcs s') Idle = UPut x) /\
     (q_cap s < szf x + q_size s -> nth i (q_pcs s') Idle = match k with Try => Idle | _ => UGo k x end)) /\
  (forall k, nth i (q_pcs s) Idle = OIn k -> q_stop s = false ->
     (q_items s <> [] -> nth i (q_pcs s') Idle = OTake) /\ (q_items s = [] -> nth i (q_pcs s') Idle = match k with Try => Idle | _ => OGo k end)) /\
  (forall x, nth i (q_pcs s) Idle = UPut x -> q_stop s = false -> q_items s' = q_items s ++ [x] /\ nth i (q_pcs s') Idle = UNot) /\
  (nth i (q_pcs s) Idle = OTake -> q_stop s = false ->
     q_items s = hd 0%nat (q_items s) :: q_items s' /\ q_out s' = q_out s ++ [hd 0%nat (q_items s)] /\ nth i (q_pcs s') Idle = ONot).
Proof. exact (fun H1 H2 R => calls szf stops resizes top cap n s H1 H2 R i s'). Qed.
Print Assumptions C41_calls.

(** When nothing can move inside of a call, mutex_ is free and everybody is outside or waits without a time limit. *)
Theorem C41_quiet szf stops resizes top cap n s : sane szf top -> 0 <= cap <= top -> run szf stops resizes top cap n s -> stuck szf s ->
  q_mx s = false /\
  forall i, (i < n)%nat -> nth i (q_pcs s) Idle = Idle \/ nth i (q_pcs s) Idle = OSleep Block \/ exists x, nth i (q_pcs s) Idle = USleep Block x.
Proof. exact (fun H1 H2 R => quiet szf stops resizes top cap n s H1 H2 R). Qed.
Print Assumptions C41_quiet.

(** A fiber inside of a call can go on, unless it waits without a time limit or another fiber that can go on has mutex_. *)
Theorem C41_progress szf stops resizes top cap n s i : sane szf top -> 0 <= cap <= top -> run szf stops resizes top cap n s -> (i < n)%nat ->
  (exists s', tstep szf i s s') \/ nth i (q_pcs s) Idle = Idle \/ nth i (q_pcs s) Idle = OSleep Block \/
  (exists x, nth i (q_pcs s) Idle = USleep Block x) \/ q_mx s = true /\ exists j s', j <> i /\ tstep szf j s s'.
Proof. exact (fun H1 H2 R => progress szf stops resizes top cap n s H1 H2 R i). Qed.
Print Assumptions C41_progress.

(** As long as the queue is not stopped, nobody waits in Pop when there are items: no wake-up of a popper is lost. *)
Theorem C41_poppers szf stops resizes top cap n s i : sane szf top -> 0 <= cap <= top -> run szf stops resizes top cap n s -> q_stop s = false ->
  stuck szf s -> popping (nth i (q_pcs s) Idle) -> q_items s = [].
Proof. exact (fun H1 H2 R => poppers szf stops resizes top cap n s H1 H2 R i). Qed.
Print Assumptions C41_poppers.

(** If every item has size one, nobody waits in Push unless the queue is full: no wake-up of a pusher is lost. *)
Theorem C41_pushers_unit szf stops top cap n s i : sane szf top -> 0 <= cap <= top -> run szf stops false top cap n s -> (forall x, szf x = 1) ->
  q_stop s = false -> stuck szf s -> pushing (nth i (q_pcs s) Idle) -> q_size s = q_cap s.
Proof. exact (fun H1 H2 R => pushers_unit szf stops false top cap n s H1 H2 R i eq_refl). Qed.
Print Assumptions C41_pushers_unit.

(** If every item fits into an empty queue, then pushers and poppers do not wait for each other. *)
Theorem C41_no_deadlock szf stops top cap n s i j : sane szf top -> 0 <= cap <= top -> run szf stops false top cap n s -> (forall x, szf x <= cap) ->
  q_stop s = false -> stuck szf s -> pushing (nth i (q_pcs s) Idle) -> q_items s <> [] /\ ~ popping (nth j (q_pcs s) Idle).
Proof.
  exact (fun H1 H2 R U E S P => conj (pushers_some szf stops false top cap n s H1 H2 R i eq_refl U E S P)
                                     (no_deadlock szf stops false top cap n s H1 H2 R i j eq_refl U E S P)).
Qed.
Print Assumptions C41_no_deadlock.

(** After Stop, Push and Pop change nothing, and only a fiber that was already past its test starts to wait. *)
Theorem C41_stop_calls szf i s s' : tstep szf i s s' -> q_stop s = true ->
  q_items s' = q_items s /\ q_in s' = q_in s /\ q_out s' = q_out s /\ q_size s' = q_size s /\ q_stop s' = true /\
  (forall k x, nth i (q_pcs s) Idle = UIn k x -> nth i (q_pcs s') Idle = UPut x) /\
  (forall x, nth i (q_pcs s) Idle = UPut x -> nth i (q_pcs s') Idle = UNot) /\
  (forall k, nth i (q_pcs s) Idle = OIn k -> nth i (q_pcs s') Idle = OTake) /\
  (nth i (q_pcs s) Idle = OTake -> nth i (q_pcs s') Idle = ONot) /\
  (forall k x, nth i (q_pcs s') Idle = USleep k x -> nth i (q_pcs s) Idle = UGo k x) /\
  (forall k, nth i (q_pcs s') Idle = OSleep k -> nth i (q_pcs s) Idle = OGo k).
Proof. exact (stop_calls szf s i s'). Qed.
Print Assumptions C41_stop_calls.

(** Stop wakes a pusher if there is one and then a popper if there is one. *)
Theorem C41_stop_wakes szf i s s' : tstep szf i s s' -> nth i (q_pcs s) Idle = SFull ->
  nth i (q_pcs s') Idle = UNot /\
  ((forall j, ~ pushing (nth j (q_pcs s) Idle)) -> forall j, j <> i -> nth j (q_pcs s') Idle = nth j (q_pcs s) Idle) /\
  ((exists j, pushing (nth j (q_pcs s) Idle)) -> exists j k x, nth j (q_pcs s) Idle = USleep k x /\ nth j (q_pcs s') Idle = UWant k x).
Proof. exact (stop_wakes szf i s s'). Qed.
Print Assumptions C41_stop_wakes.

Theorem C41_notify_wakes szf i s s' : tstep szf i s s' -> nth i (q_pcs s) Idle = UNot ->
  nth i (q_pcs s') Idle = Idle /\
  ((forall j, ~ popping (nth j (q_pcs s) Idle)) -> forall j, j <> i -> nth j (q_pcs s') Idle = nth j (q_pcs s) Idle) /\
  ((exists j, popping (nth j (q_pcs s) Idle)) -> exists j k, nth j (q_pcs s) Idle = OSleep k /\ nth j (q_pcs s') Idle = OWant k).
Proof. exact (notify_wakes szf i s s'). Qed.
Print Assumptions C41_notify_wakes.

(** Stop does not release everybody: of two fibers that wait in Pop, one waits for ever. *)
Theorem C41_stop_two_refuted : exists s, run sz3 true false 3 3 3 s /\ q_stop s = true /\ stuck sz3 s /\ q_pcs s = [Idle; OSleep Block; Idle].
Proof. exact stop_two. Qed.
Print Assumptions C41_stop_two_refuted.

(** Nor does it release a single fiber that is between the test of stop_token_ and the wait: Stop takes no lock. *)
Theorem C41_stop_race_refuted : exists s, run sz3 true false 3 3 2 s /\ q_stop s = true /\ stuck sz3 s /\ q_pcs s = [OSleep Block; Idle].
Proof. exact stop_race. Qed.
Print Assumptions C41_stop_race_refuted.

(** When items have different sizes, a pusher whose item fits can wait for ever: a large item has made room for two. *)
Theorem C41_weighted_refuted :
  exists s, run sz3 false false 2 2 3 s /\ stuck sz3 s /\ q_pcs s = [Idle; Idle; USleep Block 1%nat] /\ q_size s + sz3 1 <= q_cap s.
Proof. exact weighted. Qed.
Print Assumptions C41_weighted_refuted.

(** SetCapacity makes room for two and wakes one. *)
Theorem C41_set_capacity_refuted :
  exists s, run sz3 false true 3 1 4 s /\ stuck sz3 s /\ q_pcs s = [Idle; Idle; USleep Block 1%nat; Idle] /\ q_size s + sz3 1 <= q_cap s.
Proof. exact set_capacity. Qed.
Print Assumptions C41_set_capacity_refuted.

(** An item larger than the capacity is never taken, not even by an empty queue. *)
Theorem C41_too_large_refuted :
  exists s, run sz3 false false 2 2 2 s /\ stuck sz3 s /\ q_pcs s = [USleep Block 3%nat; OSleep Block] /\ q_items s = [].
Proof. exact too_large. Qed.
Print Assumptions C41_too_large_refuted.

(** After Stop, TryPush is about to return true and has dropped the item, and TryPop is about to return true and has left the item in the queue. *)
Theorem C41_drop_refuted : exists s1 s2 s3, run sz3 true false 3 3 2 s1 /\ q_stop s1 = true /\ q_items s1 = [1%nat] /\
  run sz3 true false 3 3 2 s2 /\ q_pcs s1 = [Idle; Idle] /\ nth 0 (q_pcs s2) Idle = UNot /\ q_items s2 = [1%nat] /\
  run sz3 true false 3 3 2 s3 /\ nth 0 (q_pcs s3) Idle = ONot /\ q_items s3 = [1%nat] /\ q_out s3 = [].
Proof. exact dropped. Qed.
Print Assumptions C41_drop_refuted.

(** Two items through a queue with one place: the second Push waits for the first Pop. *)
Example C41_example : exists s1 s2, run (fun _ => 1) false false 1 1 2 s1 /\ q_pcs s1 = [USleep Block 8%nat; Idle] /\ q_items s1 = [7%nat] /\
  run (fun _ => 1) false false 1 1 2 s2 /\ q_pcs s2 = [Idle; Idle] /\ q_items s2 = [8%nat] /\ q_out s2 = [7%nat] /\ q_size s2 = 1.
Proof. exact handed. Qed.
(** The sizes of the runs above meet the hypothesis. *)
Example C41_example_sane : sane sz3 3 /\ sane (fun _ => 1) 1.
Proof. exact (conj (sz3_sane 3 ltac:(now split)) (fun _ => conj (Zle_0_pos 1) eq_refl)). Qed.
