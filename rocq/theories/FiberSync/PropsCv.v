(** C52: the condition variable.
    [pth]: pthreads wait too; [locked]: notify_one and notify_all are only called with the mutex.  Fibers need no lock to notify; pthreads do. *)
From Verif.Lib Require Import Base.
From Verif.FiberSync Require Import ModelCv SpecCv ProofsCvProps ProofsCvBad.
Local Open Scope Z_scope.

(** The mutex stays exclusive through waits. *)
Theorem C52_exclusion pth locked n s i j : (pth = true -> locked = true) -> run pth locked n s -> (i < length (c_ths s))%nat -> (j < length (c_ths s))%nat ->
  owns (pc_of i s) = true -> owns (pc_of j s) = true -> i = j.
Proof. exact (fun H => exclusion pth locked H n s i j). Qed.
Print Assumptions C52_exclusion.

(** No wait block is touched after its wait has returned, no fiber is resumed that is not in its wait, and no timer fires late. *)
Theorem C52_no_crash pth locked n s i : (pth = true -> locked = true) -> run pth locked n s -> pc_of i s <> Crash.
Proof. exact (fun H => no_crash pth locked H n s i). Qed.
Print Assumptions C52_no_crash.

(** Releasing the mutex and waiting are one step for notifiers: a waiter that has released the mutex is in line, or somebody is about to wake it,
    or the futex will not let it sleep. *)
Theorem C52_atomic pth locked n s i : (pth = true -> locked = true) -> run pth locked n s -> (i < length (c_ths s))%nat -> waiting (pc_of i s) = true ->
  In i (in_line s) \/ called i s \/ exists t, pc_of i s = PUn t /\ t_val (nth i (c_ths s) t0) <> t_st (nth i (c_ths s) t0).
Proof. exact (fun H => not_lost pth locked H n s i). Qed.
Print Assumptions C52_atomic.

(** When nothing can move inside of a call, everybody is outside, or sleeps without a time limit and is in line, or wants the mutex that somebody has. *)
Theorem C52_quiet pth locked n s i : (pth = true -> locked = true) -> run pth locked n s -> stuck s -> (i < length (c_ths s))%nat ->
  pc_of i s = Idle \/ pc_of i s = Hold \/ sleeps (pc_of i s) /\ In i (in_line s) \/
  wants (pc_of i s) /\ exists k, (k < length (c_ths s))%nat /\ pc_of k s = Hold.
Proof. exact (fun H => quiet pth locked H n s i). Qed.
Print Assumptions C52_quiet.

(** A wait puts the caller at the end of the line, with the mutex still held. *)
Theorem C52_starts pth locked n s i : (pth = true -> locked = true) -> run pth locked n s -> (i < length (c_ths s))%nat ->
  (pc_of i s = Hold -> forall t, exists s', step pth locked s s' /\ pc_of i s' = FIn t /\ in_line s' = in_line s ++ [i] /\ asleep s' i = true) /\
  (pth = true -> pc_of i s = Hold -> forall t, exists s', step pth locked s s' /\ pc_of i s' = PAdd t /\ in_line s' = in_line s ++ [i] /\ asleep s' i = true) /\
  (forall h, (locked = true -> h = true) -> pc_of i s = (if h then Hold else Idle) -> forall a, exists s', step pth locked s s' /\ pc_of i s' = NGo h a /\ in_line s' = in_line s).
Proof. exact (fun H => starts pth locked n s i). Qed.
Print Assumptions C52_starts.

(** A notification takes the first waiter in line that has not been woken, and keeps the others; notify_all is over when there is none. *)
Theorem C52_notify pth locked n s s' i h a : (pth = true -> locked = true) -> run pth locked n s -> (i < length (c_ths s))%nat -> pc_of i s = NGo h a -> tstep i s s' ->
  match first_waiter s with
  | None => c_chain s' = [] /\ pc_of i s' = if h then Hold else Idle
  | Some j => called j s' /\ ~ In j (in_line s') /\ forall k, k <> j -> In k (in_line s) -> asleep s k = true -> In k (in_line s')
  end.
Proof. exact (fun H => notify pth locked H n s s' i h a). Qed.
Print Assumptions C52_notify.

(** The waiter that was taken runs; notify_one takes no other. *)
Theorem C52_wakes_fiber pth locked n s s' i j h a g : (pth = true -> locked = true) -> run pth locked n s -> (i < length (c_ths s))%nat -> pc_of i s = NRes h a j g -> tstep i s s' ->
  exists t, pc_of j s = FSusp t /\ pc_of j s' = FRun t /\ pc_of i s' = if a then NGo h true else if h then Hold else Idle.
Proof. exact (fun H => wakes_f pth locked H n s s' i j h a g). Qed.
Print Assumptions C52_wakes_fiber.
Theorem C52_wakes_value pth locked n s s' i j h a g : (pth = true -> locked = true) -> run pth locked n s -> (i < length (c_ths s))%nat -> pc_of i s = NWake h a j g -> tstep i s s' ->
  (waiting (pc_of j s') = true -> t_val (nth j (c_ths s') t0) <> t_st (nth j (c_ths s') t0)) /\ pc_of i s' = NSys h a j g.
Proof. exact (fun H => wakes_p pth locked H n s s' i j h a g). Qed.
Print Assumptions C52_wakes_value.
Theorem C52_wakes_pthread pth locked n s s' i j h a g : (pth = true -> locked = true) -> run pth locked n s -> (i < length (c_ths s))%nat -> pc_of i s = NSys h a j g -> tstep i s s' ->
  (forall t, pc_of j s' <> PWait t) /\ pc_of i s' = if a then NGo h true else if h then Hold else Idle.
Proof. exact (fun H => wakes_s pth locked H n s s' i j h a g). Qed.
Print Assumptions C52_wakes_pthread.

(** A suspended fiber runs again only if somebody was about to wake it. *)
Theorem C52_no_spurious pth locked n s s' j t : run pth locked n s -> step pth locked s s' -> (j < length (c_ths s))%nat -> pc_of j s = FSusp t ->
  pc_of j s' = FSusp t \/ called j s /\ pc_of j s' = FRun t.
Proof. exact (no_spurious pth locked n s s' j t). Qed.
Print Assumptions C52_no_spurious.

(** A wait without a time limit never says that it timed out. *)
Theorem C52_result pth locked n s i t r : (pth = true -> locked = true) -> run pth locked n s -> (i < length (c_ths s))%nat ->
  pc_of i s = FLock t r \/ pc_of i s = PLock t r -> r = false -> t = true.
Proof. exact (fun H => result pth locked H n s i t r). Qed.
Print Assumptions C52_result.

(** A pthread that waits can be overtaken by a notification sent without the mutex: it is out of the line, yet sleeps, for ever, whatever anybody does. *)
Theorem C52_pthread_lost_refuted :
  exists s, run true false 2 s /\ pc_of 0 s = PWait false /\ forall s', reach true false s s' -> pc_of 0 s' = PWait false \/ pc_of 0 s' = PUn false.
Proof. exact pthread_lost. Qed.
Print Assumptions C52_pthread_lost_refuted.

(** A pthread whose wait times out can return while a notifier without the mutex is about to touch its wait block. *)
Theorem C52_pthread_uaf_refuted : exists s, run true false 2 s /\ pc_of 1 s = Crash.
Proof. exact pthread_uaf. Qed.
Print Assumptions C52_pthread_uaf_refuted.

(** A wait with a time limit can say that it was notified although its timer woke it and the notification found nobody to wake. *)
Theorem C52_result_refuted : exists s s', run false true 2 s /\ t_tm (nth 0 (c_ths s) t0) = TRes /\ first_waiter s = None /\
  reach false true s s' /\ t_gen (nth 0 (c_ths s') t0) = t_gen (nth 0 (c_ths s) t0) /\ pc_of 0 s' = Hold /\ t_ret (nth 0 (c_ths s') t0) = true.
Proof. exact wrong_result. Qed.
Print Assumptions C52_result_refuted.

(** Three threads: fiber 0 and fiber 1 wait, in this order; fiber 2 notifies one, without the mutex. *)
Definition ex_wait : cv := go 1 (FSusp false) (go 1 (FUn false) (set_mx false (go 1 (FIn false) (add 1 (upd 1 (block true TNone) (go 1 Hold (set_mx true
  (go 0 (FSusp true) (go 0 (FUn true) (set_mx false (go 0 (FIn true) (add 0 (upd 0 (block true TSet) (go 0 Hold (set_mx true (cv_new 3)))))))))))))))).
Example C52_ex_reached : run false false 3 ex_wait.
Proof.
  repeat (first [apply run_new | eapply run_step; [|first
    [eapply s_inner; first [eapply f_unlock; (split; [repeat constructor|reflexivity])|eapply f_susp; (split; [repeat constructor|reflexivity])]
    |eapply s_lock; [split; [repeat constructor|reflexivity]|reflexivity]
    |eapply (s_fiber _ _ 0 _ true); split; [repeat constructor|reflexivity]
    |eapply (s_fiber _ _ 1 _ false); split; [repeat constructor|reflexivity]]]]).
Qed.
Example C52_ex_line : in_line ex_wait = [0; 1]%nat /\ first_waiter ex_wait = Some 0%nat /\ c_mx ex_wait = false.
Proof. repeat split. Qed.
Example C52_ex_fired : first_waiter (upd 0 set_sat ex_wait) = Some 1%nat.
Proof. reflexivity. Qed.
