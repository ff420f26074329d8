(** C65: the event count loses no wake-up. *)
From Coq Require Import List Bool Arith ZArith.
From Verif Require Import EventCount.Model EventCount.Spec EventCount.ProofsMain EventCount.Packed EventCount.ProofsPacked.
Import ListNotations.
Open Scope nat_scope.

(** A thread that sleeps although a Notify(true) took effect after its
    PrepareWait is about to be woken by some notifier ... *)
Theorem C65_no_lost_wakeup : forall e s i,
  reach e s -> asleep s i -> all_since i (log s) -> exists j, in_hand s j i.
Proof. exact no_lost_wakeup. Qed.
Print Assumptions C65_no_lost_wakeup.

(** ... so when no Notify is running, it does not sleep. *)
Theorem C65_quiet_all_awake : forall e s i,
  reach e s -> quiet s -> all_since i (log s) -> ~ asleep s i.
Proof. exact quiet_all_awake. Qed.
Print Assumptions C65_quiet_all_awake.

(** A thread that has not decided when it is notified will not go to sleep. *)
Theorem C65_notified_early : forall e s i t,
  reach e s -> ticket (wp s i) = Some t -> all_since i (log s) -> t < w_ep (word_ s).
Proof. exact notified_early. Qed.
Print Assumptions C65_notified_early.

(** Notify(true) frees everybody that waits. *)
Theorem C65_notify_all_frees : forall e s j s',
  reach e s -> decides s j true s' ->
  (forall i, ~ waiting s' i) /\ (forall i, waiting s i -> freed s' j i).
Proof. exact notify_all_frees. Qed.
Print Assumptions C65_notify_all_frees.

(** Notify(false) frees exactly one, unless nobody waits. *)
Theorem C65_notify_one_frees : forall e s j s',
  reach e s -> decides s j false s' ->
  (forall i, ~ waiting s i) \/
  exists i, waiting s i /\ ~ waiting s' i /\ freed s' j i /\ forall k, k <> i -> (waiting s' k <-> waiting s k).
Proof. exact notify_one_frees. Qed.
Print Assumptions C65_notify_one_frees.

(** CommitWait returns only after a Notify that followed the PrepareWait. *)
Theorem C65_returns_only_notified : forall e s i s',
  reach e s -> in_commit (wp s i) -> wstep s i = Some s' -> wp s' i = WIdle -> any_since i (log s).
Proof. exact returns_only_notified. Qed.
Print Assumptions C65_returns_only_notified.

(** A sleeping thread is on the stack or with one notifier, never with two. *)
Theorem C65_held_once : forall e s i, reach e s ->
  (asleep s i <-> on_stack s i \/ exists j, in_hand s j i) /\
  (on_stack s i -> forall j, ~ in_hand s j i) /\
  (forall j k, in_hand s j i -> in_hand s k i -> j = k).
Proof. exact held_once. Qed.
Print Assumptions C65_held_once.

(** The exchange that pops succeeds only if the pointer it read is still right. *)
Theorem C65_no_aba : forall e s j snap x xn,
  reach e s -> np s j = NPop snap x xn -> word_ s = snap -> w_stk (word_ s) = Some x /\ nxt s x = xn.
Proof. exact no_aba. Qed.
Print Assumptions C65_no_aba.

(** Undecided threads have different tickets; the assertions on the counter of
    the undecided hold; a thread that yields waits for another undecided one. *)
Theorem C65_tickets : forall e s i t, reach e s -> ticket (wp s i) = Some t ->
  (forall k, ticket (wp s k) = Some t -> k = i) /\
  (t = w_ep (word_ s) -> w_pre (word_ s) <> 0) /\
  (w_ep (word_ s) < t -> exists k, k <> i /\ ticket (wp s k) = Some (w_ep (word_ s))).
Proof. exact tickets. Qed.
Print Assumptions C65_tickets.

Theorem C65_undecided : forall e s, reach e s -> forall t,
  w_ep (word_ s) <= t < w_ep (word_ s) + w_pre (word_ s) <-> w_ep (word_ s) <= t /\ exists i, ticket (wp s i) = Some t.
Proof. exact undecided. Qed.
Print Assumptions C65_undecided.

(** With [n] waiters the counter never exceeds [n], so it stays in its field. *)
Theorem C65_undecided_bound : forall e s n,
  reach e s -> (forall i, n <= i -> wp s i = WIdle) -> w_pre (word_ s) <= n.
Proof. exact undecided_bound. Qed.
Print Assumptions C65_undecided_bound.

(** Nobody is stuck but the sleeping. *)
Theorem C65_notifier_goes_on : forall e s j,
  reach e s -> np s j <> NIdle -> exists s', nstep s j = Some s'.
Proof. exact notifier_goes_on. Qed.
Print Assumptions C65_notifier_goes_on.

Theorem C65_waiter_goes_on : forall s i,
  in_commit (wp s i) -> (exists s', wstep s i = Some s') \/ asleep s i.
Proof. exact waiter_goes_on. Qed.
Print Assumptions C65_waiter_goes_on.

(** The 64-bit arithmetic does to the packed word what the model does to the
    fields. *)
Theorem C65_packed_word : forall e p k w,
  (0 <= k < 2 ^ 16 -> 0 <= p < 2 ^ 16 -> 0 <= w < 2 ^ 16 ->
  (p < 2 ^ 16 - 1 -> b_prepare (packed e p k) = packed e (p + 1) k) /\
  b_ticket (packed e p k) = ((e + p) mod 2 ^ 32) * 2 ^ 32 /\
  (1 <= p -> b_commit (packed e p k) w = packed (e + 1) (p - 1) w) /\
  (1 <= p -> b_cancel (packed e p k) = packed (e + 1) (p - 1) k) /\
  (1 <= p -> b_one (packed e p k) = packed (e + 1) (p - 1) k) /\
  (b_nobody (packed e p k) = true <-> p = 0 /\ k = 2 ^ 16 - 1) /\
  b_all (packed e p k) = packed (e + p) 0 (2 ^ 16 - 1) /\
  b_pop (packed e 0 k) w = packed e 0 w)%Z.
Proof. exact packed_ops. Qed.
Print Assumptions C65_packed_word.

(** Its comparison is right across the wrap of the epoch, for fewer than 2^31
    changes between the two. *)
Theorem C65_packed_compare : forall e p k t,
  (0 <= k < 2 ^ 16 -> 0 <= p < 2 ^ 16 -> - 2 ^ 31 < e - t < 2 ^ 31 ->
  b_compare (packed e p k) ((t mod 2 ^ 32) * 2 ^ 32) = (e - t) * 2 ^ 32)%Z.
Proof. exact packed_compare. Qed.
Print Assumptions C65_packed_compare.

(** Threads 0 and 1 sleep, 2 has prepared; Notify(true) takes effect; 1 is woken
    and returns; 0 still sleeps, in the hand of the notifier; 2 will return. *)
Definition some_run : list action :=
  [APrepare 0; APrepare 1; ACommit 1; AW 1; ACommit 0; AW 0; AW 0; AW 1; AW 1; APrepare 2;
   ANotify 7 true; AN 7; AN 7; AN 7; AN 7; AW 1].

Example C65_example : exists s, reach 5 s /\ asleep s 0 /\ all_since 0 (log s) /\ in_hand s 7 0 /\
  wp s 1 = WIdle /\ wp s 2 = WPrepared 7 /\ w_ep (word_ s) = 8.
Proof.
  destruct (run (init 5) some_run) as [s|] eqn:E; [|vm_compute in E; discriminate].
  exists s. split; [eapply run_reach; [apply reach_init|exact E]|].
  vm_compute in E. injection E as <-. repeat split. apply oc_here.
Qed.

(** A Notify(false) that finds one thread on the stack pops it. *)
Example C65_pop_example : exists s s', reach 5 s /\ decides s 7 false s' /\ on_stack s 0 /\ in_hand s' 7 0 /\ ~ on_stack s' 0.
Proof.
  destruct (run (init 5) [APrepare 0; ACommit 0; AW 0; AW 0; ANotify 7 false; AN 7; AN 7]) as [s|] eqn:E;
    [|vm_compute in E; discriminate].
  destruct (nstep s 7) as [s'|] eqn:N; [|vm_compute in E; injection E as <-; vm_compute in N; discriminate].
  exists s, s'. split; [eapply run_reach; [apply reach_init|exact E]|].
  vm_compute in E. injection E as <-. split; [split; [exact N|]|]; vm_compute in N; injection N as <-.
  - reflexivity.
  - split; [apply oc_here|]. split; [reflexivity|]. intros H. inversion H.
Qed.
