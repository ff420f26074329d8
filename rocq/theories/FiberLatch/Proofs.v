From Coq Require Import List Bool Arith ZArith Lia.
From Verif Require Import FiberLatch.Model FiberLatch.Spec.
Import ListNotations.
Open Scope Z_scope.

Lemma upd_same f i p : upd f i p i = p.
Proof. unfold upd. rewrite Nat.eqb_refl. reflexivity. Qed.
Lemma upd_other f i p k : k <> i -> upd f i p k = f k.
Proof. intros N. unfold upd. destruct (Nat.eqb_spec k i); congruence. Qed.

Lemma some_eq {A} (x y : A) : Some x = Some y -> x = y.
Proof. congruence. Qed.

Record Inv (c : Z) (s : st) : Prop := {
  i_left : count s = left_ c (log s);
  i_latch : latch c (log s);
  i_zero : count s = 0 -> forall i t, at_ s i <> Waiting t;
  i_pos : 0 <= c -> 0 <= count s;
  i_dead : dead s = true -> match log s with Over _ :: _ | Below _ :: _ => True | _ => False end
}.

Lemma init_inv c : Inv c (init c).
Proof. constructor; cbn; try discriminate; auto; intros; discriminate. Qed.

Lemma go_inv c s i p : Inv c s -> dead s = false -> (count s = 0 -> forall t, p <> Waiting t) -> Inv c (go s i p).
Proof.
  intros V D P. destruct V. constructor; cbn; [assumption|assumption| |assumption|congruence].
  intros Z k t. destruct (Nat.eq_dec k i) as [->|N]; [rewrite upd_same; auto|rewrite upd_other by exact N; auto].
Qed.

Lemma say_inv c s i e : Inv c s -> dead s = false ->
  match e with Passed _ => count s = 0 | Missed _ => count s <> 0 | _ => False end -> Inv c (say s i e).
Proof.
  intros V D P. destruct V. constructor; cbn; [destruct e; try contradiction; assumption| | |assumption|congruence].
  - split; [assumption|]. destruct e; try contradiction; lia.
  - intros Z k t. destruct (Nat.eq_dec k i) as [->|N]; [rewrite upd_same; discriminate|rewrite upd_other by exact N; auto].
Qed.

Lemma die_inv c s e : Inv c s ->
  match e with Over u => count s < u | Below _ => count s < 0 | _ => False end -> Inv c (die s e).
Proof.
  intros V P. destruct V. constructor; cbn; [destruct e; try contradiction; assumption| |assumption|assumption|].
  - split; [assumption|]. destruct e; try contradiction; lia.
  - intros _. destruct e; try contradiction; exact Logic.I.
Qed.

Lemma step_inv c s a s' : Inv c s -> exec s a = Some s' -> Inv c s'.
Proof.
  intros V H. unfold exec in H. destruct (dead s) eqn:D; [discriminate|].
  destruct a as [u|i|i|i|i|i|i]; unfold exec1 in H.
  - apply some_eq in H. subst s'. destruct (Z.ltb_spec (count s) u); [apply die_inv; assumption|].
    destruct V. constructor; cbn; try discriminate; try lia.
    + split; [assumption|lia].
    + intros Z k t. rewrite (proj2 (Z.eqb_eq _ _) Z). destruct (at_ s k); discriminate.
  - destruct (at_ s i) eqn:E; try discriminate. apply some_eq in H. subst s'.
    destruct (Z.ltb_spec (count s) 0); [apply die_inv; assumption|].
    destruct (Z.eqb_spec (count s) 0); apply say_inv; assumption.
  - destruct (at_ s i) eqn:E; try discriminate. apply some_eq in H. subst s'.
    destruct (Z.ltb_spec (count s) 0); [apply die_inv; assumption|].
    destruct (Z.eqb_spec (count s) 0); [apply say_inv; assumption|apply go_inv; auto; intros; contradiction].
  - destruct (at_ s i) eqn:E; try discriminate. apply some_eq in H. subst s'.
    destruct (Z.eqb_spec (count s) 0); [apply say_inv; assumption|apply go_inv; auto; intros; contradiction].
  - destruct (at_ s i) as [|[]|] eqn:E; try discriminate. apply some_eq in H. subst s'. apply go_inv; auto. intros; discriminate.
  - destruct (at_ s i) as [|t|] eqn:E; try discriminate. apply some_eq in H. subst s'. apply go_inv; auto. intros; discriminate.
  - destruct (at_ s i) as [| |t x] eqn:E; try discriminate. apply some_eq in H. subst s'.
    destruct (Z.eqb_spec (count s) 0); [apply say_inv; assumption|].
    destruct x; [apply say_inv; assumption|apply go_inv; auto; intros; contradiction].
Qed.

Lemma reach_inv c s : reach c s -> Inv c s.
Proof. induction 1; [apply init_inv|]. eapply step_inv; eassumption. Qed.

Theorem history c s : reach c s -> latch c (log s) /\ count s = left_ c (log s).
Proof. intros R. pose proof (reach_inv c s R) as V. split; [apply V|apply V]. Qed.

Theorem all_woken c s i t : reach c s -> left_ c (log s) = 0 -> at_ s i <> Waiting t.
Proof. intros R Z. pose proof (reach_inv c s R) as V. apply (i_zero _ _ V). rewrite (i_left _ _ V). exact Z. Qed.

(** At zero every fiber in a wait passes with its next step, and so does every new wait. *)
Theorem passes c s i : reach c s -> dead s = false -> left_ c (log s) = 0 ->
  (at_ s i = Idle -> exec s (Wait i) = Some (say s i (Passed i)) /\ exec s (WaitFor i) = Some (say s i (Passed i))
                     /\ exec s (TryWait i) = Some (say s i (Passed i))) /\
  (at_ s i <> Idle -> exec s (Retry i) = Some (say s i (Passed i))).
Proof.
  intros R D Z. pose proof (reach_inv c s R) as V. rewrite <- (i_left _ _ V) in Z. unfold exec. rewrite D. cbn. split; intros A.
  - rewrite A, Z. auto.
  - destruct (at_ s i) as [|t|t x] eqn:E; [contradiction| |rewrite Z; reflexivity].
    destruct (i_zero _ _ V Z i t E).
Qed.

(** With updates that are not negative the latch stays open. *)
Theorem stays_open c s a s' : reach c s -> left_ c (log s) = 0 -> nonneg a -> exec s a = Some s' -> left_ c (log s') = 0.
Proof.
  intros R Z N H. pose proof (reach_inv c s R) as V. pose proof (step_inv c s a s' V H) as V'.
  rewrite <- (i_left _ _ V) in Z. rewrite <- (i_left _ _ V').
  unfold exec in H. destruct (dead s); [discriminate|]. destruct a as [u|i|i|i|i|i|i]; cbn in H, N.
  - apply some_eq in H. subst s'. destruct (Z.ltb_spec (count s) u); cbn; lia.
  - destruct (at_ s i); try discriminate. apply some_eq in H. subst s'. destruct (count s <? 0), (count s =? 0); exact Z.
  - destruct (at_ s i); try discriminate. apply some_eq in H. subst s'. destruct (count s <? 0), (count s =? 0); exact Z.
  - destruct (at_ s i); try discriminate. apply some_eq in H. subst s'. destruct (count s =? 0); exact Z.
  - destruct (at_ s i) as [|[]|]; try discriminate. apply some_eq in H. subst s'. exact Z.
  - destruct (at_ s i) as [|t|]; try discriminate. apply some_eq in H. subst s'. exact Z.
  - destruct (at_ s i) as [| |t x]; try discriminate. apply some_eq in H. subst s'. destruct (count s =? 0), x; exact Z.
Qed.

(** A latch that starts at zero or more ends the process only if more is counted than is left. *)
Theorem dies_only_over c s : reach c s -> 0 <= c -> dead s = true -> exists u r, log s = Over u :: r /\ left_ c r < u.
Proof.
  intros R C D. pose proof (reach_inv c s R) as V. pose proof (i_dead _ _ V D) as P. pose proof (i_latch _ _ V) as L.
  pose proof (i_pos _ _ V C) as Q. rewrite (i_left _ _ V) in Q.
  destruct (log s) as [|[u|i|i|u|i] r]; try contradiction; cbn in L, Q; [|lia]. exists u, r. split; [reflexivity|apply L].
Qed.

Lemma run_reach c l : forall s s', reach c s -> run s l = Some s' -> reach c s'.
Proof.
  induction l as [|a r IH]; cbn; intros s s' R H; [injection H as <-; exact R|].
  destruct (exec s a) as [s1|] eqn:E; [|discriminate]. eapply IH; [|exact H]. eapply reach_step; eassumption.
Qed.

(** A negative update closes an open latch again, on a fiber already woken. *)
Theorem rearm : exists s, reach 1 s /\ left_ 1 (tl (log s)) = 0 /\ at_ s 0%nat = Waiting false.
Proof.
  destruct (run (init 1) [Wait 0; CountDown 1; CountDown (-1); Retry 0]) as [s|] eqn:E; [|vm_compute in E; discriminate].
  exists s. split; [eapply run_reach; [apply reach_init|exact E]|]. vm_compute in E. injection E as <-. split; reflexivity.
Qed.

(** WaitFor and WaitUntil do not test for a count below zero, which Wait and TryWait do. *)
Theorem below : exists s s', reach (-1) s /\ exec s (WaitFor 0) = Some (go s 0 (Waiting true)) /\
  exec s (Wait 0) = Some s' /\ dead s' = true.
Proof. exists (init (-1)), (die (init (-1)) (Below 0)). split; [apply reach_init|]. repeat split. Qed.
