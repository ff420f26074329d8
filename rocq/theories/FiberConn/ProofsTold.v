From Coq Require Import List Bool Arith Lia.
From Verif.Lib Require Import Count.
From Verif.FiberConn Require Import Model Spec Inv ProofsReactor ProofsWrite ProofsInv Proofs.
Import ListNotations.

(** Calls and the reason for closing are touched by few. *)
Definition keeps (s s' : cn) : Prop := snds s' = snds s /\ (killed s = true -> killed s' = true) /\ eseen s' = eseen s /\ efs s' = efs s.
Lemma keeps_refl s : keeps s s.
Proof. unfold keeps. auto. Qed.
Lemma keeps_trans a b c : keeps a b -> keeps b c -> keeps a c.
Proof. unfold keeps. intros (A1&A2&A3&A4) (B1&B2&B3&B4). repeat split; try congruence. auto. Qed.
Lemma keeps_kill s : keeps s (kill s).
Proof. unfold keeps, kill. destruct (killed s) eqn:K; prj; auto. Qed.
Lemma keeps_assert b s : keeps s (assert b s).
Proof. destruct b; [apply keeps_refl|unfold keeps, assert, abort; auto]. Qed.
Lemma keeps_sub t s : keeps s (sub t s).
Proof. unfold keeps, sub. auto. Qed.
Lemma keeps_check s s' : check s = Some s' -> keeps s s'.
Proof. unfold check. destruct (idle s); [destruct (locked s); [discriminate|]|]; intro H; injection H as <-; [unfold keeps; auto|apply keeps_refl]. Qed.
Lemma keeps_handle_read s : keeps s (handle_read s).
Proof. unfold handle_read, keeps. destruct (revs s =? 0); auto. Qed.
Lemma keeps_handle_write s : keeps s (handle_write s).
Proof. unfold handle_write, keeps. destruct (wevs s =? 0); auto. Qed.
Lemma keeps_handshake f h s : keeps s (fst (handshake f h s)).
Proof.
  unfold handshake. destruct (done s); [apply keeps_refl|]. destruct h; cbn [fst]; try (unfold keeps; auto; fail).
  eapply keeps_trans; [|unfold keeps; prj; auto].
  destruct (needr s), (pendw s && f); repeat (eapply keeps_trans; [|apply keeps_sub]); try apply keeps_assert; apply keeps_refl.
Qed.
Lemma keeps_task t s s' : run_task t s = Some s' -> keeps s s'.
Proof.
  intro H. destruct t; cbn [run_task] in H.
  - eapply keeps_trans; [|eapply keeps_check; exact H]. unfold keeps; auto.
  - eapply keeps_trans; [|eapply keeps_check; exact H]. unfold keeps; auto.
  - destruct (check (set_revs 0 s)) as [s1|] eqn:K; [|discriminate]. injection H as <-. apply keeps_check in K.
    eapply keeps_trans; [eapply keeps_trans; [|exact K]; unfold keeps; auto|].
    destruct (en s1); [|apply keeps_refl]. destruct (rcnt s1) as [|[|r]].
    + unfold keeps; auto.
    + eapply keeps_trans; [|unfold keeps; prj; auto]. eapply keeps_trans; [|apply keeps_assert]. unfold keeps; auto.
    + eapply keeps_trans; [|apply keeps_handle_read]. eapply keeps_trans; [|apply keeps_assert]. unfold keeps; auto.
  - destruct (check (set_wevs 0 s)) as [s1|] eqn:K; [|discriminate]. injection H as <-. apply keeps_check in K.
    eapply keeps_trans; [eapply keeps_trans; [|exact K]; unfold keeps; auto|].
    destruct (en s1); [|apply keeps_refl]. destruct (wcnt s1) as [|[|r]].
    + unfold keeps; auto.
    + eapply keeps_trans; [|unfold keeps; prj; auto]. eapply keeps_trans; [|apply keeps_assert]. unfold keeps; auto.
    + eapply keeps_trans; [|apply keeps_handle_write]. eapply keeps_trans; [|apply keeps_assert]. unfold keeps; auto.
  - injection H as <-. destruct (en s); [|apply keeps_refl]. destruct (rcnt s =? 0); [|unfold keeps; auto].
    eapply keeps_trans; [|unfold keeps; prj; auto]. eapply keeps_trans; [|apply keeps_assert]. unfold keeps; auto.
  - injection H as <-. destruct (en s); [|apply keeps_refl]. destruct (wcnt s =? 0).
    + eapply keeps_trans; [|unfold keeps; prj; auto]. eapply keeps_trans; [|apply keeps_assert].
      eapply keeps_trans; [|apply keeps_assert]. unfold keeps; auto.
    + eapply keeps_trans; [|apply keeps_assert]. unfold keeps; auto.
  - eapply keeps_trans; [|eapply keeps_check; exact H]. eapply keeps_trans; [apply (keeps_assert (en s))|]. unfold keeps; auto.
Qed.
Lemma keeps_read h bad x s y s' : rstep h bad x s = Some (y, s') -> keeps s s'.
Proof.
  intro C. destruct x; unfold rstep in C.
  - destruct (negb (en s)); [|destruct (done s)]; injection C as <- <-; apply keeps_refl.
  - pose proof (keeps_handshake true h s) as N. destruct (handshake true h s) as (s1, r). cbn [fst] in N.
    destruct r; injection C as <- <-; try exact N. eapply keeps_trans; [exact N|apply keeps_kill].
  - destruct bad; injection C as <- <-; [apply keeps_kill|apply keeps_refl].
  - injection C as <- <-. apply keeps_sub.
  - injection C as <- <-. apply keeps_sub.
  - injection C as <- <-. eapply keeps_trans; [apply keeps_assert|apply keeps_sub].
  - injection C as <- <-. unfold keeps; auto.
  - destruct (check s) as [s1|] eqn:K; [|discriminate]. injection C as <- <-. apply keeps_check. exact K.
Qed.
Lemma keeps_write h f x s y s' : wstep h f x s = Some (y, s') -> keeps s s'.
Proof.
  intro C. destruct x; unfold wstep in C.
  - destruct (negb (en s)); [|destruct (done s)]; injection C as <- <-; try apply keeps_refl. apply keeps_assert.
  - pose proof (keeps_handshake false h s) as N. destruct (handshake false h s) as (s1, r). cbn [fst] in N.
    destruct r; injection C as <- <-; try exact N; eapply keeps_trans; try exact N; [apply keeps_assert|apply keeps_kill].
  - destruct (leaves f (qn s)); [|discriminate]. destruct f; injection C as <- <-; try (unfold keeps; auto; fail).
    eapply keeps_trans; [|apply keeps_kill]. unfold keeps; auto.
  - injection C as <- <-. apply keeps_sub.
  - injection C as <- <-. apply keeps_sub.
  - injection C as <- <-. eapply keeps_trans; [apply keeps_assert|apply keeps_sub].
  - injection C as <- <-. unfold keeps; auto.
  - destruct (check s) as [s1|] eqn:K; [|discriminate]. injection C as <- <-. apply keeps_check. exact K.
Qed.
Lemma keeps_start h s s' : ststep h s = Some s' -> keeps s s'.
Proof.
  intro C. unfold ststep in C. destruct (str s); try discriminate.
  - pose proof (keeps_handshake false h s) as N. destruct (handshake false h s) as (s1, r). cbn [fst] in N.
    destruct r; injection C as <-; try (eapply keeps_trans; [exact N|unfold keeps; prj; auto]; fail).
    eapply keeps_trans; [exact N|]. eapply keeps_trans; [apply keeps_kill|]. unfold keeps; auto.
  - injection C as <-. unfold keeps; auto.
  - injection C as <-. unfold keeps; auto.
Qed.

(** An error of Send() means that the connection is being closed; the fiber of
    HandleCloseEvent() closes it. *)
Definition told (s : cn) : Prop := (In SErr (snds s) -> killed s = true) /\ (eseen s = true -> killed s = true \/ In EErr (efs s)).
Lemma told_keeps s s' : told s -> keeps s s' -> told s'.
Proof. intros (A & B) (K1&K2&K3&K4). unfold told. rewrite K1, K3, K4. split; [auto|]. intro H. destruct (B H); auto. Qed.

Lemma told_step e s s' : inv s -> told s -> step e s s' -> told s'.
Proof.
  intros I T H. destruct H.
  - eapply told_keeps; [exact T|]. eapply keeps_trans; [|eapply keeps_task; exact H0]. unfold keeps; auto.
  - eapply told_keeps; [exact T|apply keeps_handle_read].
  - eapply told_keeps; [exact T|apply keeps_handle_write].
  - unfold handle_close. destruct (en s); cbn [negb]; [|exact T]. destruct (eseen s) eqn:E; [exact T|].
    destruct T as (A & B). destruct I. rewrite E in i_e. cbn in i_e. destruct (Nat.eqb_spec (eevs s) 0) as [Z|Z]; [|lia].
    split; prj; [exact A|]. intros _. right. apply in_or_app. right. left. reflexivity.
  - eapply told_keeps; [exact T|]. eapply keeps_trans; [eapply keeps_read; exact H0|]. unfold keeps; auto.
  - eapply told_keeps; [exact T|]. eapply keeps_trans; [eapply keeps_write; exact H0|]. unfold keeps; auto.
  - destruct T as (A & B). destruct x; unfold estep in H0.
    + injection H0 as <- <-. assert (K : killed (kill s) = true) by (unfold kill; destruct (killed s) eqn:X; [exact X|reflexivity]).
      split; prj; auto.
    + injection H0 as <- <-. pose proof (keeps_assert (eevs s =? 1) s) as (K1&K2&K3&K4). split; prj; [rewrite K1; auto|].
      rewrite K3. intro X. destruct (B X) as [Y|Y]; [auto|]. right. rewrite H in Y. apply in_app_or in Y. cbn in Y.
      apply in_or_app. destruct Y as [Y|[Y|Y]]; [auto|discriminate|right; right; exact Y].
    + destruct (check s) as [s1|] eqn:K; [|discriminate]. injection H0 as <- <-. apply keeps_check in K. destruct K as (K1&K2&K3&K4).
      split; prj; [rewrite K1; auto|]. rewrite K3. intro X. destruct (B X) as [Y|Y]; [auto|]. right. rewrite H in Y. apply in_app_or in Y. cbn in Y.
      apply in_or_app. destruct Y as [Y|[Y|Y]]; [auto|discriminate|right; exact Y].
  - destruct T as (A & B).
    assert (Z : (killed s = true -> killed s' = true) /\ eseen s' = eseen s /\ efs s' = efs s /\ (y = SErr -> killed s' = true)).
    { assert (Off : en s = false -> killed s = true) by (intro X; destruct I; rewrite X in i_off; tauto).
      destruct x; unfold sstep in H0; try discriminate.
      - injection H0 as <- <-. repeat split; auto. destruct (en s) eqn:E; [discriminate|auto].
      - destruct late; injection H0 as <- <-; repeat split; auto; try discriminate. destruct (qn s =? 0); discriminate.
      - injection H0 as <- <-. repeat split; auto. destruct (done s); discriminate.
      - destruct (done s); injection H0 as <- <-; repeat split; auto; try discriminate; unfold assert, abort; destruct (negb (pendw s)); auto.
      - destruct (locked s); [discriminate|]. destruct (queued s) eqn:Q; injection H0 as <- <-.
        + repeat split; auto. intros _. destruct I. rewrite Q in i_q. tauto.
        + pose proof (keeps_assert (negb (qn s =? 0) && negb (locked s) && negb (existsb is_wflush (wfs s))) s) as (K1&K2&K3&K4).
          fold (enter s) in *. repeat split; auto. discriminate.
      - destruct (leaves f (qn s)); [|discriminate]. destruct f; injection H0 as <- <-; repeat split; auto; try discriminate;
          unfold kill; prj; destruct (killed s) eqn:X; auto.
      - injection H0 as <- <-. repeat split; auto. discriminate. }
    destruct Z as (Z1 & Z2 & Z3 & Z4). split; prj.
    + intro X. apply in_app_or in X. destruct X as [X|[X|X]]; [|auto|]; apply Z1, A; rewrite H; apply in_or_app; [auto|right; right; exact X].
    + rewrite Z2, Z3. intro X. destruct (B X); auto.
  - eapply told_keeps; [exact T|eapply keeps_start; exact H].
  - eapply told_keeps; [exact T|]. unfold keeps; auto.
  - eapply told_keeps; [exact T|]. unfold Model.clean.
    eapply keeps_trans; [apply (keeps_assert ((revs s =? 0) && (wevs s =? 0) && (eevs s =? 0) && negb (en s)))|]. unfold keeps; auto.
  - destruct T as (A & B). split; prj; [|exact B]. intro X. apply in_app_or in X. destruct X as [X|[X|[]]]; [auto|discriminate].
  - eapply told_keeps; [exact T|apply keeps_kill].
Qed.
Lemma told_reach e s : calm e -> reach e s -> told s.
Proof.
  intros C R. induction R; [split; [intros []|discriminate]|]. eapply told_step; [eapply calm_inv; eassumption|exact IHR|exact H].
Qed.
