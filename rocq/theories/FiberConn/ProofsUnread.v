(** Read events are not forgotten. *)
From Coq Require Import List Bool Arith Lia.
From Verif.Lib Require Import Count.
From Verif.FiberConn Require Import Model Spec Inv ProofsReactor ProofsWrite ProofsInv Proofs ProofsQuiet ProofsRuns ProofsTold.
Import ListNotations.

(** Steps that leave the reading side alone. *)
Definition rkeeps (s s' : cn) : Prop :=
  rfs s' = rfs s /\ revs s' = revs s /\ rset s' = rset s /\ (exists l, tasks s' = tasks s ++ l /\ ~ In KResetR l) /\
  (killed s = true -> killed s' = true).
Lemma rkeeps_refl s : rkeeps s s.
Proof. repeat split; auto. exists []. rewrite app_nil_r. auto. Qed.
Lemma rkeeps_trans a b c : rkeeps a b -> rkeeps b c -> rkeeps a c.
Proof.
  intros (A1&A2&A3&(l&A4&A5)&A6) (B1&B2&B3&(m&B4&B5)&B6). repeat split; try congruence; [|auto].
  exists (l ++ m). split; [rewrite B4, A4, app_assoc; reflexivity|]. intro H. apply in_app_or in H. tauto.
Qed.
Lemma rkeeps_view s s' : rfs s' = rfs s -> revs s' = revs s -> rset s' = rset s -> tasks s' = tasks s ->
  (killed s = true -> killed s' = true) -> rkeeps s s'.
Proof. intros A B C D E. repeat split; auto. exists []. rewrite app_nil_r. auto. Qed.
Lemma rkeeps_done b s : rkeeps s (set_done b s).
Proof. apply rkeeps_view; auto. Qed.
Lemma rkeeps_wset b s : rkeeps s (set_wset b s).
Proof. apply rkeeps_view; auto. Qed.
Lemma rkeeps_kill s : rkeeps s (kill s).
Proof. unfold kill. destruct (killed s) eqn:K; [apply rkeeps_refl|]. apply rkeeps_view; reflexivity. Qed.
Lemma rkeeps_assert b s : rkeeps s (assert b s).
Proof. destruct b; [apply rkeeps_refl|apply rkeeps_view; auto]. Qed.
Lemma rkeeps_sub t s : t <> KResetR -> rkeeps s (sub t s).
Proof. intro N. repeat split; auto. exists [t]. split; [reflexivity|]. intros [H|[]]. congruence. Qed.
Lemma rkeeps_check s s' : check s = Some s' -> rkeeps s s'.
Proof. unfold check. destruct (idle s); [destruct (locked s); [discriminate|]|]; intro H; injection H as <-; [apply rkeeps_view; auto|apply rkeeps_refl]. Qed.
Lemma rkeeps_handle_write s : rkeeps s (handle_write s).
Proof. unfold handle_write. destruct (wevs s =? 0); apply rkeeps_view; auto. Qed.
Lemma rkeeps_enter s : rkeeps s (enter s).
Proof. apply rkeeps_assert. Qed.
Lemma rkeeps_handshake f h s : rkeeps s (fst (handshake f h s)).
Proof.
  unfold handshake. destruct (done s); [apply rkeeps_refl|]. destruct h; cbn [fst]; try (apply rkeeps_view; auto; fail).
  eapply rkeeps_trans; [|apply rkeeps_done].
  destruct (needr s), (pendw s && f); repeat (eapply rkeeps_trans; [|apply rkeeps_sub; discriminate]); try apply rkeeps_assert; apply rkeeps_refl.
Qed.
Lemma rkeeps_write h f x s y s' : wstep h f x s = Some (y, s') -> rkeeps s s'.
Proof.
  intro C. destruct x; unfold wstep in C.
  - destruct (negb (en s)); [|destruct (done s)]; injection C as <- <-; try apply rkeeps_refl. apply rkeeps_enter.
  - pose proof (rkeeps_handshake false h s) as N. destruct (handshake false h s) as (s1, r). cbn [fst] in N.
    destruct r; injection C as <- <-; try exact N; eapply rkeeps_trans; try exact N; [apply rkeeps_enter|apply rkeeps_kill].
  - destruct (leaves f (qn s)); [|discriminate]. destruct f; injection C as <- <-; try (apply rkeeps_view; auto; fail).
    eapply rkeeps_trans; [|apply rkeeps_kill]. apply rkeeps_view; auto.
  - injection C as <- <-. apply rkeeps_sub. discriminate.
  - injection C as <- <-. apply rkeeps_sub. discriminate.
  - injection C as <- <-. eapply rkeeps_trans; [apply rkeeps_assert|apply rkeeps_sub; discriminate].
  - injection C as <- <-. apply rkeeps_view; auto.
  - destruct (check s) as [s1|] eqn:K; [|discriminate]. injection C as <- <-. apply rkeeps_check. exact K.
Qed.
Lemma rkeeps_start h s s' : ststep h s = Some s' -> rkeeps s s'.
Proof.
  intro C. unfold ststep in C. destruct (str s); try discriminate.
  - pose proof (rkeeps_handshake false h s) as N. destruct (handshake false h s) as (s1, r). cbn [fst] in N.
    destruct r; injection C as <-; try (eapply rkeeps_trans; [exact N|apply rkeeps_view; auto]; fail).
    eapply rkeeps_trans; [exact N|]. eapply rkeeps_trans; [apply rkeeps_kill|]. apply rkeeps_view; auto.
  - injection C as <-. eapply rkeeps_trans; [apply (rkeeps_sub KRestR); discriminate|]. apply rkeeps_view; auto.
  - injection C as <-. eapply rkeeps_trans; [apply (rkeeps_sub KRestW); discriminate|]. apply rkeeps_view; auto.
Qed.
Lemma rkeeps_err x s y s' : estep x s = Some (y, s') -> rkeeps s s'.
Proof.
  intro C. destruct x; unfold estep in C.
  - injection C as <- <-. apply rkeeps_kill.
  - injection C as <- <-. eapply (rkeeps_trans _ (assert (eevs s =? 1) s)); [apply rkeeps_assert|]. apply rkeeps_view; auto.
  - destruct (check s) as [s1|] eqn:K; [|discriminate]. injection C as <- <-. apply rkeeps_check. exact K.
Qed.
Lemma rkeeps_send f late x s y s' : sstep f late x s = Some (y, s') -> rkeeps s s'.
Proof.
  intro C. destruct x; unfold sstep in C; try discriminate.
  - injection C as <- <-. apply rkeeps_refl.
  - destruct late; injection C as <- <-; [apply rkeeps_refl|]. apply rkeeps_view; auto.
  - injection C as <- <-. apply rkeeps_refl.
  - destruct (done s); injection C as <- <-; [apply rkeeps_refl|]. eapply (rkeeps_trans _ (assert (negb (pendw s)) s)); [apply rkeeps_assert|]. apply rkeeps_view; auto.
  - destruct (locked s); [discriminate|]. destruct (queued s); injection C as <- <-; [apply rkeeps_refl|apply rkeeps_enter].
  - destruct (leaves f (qn s)); [|discriminate]. destruct f; injection C as <- <-; try (apply rkeeps_view; auto; fail).
    eapply rkeeps_trans; [|apply rkeeps_kill]. apply rkeeps_view; auto.
  - injection C as <- <-. apply rkeeps_sub. discriminate.
Qed.

(** Resetting the counter of reads is for connections that are being closed. *)
Definition rk (s : cn) : Prop := In KResetR (tasks s) -> killed s = true.
Lemma rk_keeps s s' : rk s -> rkeeps s s' -> rk s'.
Proof. intros R (_&_&_&(l&K&N)&Q) H. rewrite K in H. apply in_app_or in H. destruct H as [H|H]; [auto|tauto]. Qed.
Lemma rk_view s s' : rk s -> (In KResetR (tasks s') -> In KResetR (tasks s)) -> (killed s = true -> killed s' = true) -> rk s'.
Proof. unfold rk. auto. Qed.
Lemma check_cases s s' : check s = Some s' -> s' = s \/ s' = set_queued true s.
Proof. unfold check. destruct (idle s); [destruct (locked s); [discriminate|]|]; intro H; injection H as <-; auto. Qed.
Lemma tasks_assert b s : tasks (assert b s) = tasks s.
Proof. destruct b; reflexivity. Qed.
Lemma tasks_handle_read s : tasks (handle_read s) = tasks s.
Proof. unfold handle_read. destruct (revs s =? 0); reflexivity. Qed.
Lemma tasks_handle_write s : tasks (handle_write s) = tasks s.
Proof. unfold handle_write. destruct (wevs s =? 0); reflexivity. Qed.
Lemma tasks_task t s s' : run_task t s = Some s' -> tasks s' = tasks s.
Proof.
  intro H. destruct t; cbn [run_task] in H.
  - apply check_cases in H. destruct H as [-> | ->]; reflexivity.
  - apply check_cases in H. destruct H as [-> | ->]; reflexivity.
  - destruct (check (set_revs 0 s)) as [s1|] eqn:K; [|discriminate]. injection H as <-.
    assert (T : tasks s1 = tasks s) by (apply check_cases in K; destruct K as [-> | ->]; reflexivity).
    destruct (en s1); [|exact T]. destruct (rcnt s1) as [|[|r]]; rewrite ?tasks_handle_read; unfold abort; prj; rewrite ?tasks_assert; exact T.
  - destruct (check (set_wevs 0 s)) as [s1|] eqn:K; [|discriminate]. injection H as <-.
    assert (T : tasks s1 = tasks s) by (apply check_cases in K; destruct K as [-> | ->]; reflexivity).
    destruct (en s1); [|exact T]. destruct (wcnt s1) as [|[|r]]; rewrite ?tasks_handle_write; unfold abort; prj; rewrite ?tasks_assert; exact T.
  - injection H as <-. destruct (en s); [|reflexivity]. destruct (rcnt s =? 0); prj; rewrite ?tasks_assert; reflexivity.
  - injection H as <-. destruct (en s); [|reflexivity]. destruct (wcnt s =? 0); prj; rewrite ?tasks_assert; reflexivity.
  - apply check_cases in H. destruct H as [-> | ->]; prj; rewrite ?tasks_assert; reflexivity.
Qed.
(** A reading fiber asks for this task only when it leaves. *)
Lemma rkeeps_read_tasks h bad x s y s' : x <> RLeave -> x <> RDec -> rstep h bad x s = Some (y, s') -> rkeeps s s'.
Proof.
  intros N1 N2 C. destruct x; unfold rstep in C; try congruence.
  - destruct (negb (en s)); [|destruct (done s)]; injection C as <- <-; apply rkeeps_refl.
  - pose proof (rkeeps_handshake true h s) as N. destruct (handshake true h s) as (s1, r). cbn [fst] in N.
    destruct r; injection C as <- <-; try exact N. eapply rkeeps_trans; [exact N|apply rkeeps_kill].
  - destruct bad; injection C as <- <-; [apply rkeeps_kill|apply rkeeps_refl].
  - injection C as <- <-. apply rkeeps_sub. discriminate.
  - injection C as <- <-. apply rkeeps_sub. discriminate.
  - destruct (check s) as [s1|] eqn:K; [|discriminate]. injection C as <- <-. apply rkeeps_check. exact K.
Qed.
Lemma rkeeps_close s : rkeeps s (handle_close s).
Proof.
  unfold handle_close. destruct (negb (en s)); [apply rkeeps_refl|]. destruct (eseen s); [apply rkeeps_refl|].
  destruct (eevs s =? 0); apply rkeeps_view; auto.
Qed.
Lemma rkeeps_clean s : rkeeps s (clean s).
Proof. unfold clean. eapply (rkeeps_trans _ (assert ((revs s =? 0) && (wevs s =? 0) && (eevs s =? 0) && negb (en s)) s)); [apply rkeeps_assert|apply rkeeps_view; auto]. Qed.
Lemma leave_killed s l1 l2 : inv s -> rfs s = l1 ++ RLeave :: l2 -> killed s = true.
Proof.
  intros I H. destruct (killed s) eqn:K; [reflexivity|]. destruct I. rewrite K in i_leave.
  assert (1 <= cr s RLeave) by (apply in_r; rewrite H; apply in_elt). lia.
Qed.
Lemma rk_step e s s' : inv s -> rk s -> step e s s' -> rk s'.
Proof.
  intros I T H. destruct H.
  - pose proof (keeps_task _ _ _ H0) as (_&K&_). apply tasks_task in H0. eapply rk_view; [exact T| |exact K]. rewrite H0, H. prj. right. assumption.
  - eapply rk_view; [exact T|rewrite tasks_handle_read; auto|]. pose proof (keeps_handle_read s) as (_&K&_). exact K.
  - eapply rk_keeps; [exact T|apply rkeeps_handle_write].
  - eapply rk_keeps; [exact T|apply rkeeps_close].
  - assert (D : (x = RLeave \/ x = RDec) \/ (x <> RLeave /\ x <> RDec)) by (destruct x; (left; (left; reflexivity) || (right; reflexivity)) || (right; split; discriminate)).
    destruct D as [[-> | ->]|[N1 N2]].
    + pose proof (leave_killed _ _ _ I H) as K. cbn [rstep] in H0. injection H0 as <- <-. unfold rk. prj. unfold sub. prj.
      rewrite K. cbn [assert]. intros _. exact K.
    + cbn [rstep] in H0. injection H0 as <- <-. exact T.
    + pose proof (rkeeps_read_tasks _ _ _ _ _ _ N1 N2 H0) as K. apply (rk_keeps _ _ T K).
  - apply (rk_keeps _ _ T (rkeeps_write _ _ _ _ _ _ H0)).
  - apply (rk_keeps _ _ T (rkeeps_err _ _ _ _ H0)).
  - apply (rk_keeps _ _ T (rkeeps_send _ _ _ _ _ _ H0)).
  - apply (rk_keeps _ _ T (rkeeps_start _ _ _ H)).
  - apply (rk_keeps (set_ksub false s)); [exact T|apply rkeeps_sub; discriminate].
  - apply (rk_keeps _ _ T (rkeeps_clean s)).
  - exact T.
  - apply (rk_keeps _ _ T (rkeeps_kill s)).
Qed.
Lemma rk_reach e s : calm e -> reach e s -> rk s.
Proof. intros C R. induction R; [intros []|]. eapply rk_step; [eapply calm_inv; eassumption|exact IHR|exact H]. Qed.

(** Attending survives what leaves the reading side alone. *)
Lemma att_keeps s s' : attended s -> rkeeps s s' -> attended s'.
Proof.
  intros A (K1&K2&K3&(l&K4&_)&_). unfold attended in *. rewrite K1, K2, K3, K4.
  destruct A as [A|[A|[A|A]]]; auto. right. right. left. apply in_or_app. auto.
Qed.
Lemma att_top s : In RTop (rfs s) -> attended s.
Proof. intro H. left. exists RTop. auto. Qed.
(** Whoever owns the reading side of an open connection. *)
Lemma owner s : inv s -> rk s -> killed s = false -> 1 <= revs s -> attended s \/ In RDec (rfs s).
Proof.
  intros I T K N. destruct I. rewrite K in i_leave. destruct i_r as [[Z _]|[_ O1]]; [lia|]. unfold own_r in O1.
  assert (ct s KResetR = 0) by (destruct (Nat.eq_dec (ct s KResetR) 0) as [|Q]; [assumption|]; exfalso; assert (X : In KResetR (tasks s)) by (apply t_in; lia); apply T in X; congruence).
  assert (X : 1 <= cr s RTop \/ 1 <= cr s RHs \/ 1 <= cr s RRead \/ 1 <= cr s RNeedW \/ 1 <= cr s RSupp \/ 1 <= cr s RDec \/ 1 <= ct s KSuppR) by lia.
  clear -X. unfold attended.
  destruct X as [X|[X|[X|[X|[X|[X|X]]]]]]; (apply r_in in X || apply t_in in X); auto; left; left; eexists; (split; [exact X|auto 6]).
Qed.
Lemma att_event s : inv s -> rk s -> killed s = false -> attended (handle_read s).
Proof.
  intros I T K. unfold handle_read. destruct (Nat.eqb_spec (revs s) 0) as [Z|Z].
  - apply att_top. prj. apply in_or_app. right. left. reflexivity.
  - destruct (owner s I T K ltac:(lia)) as [A|A].
    + destruct A as [A|[[A B]|[A|A]]]; unfold attended; prj; auto.
    + right. left. prj. split; [exact A|lia].
Qed.
Lemma att_sw l1 x l2 y s s' : x = REnd \/ x = RLeave -> rfs s = l1 ++ x :: l2 -> rkeeps s s' -> attended s -> attended (set_rfs (l1 ++ y ++ l2) s').
Proof.
  intros X H (K1&K2&K3&(l&K4&_)&_) A. unfold attended in *. prj. rewrite K2, K3, K4. rewrite H in A.
  destruct A as [(z&A&B)|[[A B]|[A|A]]]; auto.
  - left. exists z. split; [|exact B]. eapply in_swap; [exact A|]. intuition congruence.
  - right. left. split; [|exact B]. eapply in_swap; [exact A|]. intuition congruence.
  - right. right. left. apply in_or_app. auto.
Qed.
Lemma att_in l1 x l2 s : x = RTop \/ x = RHs \/ x = RRead \/ x = RNeedW \/ x = RSupp -> attended (set_rfs (l1 ++ [x] ++ l2) s).
Proof. intro X. left. exists x. prj. split; [apply in_or_app; right; left; reflexivity|exact X]. Qed.
(** With a fiber about to decrement, nobody else owns the reading side. *)
Lemma dec_only s l1 l2 : inv s -> rfs s = l1 ++ RDec :: l2 -> attended s -> 2 <= revs s \/ rset s = false.
Proof.
  intros I H A. pose proof (own_r1 s I) as O1. unfold own_r in O1. assert (D : 1 <= cr s RDec) by (apply in_r; rewrite H; apply in_elt).
  destruct A as [(z&A&B)|[[A B]|[A|A]]]; auto; exfalso.
  - apply in_r in A. destruct B as [-> |[-> |[-> |[-> | ->]]]]; lia.
  - apply in_t in A. lia.
Qed.
Lemma att_read h bad s l1 x l2 y s' : inv s -> rfs s = l1 ++ x :: l2 -> rstep h bad x s = Some (y, s') -> killed s' = false ->
  ~ (x = RRead \/ x = RHs /\ h = HRead) -> attended s -> attended (set_rfs (l1 ++ y ++ l2) s').
Proof.
  intros I H C K N A.
  assert (K0 : killed s = false).
  { pose proof (keeps_read _ _ _ _ _ _ C) as (_&Q&_). destruct (killed s); [rewrite Q in K; [discriminate|reflexivity]|reflexivity]. }
  assert (E : en s = true). { destruct I. destruct (en s); [reflexivity|]. destruct i_off. congruence. }
  destruct x; unfold rstep in C.
  - rewrite E in C. cbn [negb] in C. destruct (done s); injection C as <- <-; apply att_in; auto.
  - unfold handshake in C. destruct (done s); [injection C as <- <-; apply att_in; auto|].
    destruct h; cbv beta iota zeta in C; injection C as <- <-.
    + apply att_in; auto.
    + exfalso. unfold kill in K. rewrite K0 in K. prj. discriminate.
    + exfalso. apply N. auto.
    + apply att_in; auto.
  - exfalso. apply N. auto.
  - injection C as <- <-. apply att_in; auto 6.
  - injection C as <- <-. right. right. left. prj. apply in_or_app. right. left. reflexivity.
  - exfalso. pose proof (leave_killed _ _ _ I H). congruence.
  - injection C as <- <-. destruct (dec_only s l1 l2 I H A) as [G|G].
    + destruct (Nat.eqb_spec (revs s) 1) as [Z|_]; [lia|]. apply att_in; auto.
    + right. right. right. prj. exact G.
  - destruct (check s) as [s1|] eqn:Q; [|discriminate]. injection C as <- <-. eapply att_sw; [left; reflexivity|exact H|apply rkeeps_check; exact Q|exact A].
Qed.
Lemma att_task s t l s' : inv s -> rk s -> tasks s = t :: l -> run_task t (set_tasks l s) = Some s' -> killed s' = false ->
  (rset s = false -> rset s' = false) -> attended s -> attended s'.
Proof.
  intros I T H C K N A.
  assert (K0 : killed s = false).
  { pose proof (keeps_task _ _ _ C) as (_&Q&_). prj. destruct (killed s); [rewrite Q in K; [discriminate|reflexivity]|reflexivity]. }
  assert (E : en s = true). { destruct I. destruct (en s); [reflexivity|]. destruct i_off. congruence. }
  assert (In0 : forall x, t <> x -> In x (tasks s) -> In x l) by (intros x D G; rewrite H in G; destruct G; [congruence|assumption]).
  assert (View : forall w, rfs w = rfs s -> revs w = revs s -> rset w = rset s -> tasks w = l -> t <> KSuppR -> attended w).
  { intros w W1 W2 W3 W4 D. unfold attended in *. rewrite W1, W2, W3, W4. destruct A as [A|[A|[A|A]]]; auto. }
  destruct t; cbn [run_task] in C.
  - exfalso. assert (X : In KResetR (tasks s)) by (rewrite H; left; reflexivity). apply T in X. congruence.
  - apply check_cases in C. destruct C as [-> | ->]; apply View; try reflexivity; discriminate.
  - assert (Q : check (set_revs 0 (set_tasks l s)) = Some (set_revs 0 (set_tasks l s))) by (unfold check, idle; prj; rewrite E; reflexivity).
    rewrite Q in C. prj. rewrite E in C. injection C as <-.
    assert (G : 1 <= rcnt s).
    { destruct I. rewrite E in i_on. destruct i_on as (_&_&_&O1&_). unfold own_r in O1.
      assert (1 <= ct s KSuppR) by (apply in_t; rewrite H; left; reflexivity). lia. }
    destruct (rcnt s) as [|[|r]]; [lia| |].
    + right. right. right. reflexivity.
    + apply att_top. unfold handle_read. assert (Z : forall b w, revs (assert b w) = revs w /\ rfs (assert b w) = rfs w) by (intros [] w; split; reflexivity).
      rewrite !(proj1 (Z _ _)). cbn [revs set_revs set_rcnt set_tasks Nat.eqb]. prj. rewrite (proj2 (Z _ _)). apply in_or_app. right. left. reflexivity.
  - assert (Q : check (set_wevs 0 (set_tasks l s)) = Some (set_wevs 0 (set_tasks l s))) by (unfold check, idle; prj; rewrite E; reflexivity).
    rewrite Q in C. prj. rewrite E in C. injection C as <-.
    assert (V0 : attended (set_tasks l s)) by (apply View; try reflexivity; discriminate).
    eapply att_keeps; [exact V0|]. destruct (wcnt s) as [|[|w]].
    + apply rkeeps_view; auto.
    + eapply rkeeps_trans; [|apply rkeeps_wset]. eapply rkeeps_trans; [|apply rkeeps_assert]. apply rkeeps_view; auto.
    + eapply rkeeps_trans; [|apply rkeeps_handle_write]. eapply rkeeps_trans; [|apply rkeeps_assert]. apply rkeeps_view; auto.
  - prj. rewrite E in C. injection C as <-.
    assert (V0 : attended (set_tasks l s)) by (apply View; try reflexivity; discriminate).
    destruct (rcnt s =? 0) eqn:Z.
    + destruct (rset s) eqn:B; [|discriminate (N eq_refl)].
      exfalso. destruct I. rewrite E, B in i_on. apply Nat.eqb_eq in Z. lia.
    + eapply att_keeps; [exact V0|]. apply rkeeps_view; auto.
  - prj. rewrite E in C. injection C as <-.
    assert (V0 : attended (set_tasks l s)) by (apply View; try reflexivity; discriminate).
    eapply att_keeps; [exact V0|]. destruct (wcnt s =? 0).
    + eapply rkeeps_trans; [|apply rkeeps_wset]. eapply rkeeps_trans; [|apply rkeeps_assert]. eapply rkeeps_trans; [|apply rkeeps_assert]. apply rkeeps_view; auto.
    + eapply rkeeps_trans; [|apply rkeeps_assert]. apply rkeeps_view; auto.
  - exfalso. destruct I. rewrite K0 in i_k. cbn [andb b2n] in i_k.
    assert (1 <= ct s KKill) by (apply in_t; rewrite H; left; reflexivity). lia.
Qed.
Lemma unread_reach e s : unread e s -> reach e s.
Proof. intro U. induction U; [eapply reach_step; [exact H|apply T_rev; exact H0]|eapply reach_step; eassumption]. Qed.
Lemma killed_back e s s' : step e s s' -> killed s' = false -> killed s = false.
Proof.
  intros H K. destruct (killed s) eqn:Q; [|reflexivity]. enough (killed s' = true) by congruence. clear K. destruct H.
  - pose proof (keeps_task _ _ _ H0) as (_&X&_). auto.
  - apply (keeps_handle_read s). exact Q.
  - apply (keeps_handle_write s). exact Q.
  - apply (rkeeps_close s). exact Q.
  - apply (keeps_read _ _ _ _ _ _ H0). exact Q.
  - apply (keeps_write _ _ _ _ _ _ H0). exact Q.
  - apply (rkeeps_err _ _ _ _ H0). exact Q.
  - apply (rkeeps_send _ _ _ _ _ _ H0). exact Q.
  - apply (keeps_start _ _ _ H). exact Q.
  - exact Q.
  - apply (rkeeps_clean s). exact Q.
  - exact Q.
  - apply (rkeeps_kill s). exact Q.
Qed.
Lemma read_not_lost e s : calm e -> unread e s -> killed s = false -> attended s.
Proof.
  intros C U. induction U as [s R B|s s' U IH H N G]; intro K.
  - apply att_event; [eapply calm_inv; eassumption|eapply rk_reach; eassumption|]. eapply killed_back; [apply (T_rev e s B)|exact K].
  - pose proof (killed_back _ _ _ H K) as K0. specialize (IH K0). pose proof (unread_reach _ _ U) as R.
    pose proof (calm_inv e s C R) as I. pose proof (rk_reach e s C R) as T. destruct H.
    + eapply att_task; eassumption.
    + apply att_event; assumption.
    + eapply att_keeps; [exact IH|apply rkeeps_handle_write].
    + eapply att_keeps; [exact IH|apply rkeeps_close].
    + eapply att_read; try eassumption. intro X. apply N. exists h, bad, l1, x, l2, y, s'. auto.
    + apply (att_keeps _ _ IH (rkeeps_write _ _ _ _ _ _ H0)).
    + apply (att_keeps _ _ IH (rkeeps_err _ _ _ _ H0)).
    + apply (att_keeps _ _ IH (rkeeps_send _ _ _ _ _ _ H0)).
    + apply (att_keeps _ _ IH (rkeeps_start _ _ _ H)).
    + apply (att_keeps (set_ksub false s)); [exact IH|apply rkeeps_sub; discriminate].
    + apply (att_keeps _ _ IH (rkeeps_clean s)).
    + exact IH.
    + apply (att_keeps _ _ IH (rkeeps_kill s)).
Qed.
(** A quiet connection whose reads are on has read what it was told of. *)
Lemma quiet_read e s : calm e -> unread e s -> killed s = false -> quiet s -> rset s = false.
Proof.
  intros C U K Q. pose proof (read_not_lost e s C U K) as A. destruct (quiet_counts s Q) as (Q1&_&Q2&_).
  destruct A as [(z&A&_)|[[A _]|[A|A]]]; [|  | |exact A]; exfalso.
  - apply in_r in A. rewrite Q1 in A. lia.
  - apply in_r in A. rewrite Q1 in A. lia.
  - apply in_t in A. rewrite Q2 in A. lia.
Qed.
Lemma read_done e s : calm e -> reach e s -> killed s = false -> quiet s -> rset s = true -> ~ unread e s.
Proof. intros C _ K Q B U. pose proof (quiet_read e s C U K Q). congruence. Qed.
Lemma unread_case : exists s, unread quick s /\ killed s = false /\ rset s = true /\ rfs s = [RDec] /\ revs s = 2.
Proof.
  destruct (run quick [AStart HRead; AStart HRead; ATask; ARev; ARead 0 HRead false; ARead 0 HRead false] start0) as [s|] eqn:R;
    [|vm_compute in R; discriminate].
  exists (handle_read s). pose proof (run_reach _ _ _ _ (reach_start quick) R) as Q. vm_compute in R. injection R as R.
  assert (X : killed s = false /\ rset s = true /\ rfs s = [RDec] /\ revs s = 1) by (rewrite <- R; repeat split).
  clear R. destruct X as (X1 & X2 & X3 & X4). split; [apply unread_event; assumption|]. unfold handle_read. rewrite X4.
  cbn [Nat.eqb]. prj. auto.
Qed.
