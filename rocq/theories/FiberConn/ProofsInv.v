(** The other steps keep the invariant. *)
From Coq Require Import List Bool Arith Lia.
From Verif.Lib Require Import Count.
From Verif.FiberConn Require Import Model Inv Tactics ProofsReactor ProofsRead ProofsWrite.
Import ListNotations.

Lemma inv_kill s : inv s -> inv (kill s).
Proof. intro I. unfold kill. destruct (killed s) eqn:K; [exact I|]. opn. destruct en; clean; try discriminate. fin. Qed.
Lemma inv_err s l1 x l2 y s' : inv s -> efs s = l1 ++ x :: l2 -> estep x s = Some (y, s') ->
  inv (set_efs (l1 ++ y ++ l2) s').
Proof.
  intros I H C. destruct x; unfold estep in C.
  - injection C as <- <-. assert (H' : efs (kill s) = l1 ++ EErr :: l2) by (unfold kill; destruct (killed s); exact H).
    apply inv_kill in I. generalize dependent (kill s). clear s H. intros s I H. opn. md. fin.
  - injection C as <- <-. opn. assert (E : eevs = 1) by (clean; destruct eseen; cbn [b2n] in *; lia). subst. md. cbn [pred]. fin.
  - destruct (check s) as [s1|] eqn:K; [|discriminate]. injection C as <- <-.
    pose proof (inv_check _ _ I K) as I1.
    assert (H1 : efs s1 = l1 ++ EEnd :: l2).
    { unfold check in K. destruct (idle _); [destruct (locked _); [discriminate|]|]; injection K as <-; exact H. }
    clear H K I. rename H1 into H. opn. md. fin.
Qed.

Lemma snd_old s x l1 l2 : inv s -> snds s = l1 ++ x :: l2 -> young s = false.
Proof. intros I H. destruct I. destruct (young s); [|reflexivity]. destruct i_young as (E & _). rewrite E in H. destruct l1; discriminate. Qed.

Ltac sopn := match goal with I : inv ?s, H : snds ?s = _ |- _ =>
  let Y := fresh "Y" in pose proof (snd_old s _ _ _ I H) as Y; unfold young in Y; destruct I; destruct s; prj; dfn; prj;
  match type of Y with (match ?x with _ => _ end = _) => destruct x; try discriminate Y end; clear Y; subst; comp; clean end.

Lemma inv_snew s l1 l2 f late y s' : inv s -> snds s = l1 ++ SNew :: l2 ->
  sstep f late SNew s = Some (y, s') -> inv (set_snds (l1 ++ y :: l2) s').
Proof. intros I H C. unfold sstep in C. sopn; destruct en; injection C as <- <-; md; fin. Qed.
Lemma inv_sapp s l1 l2 f late y s' : inv s -> snds s = l1 ++ SApp :: l2 ->
  sstep f late SApp s = Some (y, s') -> inv (set_snds (l1 ++ y :: l2) s').
Proof.
  intros I H C. unfold sstep in C. sopn; (destruct late; [|destruct (qn =? 0) eqn:Q; clean; subst]);
    destruct done, en; clean; injection C as <- <-; md; fin.
Qed.
Lemma inv_sdone s l1 l2 f late y s' : inv s -> snds s = l1 ++ SDone :: l2 ->
  sstep f late SDone s = Some (y, s') -> inv (set_snds (l1 ++ y :: l2) s').
Proof. intros I H C. unfold sstep in C. sopn; destruct done, en; clean; injection C as <- <-; md; fin. Qed.
Lemma inv_slock s l1 l2 f late y s' : inv s -> snds s = l1 ++ SLock :: l2 ->
  sstep f late SLock s = Some (y, s') -> inv (set_snds (l1 ++ y :: l2) s').
Proof.
  intros I H C. unfold sstep in C. sopn; destruct done; clean;
    [|destruct pendw; cbn [b2n] in *; [lia|]| |destruct pendw; cbn [b2n] in *; [lia|]];
    destruct en; clean; injection C as <- <-; md; fin.
Qed.
Lemma inv_smutex s l1 l2 f late y s' : inv s -> snds s = l1 ++ SMutex :: l2 ->
  sstep f late SMutex s = Some (y, s') -> inv (set_snds (l1 ++ y :: l2) s').
Proof.
  intros I H C. unfold sstep in C. destruct (locked s) eqn:L; [discriminate|]. apply locked_cs in L.
  assert (D : done s = true).
  { destruct I. destruct (done s); [reflexivity|]. unfold cs in *. rewrite H in i_nd. rewrite !cnt_app in i_nd. cbn in i_nd. lia. }
  destruct (queued s) eqn:Q.
  - injection C as <- <-. sopn; clean; subst; clean; md; fin.
  - rewrite enter_ok in C; [|sopn; destruct en; clean; lia|exact L|sopn; destruct en; clean; lia].
    injection C as <- <-. sopn; destruct en; clean; md; fin.
Qed.
Lemma inv_sflush s l1 l2 f late y s' : inv s -> snds s = l1 ++ SFlush :: l2 ->
  sstep f late SFlush s = Some (y, s') -> inv (set_snds (l1 ++ y :: l2) s').
Proof.
  intros I H C. unfold sstep in C. destruct (leaves f (qn s)) as [n|] eqn:L; [|discriminate].
  unfold leaves in L.
  assert (D : done s = true).
  { destruct I. destruct (done s); [reflexivity|]. unfold cs in *. rewrite H in i_nd. rewrite !cnt_app in i_nd. cbn in i_nd. lia. }
  destruct f as [|k|k]; [injection L as <-|destruct ((1 <=? k) && (k <=? qn s)) eqn:B; [injection L as <-; apply andb_true_iff in B; clean|discriminate]..].
  - injection C as <- <-. sopn; (destruct queued; clean; [lia|]); md; fin.
  - injection C as <- <-. sopn; (destruct queued; clean; [lia|]); md; fin.
  - injection C as <- <-. destruct (killed s) eqn:E; sopn; (destruct queued; clean; [lia|]); destruct en; unfold kill; md; fin.
Qed.
Lemma inv_srest s l1 l2 f late y s' : inv s -> snds s = l1 ++ SRest :: l2 ->
  sstep f late SRest s = Some (y, s') -> inv (set_snds (l1 ++ y :: l2) s').
Proof.
  intros I H C. unfold sstep in C. sopn; destruct done; clean; try lia; destruct en; clean; injection C as <- <-; unfold sub; md; fin.
Qed.
Lemma inv_send s f late l1 x l2 y s' : inv s -> snds s = l1 ++ x :: l2 ->
  sstep f late x s = Some (y, s') -> inv (set_snds (l1 ++ y :: l2) s').
Proof.
  intros I H C. destruct x; try discriminate C.
  - eapply inv_snew; eassumption.
  - eapply inv_sapp; eassumption.
  - eapply inv_sdone; eassumption.
  - eapply inv_slock; eassumption.
  - eapply inv_smutex; eassumption.
  - eapply inv_sflush; eassumption.
  - eapply inv_srest; eassumption.
Qed.

Lemma inv_strt s h s' : inv s -> ststep h s = Some s' -> inv s'.
Proof.
  intros I C. unfold ststep, handshake in C. destruct (str s) eqn:S; [| | |discriminate|discriminate].
  - destruct I. destruct s; prj. dfn; prj. subst str. comp. clean. subst. comp.
    destruct h; unfold kill in C; prj; destruct killed, en; cbn [andb] in *; clean; try discriminate; injection C as <-; unfold sub; md; fin.
  - injection C as <-. opn. clean. subst. comp. destruct en; clean; unfold sub; md; fin.
  - injection C as <-. opn. clean. subst. comp. destruct en; clean; unfold sub; md; fin.
Qed.
Lemma inv_ksub s : inv s -> ksub s = true -> inv (sub KKill (set_ksub false s)).
Proof. intros I H. unfold sub. opn. fin. Qed.
Lemma inv_clean s : inv s -> queued s = true -> cleaned s = 0 -> inv (clean s).
Proof.
  intros I H K. assert (E : (revs s =? 0) && (wevs s =? 0) && (eevs s =? 0) && negb (en s) = true).
  { destruct I. rewrite H in i_q. destruct i_q as (-> & -> & -> & -> & _). reflexivity. }
  unfold Model.clean, assert. rewrite E. clear E. opn. clean. fin.
Qed.
Lemma inv_call s : inv s -> str s = StFail \/ str s = StEnd -> inv (set_snds (snds s ++ [SNew]) s).
Proof. intros I [H|H]; opn; fin. Qed.

Lemma inv_step e s s' : late_ok e = false -> early_ok e = false -> inv s -> step e s s' -> inv s'.
Proof.
  intros L E I H. destruct H.
  - eapply inv_task; eassumption.
  - apply inv_rev; assumption.
  - apply inv_wev; assumption.
  - apply inv_cev; assumption.
  - eapply ProofsRead.inv_read; eassumption.
  - eapply inv_write; try eassumption. intros -> ->.
    destruct (H1 eq_refl eq_refl) as [X|X]; [congruence|].
    destruct I. unfold cw in i_hw. rewrite H, X in i_hw. rewrite cnt_app in i_hw. cbn in i_hw. lia.
  - eapply inv_err; eassumption.
  - eapply inv_send; eassumption.
  - eapply inv_strt; eassumption.
  - apply inv_ksub; assumption.
  - apply inv_clean; assumption.
  - apply inv_call; [assumption|]. destruct H as [H|H]; [congruence|exact H].
  - apply inv_kill; assumption.
Qed.
Lemma inv_reach e s : late_ok e = false -> early_ok e = false -> reach e s -> inv s.
Proof. intros L E R. induction R; [apply inv_start|eapply inv_step; eassumption]. Qed.
