(** Steps of the reactor keep the invariant. *)
From Coq Require Import List Bool Arith Lia.
From Verif.Lib Require Import Count.
From Verif.FiberConn Require Import Model Inv Tactics.
Import ListNotations.

Lemma inv_rev s : inv s -> rset s = true -> inv (handle_read s).
Proof.
  intros [] H. unfold handle_read. destruct s; prj. dfn; prj.
  destruct en; clean; [|congruence]. subst.
  destruct (revs =? 0) eqn:E; destruct queued; clean; prj; try discriminate. all: subst.
  all: fin.
Qed.
Lemma inv_wev s : inv s -> wset s = true -> inv (handle_write s).
Proof.
  intros [] H. unfold handle_write. destruct s; prj. dfn; prj.
  destruct en; clean; [|congruence]. subst.
  destruct (wevs =? 0) eqn:E; destruct queued; clean; prj; try discriminate. all: subst.
  all: fin.
Qed.
Lemma inv_cev s : inv s -> inv (handle_close s).
Proof.
  intros []. unfold handle_close. destruct s; prj. dfn; prj.
  destruct en; clean; cbn [negb]; [|constructor; dfn; prj; repeat split; assumption]. 
  destruct eseen; [constructor; dfn; prj; repeat split; assumption|].
  cbn [b2n] in *. destruct (eevs =? 0) eqn:E; clean; [|lia]. destruct queued; clean; try discriminate. subst. fin.
Qed.

Lemma locked_cs s : locked s = false <-> cs s SFlush = 0.
Proof.
  unfold locked, cs. induction (snds s) as [|x l IH]; cbn; [tauto|].
  destruct x; cbn; try exact IH. split; discriminate.
Qed.
Lemma wflush_cw s : existsb is_wflush (wfs s) = false <-> cw s WFlush = 0.
Proof.
  unfold cw. induction (wfs s) as [|x l IH]; cbn; [tauto|].
  destruct x; cbn; try exact IH. split; discriminate.
Qed.

Lemma inv_check s s' : inv s -> check s = Some s' -> inv s'.
Proof.
  intros I H. unfold check in H. destruct (idle s) eqn:E; [|injection H as <-; exact I].
  destruct (locked s) eqn:L; [discriminate|]. injection H as <-.
  apply locked_cs in L. unfold idle in E. rewrite !andb_true_iff in E. destruct E as ((((E1 & E2) & E3) & E4) & E5).
  destruct I. destruct s; prj. dfn; prj. clean. subst. clean. fin.
Qed.
Lemma check_en s : en s = true -> check s = Some s.
Proof. intro H. unfold check, idle. rewrite H. reflexivity. Qed.

Ltac opn := match goal with I : inv ?s |- _ => destruct I; destruct s end; prj; dfn; prj; subst; comp.

Lemma inv_resetr s l s' : inv s -> tasks s = KResetR :: l -> check (set_revs 0 (set_tasks l s)) = Some s' -> inv s'.
Proof.
  intros I H C. eapply inv_check; [|exact C]. clear C. opn. destruct en; clean; fin.
Qed.
Lemma inv_resetw s l s' : inv s -> tasks s = KResetW :: l -> check (set_wevs 0 (set_tasks l s)) = Some s' -> inv s'.
Proof.
  intros I H C. eapply inv_check; [|exact C]. clear C. opn. destruct en; clean; fin.
Qed.
Lemma inv_suppr s l s' : inv s -> tasks s = KSuppR :: l -> run_task KSuppR (set_tasks l s) = Some s' -> inv s'.
Proof.
  intros I H C. unfold run_task in C. destruct (en s) eqn:E.
  - rewrite check_en in C by (prj; exact E). injection C as <-. prj. rewrite E.
    opn. destruct queued; clean; try discriminate.
    assert (R : 1 <= rcnt) by lia. destruct rcnt as [|r]; [lia|]. destruct rset; [|lia].
    unfold assert, handle_read. prj. destruct r; prj; cbn [Nat.eqb]; prj; fin.
  - destruct (check (set_revs 0 (set_tasks l s))) as [s1|] eqn:K; [|discriminate].
    assert (I1 : inv s1). { eapply inv_check; [|exact K]. clear K C. opn. clean. fin. }
    assert (E1 : en s1 = false).
    { unfold check in K. destruct (idle _); [destruct (locked _); [discriminate|]|]; injection K as <-; exact E. }
    rewrite E1 in C. injection C as <-. exact I1.
Qed.
Lemma inv_suppw s l s' : inv s -> tasks s = KSuppW :: l -> run_task KSuppW (set_tasks l s) = Some s' -> inv s'.
Proof.
  intros I H C. unfold run_task in C. destruct (en s) eqn:E.
  - rewrite check_en in C by (prj; exact E). injection C as <-. prj. rewrite E.
    opn. destruct queued; clean; try discriminate.
    assert (R : 1 <= wcnt) by lia. destruct wcnt as [|r]; [lia|]. destruct wset; [|lia].
    assert (W : (r <=? 1) = true).
    { apply Nat.leb_le. destruct done; clean; [|destruct str, needr]; lia. }
    cbn [andb]. rewrite W. unfold assert, handle_write. prj. destruct r; prj; cbn [Nat.eqb]; prj; fin.
  - destruct (check (set_wevs 0 (set_tasks l s))) as [s1|] eqn:K; [|discriminate].
    assert (I1 : inv s1). { eapply inv_check; [|exact K]. clear K C. opn. clean. fin. }
    assert (E1 : en s1 = false).
    { unfold check in K. destruct (idle _); [destruct (locked _); [discriminate|]|]; injection K as <-; exact E. }
    rewrite E1 in C. injection C as <-. exact I1.
Qed.
Lemma inv_restr s l s' : inv s -> tasks s = KRestR :: l -> run_task KRestR (set_tasks l s) = Some s' -> inv s'.
Proof.
  intros I H C. unfold run_task in C. injection C as <-. prj. destruct (en s) eqn:E; [|opn; clean; fin].
  opn. destruct queued; clean; try discriminate.
  destruct rcnt as [|r]; cbn [Nat.eqb]; destruct rset; try lia; prj; cbn [negb assert]; prj; fin.
Qed.
Lemma inv_restw s l s' : inv s -> tasks s = KRestW :: l -> run_task KRestW (set_tasks l s) = Some s' -> inv s'.
Proof.
  intros I H C. unfold run_task in C. injection C as <-. prj. destruct (en s) eqn:E; [|opn; clean; fin].
  opn. destruct queued; clean; try discriminate.
  assert (W : (wcnt <=? 1) = true).
  { apply Nat.leb_le. destruct done; clean; [|destruct str, needr]; lia. }
  rewrite W. cbn [assert]. prj.
  destruct wcnt as [|r]; cbn [Nat.eqb]; destruct wset; try lia; prj; cbn [negb assert]; prj; fin.
Qed.
Lemma inv_kkill s l s' : inv s -> tasks s = KKill :: l -> run_task KKill (set_tasks l s) = Some s' -> inv s'.
Proof.
  intros I H C. unfold run_task in C. eapply inv_check; [|exact C]. clear C. prj.
  destruct (en s) eqn:E; [|exfalso; opn; clean; destruct killed; cbn [andb b2n] in *; lia].
  cbn [assert]. opn. destruct killed; cbn [andb b2n] in *; [|lia]. clean. destruct queued; clean; try discriminate. fin.
Qed.
Lemma inv_task s t l s' : inv s -> tasks s = t :: l -> run_task t (set_tasks l s) = Some s' -> inv s'.
Proof.
  intros I H C. destruct t.
  - eapply inv_resetr; eassumption.
  - eapply inv_resetw; eassumption.
  - eapply inv_suppr; eassumption.
  - eapply inv_suppw; eassumption.
  - eapply inv_restr; eassumption.
  - eapply inv_restw; eassumption.
  - eapply inv_kkill; eassumption.
Qed.
