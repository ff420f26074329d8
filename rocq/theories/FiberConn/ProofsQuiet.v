From Coq Require Import List Bool Arith Lia.
From Verif.Lib Require Import Count.
From Verif.FiberConn Require Import Model Spec Inv Tactics ProofsReactor ProofsRead ProofsWrite ProofsInv Proofs.
Import ListNotations.

Lemma in_swap {A} (l1 : list A) x l2 y z : In z (l1 ++ x :: l2) -> z <> x -> In z (l1 ++ y ++ l2).
Proof. rewrite !in_app_iff. cbn. intros [H|[H|H]] N; [auto|congruence|auto]. Qed.

(** What a state looks like to [due], fibers of one kind being replaced. *)
Lemma due_r s s' l1 x y l2 : due s -> rfs s = l1 ++ x :: l2 -> x <> REnd ->
  en s' = en s -> queued s' = queued s -> revs s' = revs s -> wevs s' = wevs s -> eevs s' = eevs s ->
  wfs s' = wfs s -> efs s' = efs s -> due (set_rfs (l1 ++ y ++ l2) s').
Proof.
  unfold due. prj. intros D H N -> -> -> -> -> -> ->. destruct D as [D|[D|[D|[D|[D|D]]]]]; auto 7.
  right. right. right. left. rewrite H in D. eapply in_swap; [exact D|congruence].
Qed.
Lemma due_w s s' l1 x y l2 : due s -> wfs s = l1 ++ x :: l2 -> x <> WEnd ->
  en s' = en s -> queued s' = queued s -> revs s' = revs s -> wevs s' = wevs s -> eevs s' = eevs s ->
  rfs s' = rfs s -> efs s' = efs s -> due (set_wfs (l1 ++ y ++ l2) s').
Proof.
  unfold due. prj. intros D H N -> -> -> -> -> -> ->. destruct D as [D|[D|[D|[D|[D|D]]]]]; auto 7.
  right. right. right. right. left. rewrite H in D. eapply in_swap; [exact D|congruence].
Qed.
Lemma due_same s s' : due s -> en s' = en s -> queued s' = queued s -> revs s' = revs s -> wevs s' = wevs s -> eevs s' = eevs s ->
  rfs s' = rfs s -> wfs s' = wfs s -> efs s' = efs s -> due s'.
Proof. unfold due. intros D -> -> -> -> -> -> -> ->. exact D. Qed.

(** A function that touches nothing [due] looks at. *)
Definition neutral (s s' : cn) : Prop :=
  en s' = en s /\ queued s' = queued s /\ revs s' = revs s /\ wevs s' = wevs s /\ eevs s' = eevs s /\
  rfs s' = rfs s /\ wfs s' = wfs s /\ efs s' = efs s.
Lemma neutral_kill s : neutral s (kill s).
Proof. unfold neutral, kill. destruct (killed s); repeat split. Qed.
Lemma neutral_assert b s : neutral s (assert b s).
Proof. unfold neutral, assert, abort. destruct b; repeat split. Qed.
Lemma neutral_trans a b c : neutral a b -> neutral b c -> neutral a c.
Proof. unfold neutral. intros (A1&A2&A3&A4&A5&A6&A7&A8) (B1&B2&B3&B4&B5&B6&B7&B8). repeat split; congruence. Qed.
Lemma neutral_sub t s : neutral s (sub t s).
Proof. unfold neutral. repeat split. Qed.
Lemma neutral_handshake f h s : neutral s (fst (handshake f h s)).
Proof.
  unfold handshake. destruct (done s); [unfold neutral; repeat split|]. destruct h; try (unfold neutral; repeat split; fail).
  cbn [fst]. destruct (needr s), (pendw s && f); unfold neutral, sub, assert, abort; prj; destruct (negb f); repeat split.
Qed.
Lemma neutral_enter s : neutral s (enter s).
Proof. apply neutral_assert. Qed.
Lemma due_neutral s s' : due s -> neutral s s' -> due s'.
Proof. intros D (A1&A2&A3&A4&A5&A6&A7&A8). eapply due_same; eassumption. Qed.
Lemma due_rn s s' l1 x y l2 : due s -> rfs s = l1 ++ x :: l2 -> x <> REnd -> neutral s s' -> due (set_rfs (l1 ++ y ++ l2) s').
Proof. intros D H N (A1&A2&A3&A4&A5&A6&A7&A8). eapply due_r; eassumption. Qed.
Lemma due_wn s s' l1 x y l2 : due s -> wfs s = l1 ++ x :: l2 -> x <> WEnd -> neutral s s' -> due (set_wfs (l1 ++ y ++ l2) s').
Proof. intros D H N (A1&A2&A3&A4&A5&A6&A7&A8). eapply due_w; eassumption. Qed.
Lemma due_en s : en s = true -> due s.
Proof. intro H. left. exact H. Qed.

Lemma en_handle_read s : en (handle_read s) = en s.
Proof. unfold handle_read. destruct (revs s =? 0); reflexivity. Qed.
Lemma en_handle_write s : en (handle_write s) = en s.
Proof. unfold handle_write. destruct (wevs s =? 0); reflexivity. Qed.
Lemma en_assert b s : en (assert b s) = en s.
Proof. destruct b; reflexivity. Qed.

Lemma due_task t s s' : due s -> run_task t s = Some s' -> due s'.
Proof.
  intros D H. destruct t; cbn [run_task] in H; try (eapply check_due'; exact H).
  - destruct (check (set_revs 0 s)) as [s1|] eqn:K; [|discriminate]. injection H as <-.
    destruct (en s1) eqn:E; [|eapply check_due'; exact K]. apply due_en.
    destruct (rcnt s1) as [|[|r]]; [exact E|..]; prj; rewrite ?en_handle_read, ?en_assert; exact E.
  - destruct (check (set_wevs 0 s)) as [s1|] eqn:K; [|discriminate]. injection H as <-.
    destruct (en s1) eqn:E; [|eapply check_due'; exact K]. apply due_en.
    destruct (wcnt s1) as [|[|r]]; [exact E|..]; prj; rewrite ?en_handle_write, ?en_assert; exact E.
  - injection H as <-. destruct (en s) eqn:E; [|exact D]. apply due_en. destruct (rcnt s =? 0); prj; rewrite ?en_assert; exact E.
  - injection H as <-. destruct (en s) eqn:E; [|exact D]. apply due_en. destruct (wcnt s =? 0); prj; rewrite ?en_assert; prj; rewrite ?en_assert; exact E.
Qed.
Lemma due_read h bad s l1 x l2 y s' : due s -> rfs s = l1 ++ x :: l2 -> rstep h bad x s = Some (y, s') -> due (set_rfs (l1 ++ y ++ l2) s').
Proof.
  intros D H C. destruct x; unfold rstep in C.
  - assert (neutral s s') by (destruct (negb (en s)); [|destruct (done s)]; injection C as <- <-; unfold neutral; repeat split).
    eapply due_rn; [exact D|exact H|discriminate|assumption].
  - pose proof (neutral_handshake true h s) as N. destruct (handshake true h s) as (s1, r). cbn [fst] in N.
    assert (neutral s s') by (destruct r; injection C as <- <-; try exact N; eapply neutral_trans; [exact N|apply neutral_kill]).
    eapply due_rn; [exact D|exact H|discriminate|assumption].
  - assert (neutral s s') by (destruct bad; injection C as <- <-; [apply neutral_kill|unfold neutral; repeat split]).
    eapply due_rn; [exact D|exact H|discriminate|assumption].
  - injection C as <- <-. eapply due_rn; [exact D|exact H|discriminate|apply neutral_sub].
  - injection C as <- <-. eapply due_rn; [exact D|exact H|discriminate|apply neutral_sub].
  - injection C as <- <-. eapply due_rn; [exact D|exact H|discriminate|]. eapply neutral_trans; [apply neutral_assert|apply neutral_sub].
  - injection C as <- <-. unfold due in *. prj. destruct (Nat.eqb_spec (revs s) 1) as [E|E].
    + right. right. right. left. apply in_or_app. right. left. reflexivity.
    + destruct D as [D|[D|[D|[D|[D|D]]]]]; auto 7.
      * right. right. left. destruct (revs s) as [|[|n]]; cbn in *; lia.
      * right. right. right. left. rewrite H in D. eapply in_swap; [exact D|discriminate].
  - destruct (check s) as [s1|] eqn:K; [|discriminate]. injection C as <- <-. apply check_due in K. unfold due. prj. tauto.
Qed.
Lemma due_write h f s l1 x l2 y s' : due s -> wfs s = l1 ++ x :: l2 -> wstep h f x s = Some (y, s') -> due (set_wfs (l1 ++ y ++ l2) s').
Proof.
  intros D H C. destruct x; unfold wstep in C.
  - assert (neutral s s') by (destruct (negb (en s)); [|destruct (done s)]; injection C as <- <-; try apply neutral_enter; unfold neutral; repeat split).
    eapply due_wn; [exact D|exact H|discriminate|assumption].
  - pose proof (neutral_handshake false h s) as N. destruct (handshake false h s) as (s1, r). cbn [fst] in N.
    assert (neutral s s') by (destruct r; injection C as <- <-; try exact N; eapply neutral_trans; try exact N; [apply neutral_enter|apply neutral_kill]).
    eapply due_wn; [exact D|exact H|discriminate|assumption].
  - destruct (leaves f (qn s)); [|discriminate].
    assert (neutral s s').
    { destruct f; injection C as <- <-; try (unfold neutral; repeat split; fail). eapply neutral_trans; [|apply neutral_kill]. unfold neutral; repeat split. }
    eapply due_wn; [exact D|exact H|discriminate|assumption].
  - injection C as <- <-. eapply due_wn; [exact D|exact H|discriminate|apply neutral_sub].
  - injection C as <- <-. eapply due_wn; [exact D|exact H|discriminate|apply neutral_sub].
  - injection C as <- <-. eapply due_wn; [exact D|exact H|discriminate|]. eapply neutral_trans; [apply neutral_assert|apply neutral_sub].
  - injection C as <- <-. unfold due in *. prj. destruct (Nat.eqb_spec (wevs s) 1) as [E|E].
    + right. right. right. right. left. apply in_or_app. right. left. reflexivity.
    + destruct D as [D|[D|[D|[D|[D|D]]]]]; auto 7.
      * right. right. left. destruct (wevs s) as [|[|n]]; cbn in *; lia.
      * right. right. right. right. left. rewrite H in D. eapply in_swap; [exact D|discriminate].
  - destruct (check s) as [s1|] eqn:K; [|discriminate]. injection C as <- <-. apply check_due in K. unfold due. prj. tauto.
Qed.
Lemma due_err s l1 x l2 y s' : due s -> efs s = l1 ++ x :: l2 -> estep x s = Some (y, s') -> due (set_efs (l1 ++ y ++ l2) s').
Proof.
  intros D H C. destruct x; unfold estep in C.
  - injection C as <- <-. destruct (neutral_kill s) as (A1&A2&A3&A4&A5&A6&A7&A8).
    unfold due in *. prj. rewrite A1, A2, A3, A4, A5, A6, A7. destruct D as [D|[D|[D|[D|[D|D]]]]]; auto 7.
    right. right. right. right. right. rewrite H in D. eapply in_swap; [exact D|discriminate].
  - injection C as <- <-. unfold due. prj. right. right. right. right. right. apply in_or_app. right. left. reflexivity.
  - destruct (check s) as [s1|] eqn:K; [|discriminate]. injection C as <- <-. apply check_due in K. unfold due. prj. tauto.
Qed.
Lemma due_send f late s l1 x l2 y s' : due s -> snds s = l1 ++ x :: l2 -> sstep f late x s = Some (y, s') -> due (set_snds (l1 ++ y :: l2) s').
Proof.
  intros D H C.
  assert (N : neutral s s').
  { destruct x; unfold sstep in C; try discriminate.
    - injection C as <- <-. unfold neutral; repeat split.
    - destruct late; injection C as <- <-; unfold neutral; repeat split.
    - injection C as <- <-. unfold neutral; repeat split.
    - destruct (done s); injection C as <- <-; unfold neutral; prj; [repeat split|]. apply neutral_assert.
    - destruct (locked s); [discriminate|]. destruct (queued s) eqn:Q; injection C as <- <-; [unfold neutral; rewrite Q; repeat split|apply neutral_enter].
    - destruct (leaves f (qn s)); [|discriminate]. destruct f; injection C as <- <-; try (unfold neutral; repeat split; fail).
      eapply neutral_trans; [|apply neutral_kill]. unfold neutral; repeat split.
    - injection C as <- <-. apply neutral_sub. }
  eapply due_neutral; [exact D|]. eapply neutral_trans; [exact N|]. unfold neutral; repeat split.
Qed.
Lemma due_start h s s' : due s -> ststep h s = Some s' -> due s'.
Proof.
  intros D C. eapply due_neutral; [exact D|]. unfold ststep in C. destruct (str s); try discriminate.
  - pose proof (neutral_handshake false h s) as N. destruct (handshake false h s) as (s1, r). cbn [fst] in N.
    destruct r; injection C as <-; try (eapply neutral_trans; [exact N|unfold neutral; repeat split]; fail).
    eapply neutral_trans; [exact N|]. eapply neutral_trans; [apply neutral_kill|]. unfold neutral; repeat split.
  - injection C as <-. unfold neutral; repeat split.
  - injection C as <-. unfold neutral; repeat split.
Qed.
Lemma due_step e s s' : due s -> step e s s' -> due s'.
Proof.
  intros D H. destruct H.
  - eapply due_task; [|exact H0]. eapply due_same; [exact D|..]; reflexivity.
  - unfold due, handle_read. right. right. left. prj. lia.
  - unfold due, handle_write. right. right. left. prj. lia.
  - unfold handle_close. destruct (en s) eqn:E; cbn [negb]; [|exact D]. apply due_en.
    destruct (eseen s); [exact E|]. destruct (eevs s =? 0); exact E.
  - eapply due_read; eassumption.
  - eapply due_write; eassumption.
  - eapply due_err; eassumption.
  - eapply due_send; eassumption.
  - eapply due_start; eassumption.
  - eapply due_same; [exact D|..]; reflexivity.
  - eapply due_neutral; [exact D|]. unfold clean. eapply neutral_trans; [apply neutral_assert|]. unfold neutral; repeat split.
  - eapply due_same; [exact D|..]; reflexivity.
  - eapply due_neutral; [exact D|apply neutral_kill].
Qed.
Lemma due_reach e s : reach e s -> due s.
Proof. intro R. induction R; [left; reflexivity|eapply due_step; eassumption]. Qed.

(** ** Nothing to do *)
Lemma quiet_counts s : quiet s -> (forall x, cr s x = 0) /\ (forall x, cw s x = 0) /\ (forall x, ct s x = 0) /\
  cs s SDone = 0 /\ cs s SLock = 0 /\ cs s SMutex = 0 /\ cs s SFlush = 0 /\ cs s SRest = 0.
Proof.
  intros (T & Rf & Wf & Ef & Sn & _). unfold cr, cw, ct, cs. rewrite T, Rf, Wf. repeat split.
  all: induction Sn as [|x l [-> | [-> | ->]] _ IH]; cbn; auto.
Qed.
Lemma quiet_ends e s : calm e -> reach e s -> quiet s ->
  if killed s then cleaned s = 1
  else en s = true /\ (if done s then rset s = true /\ (qn s = 0 <-> wset s = false)
                       else if needr s then rset s = false /\ wset s = true else rset s = true /\ wset s = false).
Proof.
  intros C R Q. pose proof (calm_inv _ _ C R) as I. pose proof (due_reach _ _ R) as D.
  destruct (quiet_counts s Q) as (Zr & Zw & Zt & Z1 & Z2 & Z3 & Z4 & Z5).
  destruct Q as (Qt & Qr & Qw & Qe & Qs & Qst & Qk & Qc).
  destruct I. destruct (killed s) eqn:K.
  - assert (E : en s = false). { rewrite (Zt KKill), Qk in i_k. destruct (en s); [discriminate|reflexivity]. }
    unfold due in D. rewrite E, Qr, Qw, Qe in D. cbn [In] in D.
    unfold own_r, own_w, own_e, ce in *. rewrite !Zr, !Zt in i_r. rewrite !Zw, !Zt in i_w. rewrite Qe in i_e. cbn in i_e.
    destruct D as [D|[D|[D|[[]|[[]|[]]]]]]; [discriminate| |lia].
    specialize (Qc D). rewrite D in i_c. cbn in i_c. lia.
  - assert (E : en s = true). { destruct (en s); [reflexivity|]. destruct i_off; discriminate. }
    split; [exact E|]. rewrite E in i_on. destruct i_on as (A & B & X & _ & _ & Y).
    assert (ST : st_r s = 0 /\ st_w s = 0) by (unfold st_r, st_w; destruct Qst as [-> | ->]; split; reflexivity). destruct ST as (ST1 & ST2).
    unfold rest_r, rest_w, supp_r, supp_w, sb in *. rewrite !Zr, !Zw, !Zt, ?Z1, ?Z2, ?Z3, ?Z4, ?Z5, ?ST1, ?ST2 in *.
    unfold ph_r in X. destruct (done s).
    + split; [destruct (rset s); [reflexivity|lia]|].
      destruct Y as (Y1 & Y2 & Y3 & Y4). destruct (wset s); split; intro; try discriminate; try reflexivity; try lia.
    + destruct Qst as [S|S]; rewrite S in *; [congruence|]. unfold ph_w in Y. rewrite S in Y.
      destruct (needr s); (split; [destruct (rset s)|destruct (wset s)]); try reflexivity; lia.
Qed.
