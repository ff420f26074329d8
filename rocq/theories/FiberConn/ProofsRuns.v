From Coq Require Import List Bool Arith Lia.
From Verif.FiberConn Require Import Model Spec Inv.
Import ListNotations.

Lemma works_step e s s' : works e s s' -> step e s s'.
Proof.
  intro H. destruct H;
    [eapply T_task|eapply T_read|eapply T_write|eapply T_err|eapply T_send|eapply T_start|apply T_ksub|apply T_clean]; eassumption.
Qed.

(** ** Somebody can always go on *)
Lemma split_returned (l : list sst) : Forall returned l \/ exists a x b, l = a ++ x :: b /\ ~ returned x.
Proof.
  induction l as [|x l IH]; [left; constructor|].
  assert (D : returned x \/ ~ returned x).
  { unfold returned. destruct x; try (left; tauto); right; intros [H|[H|H]]; discriminate. }
  destruct D as [D|D]; [|right; exists [], x, l; auto].
  destruct IH as [IH|(a & z & b & E & N)]; [left; constructor; assumption|].
  right. exists (x :: a), z, b. rewrite E. auto.
Qed.
Lemma unlocked_check s : locked s = false -> exists s', check s = Some s'.
Proof. intro L. unfold check. destruct (idle s); [rewrite L|]; eexists; reflexivity. Qed.

Lemma progress e s : quiet s \/ exists s', works e s s'.
Proof.
  destruct (locked s) eqn:L.
  { right. unfold locked in L. apply existsb_exists in L. destruct L as (x & I & X). destruct x; try discriminate.
    apply in_split in I. destruct I as (a & b & E). eexists. eapply (works_send e s FAll false a SFlush b); [exact E|]. reflexivity. }
  destruct (split_returned (snds s)) as [S|(a & x & b & E & N)].
  2:{ right. destruct (sstep FAll false x s) as [[y s']|] eqn:C.
      - eexists. eapply (works_send e s FAll false a x b); [exact E|exact C].
      - exfalso. destruct x; cbn [sstep leaves] in C; rewrite ?L in C; try discriminate; apply N; unfold returned; tauto. }
  destruct (tasks s) as [|t l] eqn:T.
  2:{ right. destruct t.
      - destruct (unlocked_check (set_revs 0 (set_tasks l s)) L) as (s' & H). eexists. eapply works_task; [exact T|exact H].
      - destruct (unlocked_check (set_wevs 0 (set_tasks l s)) L) as (s' & H). eexists. eapply works_task; [exact T|exact H].
      - destruct (unlocked_check (set_revs 0 (set_tasks l s)) L) as (s' & H). eexists. eapply works_task; [exact T|]. cbn [run_task]. rewrite H. reflexivity.
      - destruct (unlocked_check (set_wevs 0 (set_tasks l s)) L) as (s' & H). eexists. eapply works_task; [exact T|]. cbn [run_task]. rewrite H. reflexivity.
      - eexists. eapply works_task; [exact T|reflexivity].
      - eexists. eapply works_task; [exact T|reflexivity].
      - assert (L' : locked (set_en false (set_rset false (set_wset false (assert (en (set_tasks l s)) (set_tasks l s))))) = false).
        { unfold assert, abort. destruct (en (set_tasks l s)); exact L. }
        destruct (unlocked_check _ L') as (s' & H). eexists. eapply works_task; [exact T|exact H]. }
  destruct (unlocked_check s L) as (sc & K).
  destruct (rfs s) as [|x l] eqn:R.
  2:{ right. destruct (rstep HFail false x s) as [[y s']|] eqn:C.
      - eexists. eapply (works_read e s HFail false [] x l); [exact R|exact C].
      - exfalso. destruct x; cbn [rstep] in C; try discriminate.
        + unfold handshake in C. destruct (done s); discriminate.
        + rewrite K in C. discriminate. }
  destruct (wfs s) as [|x l] eqn:W.
  2:{ right. destruct (wstep HFail FAll x s) as [[y s']|] eqn:C.
      - eexists. eapply (works_write e s HFail FAll [] x l); [exact W|exact C|discriminate].
      - exfalso. destruct x; cbn [wstep leaves] in C; try discriminate.
        + unfold handshake in C. destruct (done s); discriminate.
        + rewrite K in C. discriminate. }
  destruct (efs s) as [|x l] eqn:F.
  2:{ right. destruct (estep x s) as [[y s']|] eqn:C.
      - eexists. eapply (works_err e s [] x l); [exact F|exact C].
      - exfalso. destruct x; cbn [estep] in C; try discriminate. rewrite K in C. discriminate. }
  destruct (ksub s) eqn:KS; [right; eexists; apply works_ksub; exact KS|].
  destruct (str s) eqn:ST.
  1-3: right; destruct (ststep HFail s) as [s'|] eqn:C; [eexists; eapply works_start; exact C|];
       exfalso; unfold ststep in C; rewrite ST in C; try discriminate; unfold handshake in C; destruct (done s); discriminate.
  all: destruct (queued s) eqn:Q; [destruct (cleaned s) eqn:CL; [right; eexists; apply works_clean; assumption|]|];
       left; unfold quiet; rewrite T, R, W, F, ST, KS, Q, ?CL; repeat split; auto; discriminate.
Qed.

(** ** A queue that nobody will ever look at *)
Definition harmless (x : sst) : Prop := x = SNew \/ x = SApp \/ returned x.
Definition stuck (s : cn) : Prop :=
  done s = true /\ 1 <= qn s /\ wset s = false /\ wfs s = [] /\ ~ In KRestW (tasks s) /\ ~ In KSuppW (tasks s) /\
  Forall harmless (snds s) /\ ~ In RNeedW (rfs s) /\ str s = StEnd.

Lemma check_same s s' : check s = Some s' -> s' = s \/ s' = set_queued true s.
Proof. unfold check. destruct (idle s); [destruct (locked s); [discriminate|]|]; intro H; injection H as <-; auto. Qed.
Lemma stuck_same s s' : stuck s -> done s' = done s -> qn s' = qn s -> (wset s = false -> wset s' = false) -> wfs s' = wfs s ->
  (In KRestW (tasks s') -> In KRestW (tasks s)) -> (In KSuppW (tasks s') -> In KSuppW (tasks s)) -> snds s' = snds s ->
  (In RNeedW (rfs s') -> In RNeedW (rfs s)) -> str s' = str s -> stuck s'.
Proof.
  unfold stuck. intros (A1&A2&A3&A4&A5&A6&A7&A8&A9) -> -> B3 -> B5 B6 -> B8 ->. repeat split; auto.
Qed.
Ltac same := eapply stuck_same; [eassumption|..]; prj; auto.
Lemma stuck_check s s' : stuck s -> check s = Some s' -> stuck s'.
Proof. intros D H. apply check_same in H. destruct H as [-> | ->]; [exact D|same]. Qed.
Lemma stuck_kill s : stuck s -> stuck (kill s).
Proof. intro D. unfold kill. destruct (killed s); [exact D|same]. Qed.
Lemma stuck_assert b s : stuck s -> stuck (assert b s).
Proof. intro D. destruct b; [exact D|unfold assert, abort; same]. Qed.
Lemma stuck_handle_read s : stuck s -> stuck (handle_read s).
Proof.
  intro D. unfold handle_read. destruct (revs s =? 0); same. rewrite in_app_iff. intros [H|[H|[]]]; [exact H|discriminate].
Qed.
Lemma stuck_sub t s : stuck s -> t <> KRestW -> t <> KSuppW -> stuck (sub t s).
Proof.
  intros D N1 N2. unfold sub. same; rewrite in_app_iff; intros [H|[H|[]]]; auto; congruence.
Qed.
Lemma stuck_rfs s l1 x y l2 : stuck s -> rfs s = l1 ++ x :: l2 -> ~ In RNeedW y -> stuck (set_rfs (l1 ++ y ++ l2) s).
Proof.
  intros D H N. same. rewrite H, !in_app_iff. cbn. tauto.
Qed.

Lemma stuck_step e s s' : stuck s -> step e s s' -> stuck s'.
Proof.
  intros D H. pose proof D as (A1&A2&A3&A4&A5&A6&A7&A8&A9). destruct H.
  - assert (D' : stuck (set_tasks l s)).
    { same; rewrite H; cbn; tauto. }
    rewrite H in A5, A6. cbn in A5, A6.
    destruct t; cbn [run_task] in H0; try (exfalso; tauto).
    + eapply stuck_check; [|exact H0]. clear D. same.
    + eapply stuck_check; [|exact H0]. clear D. same.
    + destruct (check (set_revs 0 (set_tasks l s))) as [s1|] eqn:K; [|discriminate]. injection H0 as <-.
      assert (D1 : stuck s1). { eapply stuck_check; [|exact K]. clear D. same. }
      destruct (en s1); [|exact D1]. clear D D'. destruct (rcnt s1) as [|[|r]].
      * unfold abort. same.
      * assert (stuck (assert (rset s1) (set_rcnt 0 s1))) by (apply stuck_assert; same). clear D1. same.
      * apply stuck_handle_read, stuck_assert. same.
    + injection H0 as <-. prj. destruct (en s); [|exact D']. clear D.
      destruct (rcnt s =? 0); [|same].
      assert (D : stuck (assert (negb (rset s)) (set_rcnt (S (rcnt s)) (set_tasks l s)))) by (apply stuck_assert; same).
      clear D'. generalize dependent (assert (negb (rset s)) (set_rcnt (S (rcnt s)) (set_tasks l s))). intros z D. clear - D. same.
    + eapply stuck_check; [|exact H0]. prj. clear D. apply (stuck_assert (en s)) in D'.
      generalize dependent (assert (en s) (set_tasks l s)). intros z _ D'. clear - D'. same.
  - apply stuck_handle_read. exact D.
  - congruence.
  - unfold handle_close. destruct (negb (en s)); [exact D|]. destruct (eseen s); [exact D|]. destruct (eevs s =? 0); unfold abort; same.
  - destruct x; unfold rstep in H0.
    + destruct (negb (en s)); [|rewrite A1 in H0]; injection H0 as <- <-; (eapply stuck_rfs; [exact D|exact H|]); intros [X|[]]; discriminate.
    + unfold handshake in H0. rewrite A1 in H0. injection H0 as <- <-. eapply stuck_rfs; [exact D|exact H|]. intros [X|[]]; discriminate.
    + destruct bad; injection H0 as <- <-; (eapply stuck_rfs; [try apply stuck_kill; exact D| |intros [X|[]]; discriminate]).
      * unfold kill. destruct (killed s); exact H.
      * exact H.
    + exfalso. apply A8. rewrite H, in_app_iff. cbn. auto.
    + injection H0 as <- <-. eapply stuck_rfs; [apply stuck_sub; [exact D|discriminate..]|exact H|intros [X|[]]; discriminate].
    + injection H0 as <- <-. eapply stuck_rfs; [apply stuck_sub; [apply stuck_assert; exact D|discriminate..]| |intros [X|[]]; discriminate].
      unfold assert, abort. destruct (killed s); exact H.
    + injection H0 as <- <-. eapply stuck_rfs; [|exact H|destruct (revs s =? 1); intros [X|[]]; discriminate]. same.
    + destruct (check s) as [s1|] eqn:K; [|discriminate]. injection H0 as <- <-.
      eapply stuck_rfs; [eapply stuck_check; [exact D|exact K]| |intros []].
      apply check_same in K. destruct K as [-> | ->]; exact H.
  - rewrite A4 in H. destruct l1; discriminate.
  - assert (X : stuck s').
    { destruct x; unfold estep in H0.
      - injection H0 as <- <-. apply stuck_kill. exact D.
      - injection H0 as <- <-. apply (stuck_assert (eevs s =? 1)) in D. generalize dependent (assert (eevs s =? 1) s). intros z D. clear - D. same.
      - destruct (check s) as [s1|] eqn:K; [|discriminate]. injection H0 as <- <-. eapply stuck_check; eassumption. }
    clear - X. same.
  - rewrite H in A7. apply Forall_app in A7. destruct A7 as (B1 & B2). apply Forall_cons_iff in B2. destruct B2 as (B2 & B3).
    destruct B2 as [-> | [-> | B2]]; unfold sstep in H0.
    + injection H0 as <- <-. unfold stuck. prj. repeat split; auto. apply Forall_app. split; [exact B1|].
      constructor; [|exact B3]. unfold harmless, returned. destruct (en s); auto.
    + destruct late; injection H0 as <- <-; unfold stuck; prj; repeat split; auto; try (apply Forall_app; split; [exact B1|]; constructor; [|exact B3]).
      * unfold harmless, returned. auto.
      * destruct (Nat.eqb_spec (qn s) 0) as [Q|Q]; [lia|]. unfold harmless, returned. auto.
    + destruct B2 as [-> | [-> | ->]]; discriminate.
  - unfold ststep in H. rewrite A9 in H. discriminate.
  - apply stuck_sub; [|discriminate..]. same.
  - unfold clean. match goal with |- context [assert ?b s] => apply (stuck_assert b) in D; generalize dependent (assert b s) end.
    intros z D. clear - D. same.
  - unfold stuck. prj. repeat split; auto. apply Forall_app. split; [exact A7|]. constructor; [|constructor]. unfold harmless. auto.
  - apply stuck_kill. exact D.
Qed.
Lemma stuck_later e s s' : stuck s -> later e s s' -> stuck s'.
Proof. intros D L. induction L; [exact D|eapply stuck_step; eassumption]. Qed.
Lemma stuck_forever e s s' : stuck s -> later e s s' -> 1 <= qn s' /\ wfs s' = [] /\ ~ In SFlush (snds s').
Proof.
  intros D L. destruct (stuck_later _ _ _ D L) as (A1&A2&A3&A4&A5&A6&A7&A8&A9). repeat split; auto.
  intro X. rewrite Forall_forall in A7. apply A7 in X. destruct X as [X|[X|[X|[X|X]]]]; discriminate.
Qed.

(** ** Runs *)
Inductive act := ATask | ARev | AWev | ACev | ARead (i : nat) (h : hs) (bad : bool) | AWrite (i : nat) (h : hs) (f : fl)
  | AErr (i : nat) | ASend (i : nat) (f : fl) (late : bool) | AStart (h : hs) | AKsub | AClean | ACall | AStop.

Definition pick {A} (i : nat) (l : list A) : option (list A * A * list A) :=
  match skipn i l with x :: r => Some (firstn i l, x, r) | [] => None end.
Lemma pick_ok {A} i (l a b : list A) x : pick i l = Some (a, x, b) -> l = a ++ x :: b.
Proof.
  unfold pick. destruct (skipn i l) as [|y r] eqn:E; [discriminate|]. intro H. injection H as <- <- <-.
  rewrite <- E. symmetry. apply firstn_skipn.
Qed.
Definition act1 (e : env) (a : act) (s : cn) : option cn :=
  match a with
  | ATask => match tasks s with t :: l => run_task t (set_tasks l s) | [] => None end
  | ARev => if rset s then Some (handle_read s) else None
  | AWev => if wset s then Some (handle_write s) else None
  | ACev => Some (handle_close s)
  | ARead i h bad => match pick i (rfs s) with
                     | Some (a, x, b) => match rstep h bad x s with Some (y, s') => Some (set_rfs (a ++ y ++ b) s') | None => None end
                     | None => None end
  | AWrite i h f => match pick i (wfs s) with
                    | Some (a, x, b) =>
                        if (match h, x with HSucc, WHs => late_ok e || done s | _, _ => true end)
                        then match wstep h f x s with Some (y, s') => Some (set_wfs (a ++ y ++ b) s') | None => None end else None
                    | None => None end
  | AErr i => match pick i (efs s) with
              | Some (a, x, b) => match estep x s with Some (y, s') => Some (set_efs (a ++ y ++ b) s') | None => None end
              | None => None end
  | ASend i f late => match pick i (snds s) with
                      | Some (a, x, b) => match sstep f late x s with Some (y, s') => Some (set_snds (a ++ y :: b) s') | None => None end
                      | None => None end
  | AStart h => ststep h s
  | AKsub => if ksub s then Some (sub KKill (set_ksub false s)) else None
  | AClean => if queued s && (cleaned s =? 0) then Some (clean s) else None
  | ACall => if early_ok e || match str s with StFail | StEnd => true | _ => false end
             then Some (set_snds (snds s ++ [SNew]) s) else None
  | AStop => Some (kill s)
  end.
Fixpoint run (e : env) (l : list act) (s : cn) : option cn :=
  match l with [] => Some s | a :: r => match act1 e a s with Some s1 => run e r s1 | None => None end end.

Lemma act1_step e a s s' : act1 e a s = Some s' -> step e s s'.
Proof.
  destruct a; cbn [act1].
  - destruct (tasks s) as [|t l] eqn:T; [discriminate|]. intro H. eapply T_task; eassumption.
  - destruct (rset s) eqn:E; [|discriminate]. intro H. injection H as <-. apply T_rev. exact E.
  - destruct (wset s) eqn:E; [|discriminate]. intro H. injection H as <-. apply T_wev. exact E.
  - intro H. injection H as <-. apply T_cev.
  - destruct (pick i (rfs s)) as [[[a x] b]|] eqn:P; [|discriminate]. apply pick_ok in P.
    destruct (rstep h bad x s) as [[y z]|] eqn:R; [|discriminate]. intro H. injection H as <-. eapply T_read; eassumption.
  - destruct (pick i (wfs s)) as [[[a x] b]|] eqn:P; [|discriminate]. apply pick_ok in P.
    match goal with |- (if ?c then _ else _) = _ -> _ => destruct c eqn:G; [|discriminate] end.
    destruct (wstep h f x s) as [[y z]|] eqn:R; [|discriminate]. intro H. injection H as <-. eapply T_write; try eassumption.
    intros -> ->. apply orb_true_iff in G. exact G.
  - destruct (pick i (efs s)) as [[[a x] b]|] eqn:P; [|discriminate]. apply pick_ok in P.
    destruct (estep x s) as [[y z]|] eqn:R; [|discriminate]. intro H. injection H as <-. eapply T_err; eassumption.
  - destruct (pick i (snds s)) as [[[a x] b]|] eqn:P; [|discriminate]. apply pick_ok in P.
    destruct (sstep f late x s) as [[y z]|] eqn:R; [|discriminate]. intro H. injection H as <-. eapply T_send; eassumption.
  - apply T_start.
  - destruct (ksub s) eqn:E; [|discriminate]. intro H. injection H as <-. apply T_ksub. exact E.
  - destruct (queued s) eqn:E; [|discriminate]. destruct (Nat.eqb_spec (cleaned s) 0) as [C|]; [|discriminate].
    intro H. injection H as <-. apply T_clean; assumption.
  - destruct (early_ok e) eqn:E; cbn.
    + intro H. injection H as <-. apply T_call. auto.
    + destruct (str s) eqn:S; try discriminate; intro H; injection H as <-; apply T_call; auto.
  - intro H. injection H as <-. apply T_stop.
Qed.
Lemma run_reach e l s s' : reach e s -> run e l s = Some s' -> reach e s'.
Proof.
  revert s. induction l as [|a l IH]; cbn; intros s R H; [injection H as <-; exact R|].
  destruct (act1 e a s) as [s1|] eqn:A; [|discriminate]. eapply IH; [|exact H]. eapply reach_step; [exact R|]. eapply act1_step. exact A.
Qed.
