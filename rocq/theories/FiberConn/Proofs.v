From Coq Require Import List Bool Arith Lia.
From Verif.Lib Require Import Count.
From Verif.FiberConn Require Import Model Spec Inv Tactics ProofsReactor ProofsRead ProofsWrite ProofsInv.
Import ListNotations.

Lemma calm_inv e s : calm e -> reach e s -> inv s.
Proof. intros (L & E) R. eapply inv_reach; eassumption. Qed.

(** ** Counting and membership *)
Lemma cnt_in {A} (f : A -> bool) l x : f x = true -> In x l -> 1 <= cnt f l.
Proof.
  intros H I. induction l as [|y l IH]; [destruct I|]. destruct I as [->|I]; cbn; [rewrite H; cbn; lia|]. specialize (IH I). lia.
Qed.
Lemma in_cnt {A} (f : A -> bool) l : 1 <= cnt f l -> exists x, In x l /\ f x = true.
Proof.
  induction l as [|y l IH]; cbn; [lia|]. destruct (f y) eqn:E; intro H; [exists y; auto|].
  destruct (IH H) as (x & I & F). exists x. auto.
Qed.
Lemma in_r s x : In x (rfs s) -> 1 <= cr s x.
Proof. intro H. apply (cnt_in _ _ x); [destruct x; reflexivity|exact H]. Qed.
Lemma in_w s x : In x (wfs s) -> 1 <= cw s x.
Proof. intro H. apply (cnt_in _ _ x); [destruct x; reflexivity|exact H]. Qed.
Lemma in_s s x : In x (snds s) -> 1 <= cs s x.
Proof. intro H. apply (cnt_in _ _ x); [destruct x; reflexivity|exact H]. Qed.
Lemma in_t s x : In x (tasks s) -> 1 <= ct s x.
Proof. intro H. apply (cnt_in _ _ x); [destruct x; reflexivity|exact H]. Qed.
Lemma s_in s x : 1 <= cs s x -> In x (snds s).
Proof. intro H. apply in_cnt in H. destruct H as (y & I & F). apply internal_sst_dec_bl in F. subst y. exact I. Qed.
Lemma t_in s x : 1 <= ct s x -> In x (tasks s).
Proof. intro H. apply in_cnt in H. destruct H as (y & I & F). apply internal_task_dec_bl in F. subst y. exact I. Qed.
Lemma r_in s x : 1 <= cr s x -> In x (rfs s).
Proof. intro H. apply in_cnt in H. destruct H as (y & I & F). apply internal_rst_dec_bl in F. subst y. exact I. Qed.

(** ** Safety *)
Lemma no_crash e s : calm e -> reach e s -> crash s = false.
Proof. intros C R. exact (i_crash _ (calm_inv _ _ C R)). Qed.

Lemma own_w1 s : inv s -> own_w s <= 1.
Proof. intros []. lia. Qed.
Lemma own_r1 s : inv s -> own_r s <= 1.
Proof. intros []. lia. Qed.

Lemma flush_excl s : inv s -> cs s SFlush + cw s WFlush <= 1 /\ (1 <= cs s SFlush + cw s WFlush -> 1 <= qn s /\ done s = true).
Proof.
  intros I. pose proof (own_w1 s I) as O. destruct I. destruct (done s); [destruct (en s)|].
  - destruct i_on as (_ & _ & _ & _ & A & B & C & D & _). unfold own_w, sb, supp_w in *. split; [lia|intro; split; [lia|reflexivity]].
  - destruct i_off as (_ & _ & _ & A & B). unfold sb in *. split; [lia|intro; split; [lia|reflexivity]].
  - split; [|intro X]; lia.
Qed.
Lemma one_writer e s : calm e -> reach e s ->
  at_most_one (fun x => x = SFlush) (snds s) /\ at_most_one (fun x => x = WFlush) (wfs s) /\
  ~ (sender_writes s /\ fiber_writes s) /\ (sender_writes s \/ fiber_writes s -> 1 <= qn s /\ done s = true).
Proof.
  intros C R. pose proof (flush_excl s (calm_inv _ _ C R)) as (F & G). split; [|split; [|split]].
  - intros a x b y c E -> ->. unfold cs in F. rewrite E, !cnt_app in F. cbn in F. rewrite cnt_app in F. cbn in F. lia.
  - intros a x b y c E -> ->. unfold cw in F. rewrite E, !cnt_app in F. cbn in F. rewrite cnt_app in F. cbn in F. lia.
  - intros (X & Y). apply in_s in X. apply in_w in Y. lia.
  - intros [X|X]; [apply in_s in X|apply in_w in X]; apply G; lia.
Qed.
Lemma one_fiber e s : calm e -> reach e s -> at_most_one in_read (rfs s) /\ at_most_one in_write (wfs s).
Proof.
  intros C R. pose proof (calm_inv _ _ C R) as I. pose proof (own_r1 s I) as O. pose proof (own_w1 s I) as W. split.
  - intros a x b y c E X Y. unfold own_r, cr in O. rewrite E, !cnt_app in O. cbn [cnt] in O. rewrite !cnt_app in O. cbn [cnt] in O.
    destruct X as [-> | ->], Y as [-> | ->]; cbn in O; lia.
  - intros a x b y c E X Y. unfold own_w, cw in W. rewrite E, !cnt_app in W. cbn [cnt] in W. rewrite !cnt_app in W. cbn [cnt] in W.
    destruct X as [-> | ->], Y as [-> | ->]; cbn in W; lia.
Qed.
Lemma counts e s : calm e -> reach e s -> en s = true ->
  rcnt s <= 2 /\ wcnt s <= 2 /\ (rset s = true <-> 1 <= rcnt s) /\ (wset s = true <-> 1 <= wcnt s).
Proof.
  intros C R E. pose proof (calm_inv _ _ C R) as I. pose proof (own_w1 s I) as W. pose proof (own_r1 s I) as O.
  destruct I. rewrite E in i_on. destruct i_on as (A & B & D & F & G & H).
  assert (ph_r s <= 1) by (unfold ph_r; destruct (done s), (str s), (needr s); lia).
  assert (ph_w s <= 1) by (unfold ph_w; destruct (str s), (needr s); lia).
  assert (supp_r s <= own_r s) by (unfold supp_r, own_r; lia).
  assert (supp_w s <= own_w s) by (unfold supp_w, own_w; lia).
  split; [lia|]. split; [destruct (done s); lia|].
  split; [destruct (rset s); split; auto; try discriminate; lia|destruct (wset s); split; auto; try discriminate; lia].
Qed.
Lemma disabled e s : calm e -> reach e s -> en s = false -> rset s = false /\ wset s = false /\ killed s = true.
Proof. intros C R E. destruct (calm_inv _ _ C R). rewrite E in i_off. tauto. Qed.

Lemma cleanup e s : calm e -> reach e s -> cleaned s <= 1 /\ (1 <= cleaned s ->
  en s = false /\ killed s = true /\ (forall x, In x (rfs s) -> x = REnd) /\ (forall x, In x (wfs s) -> x = WEnd) /\
  (forall x, In x (efs s) -> x = EEnd) /\ ~ sender_writes s).
Proof.
  intros C R. destruct (calm_inv _ _ C R). split; [destruct (queued s); cbn in i_c; lia|].
  intro K. destruct (queued s); [|cbn in i_c; lia]. destruct i_q as (E & A & B & D & F). rewrite E in i_off.
  split; [exact E|]. split; [tauto|]. unfold own_r, own_w, own_e in *. repeat split.
  - intros x X. apply in_r in X. destruct x; try reflexivity; exfalso; lia.
  - intros x X. apply in_w in X. destruct x; try reflexivity; exfalso; lia.
  - intros x X. assert (1 <= ce s x) by (apply (cnt_in _ _ x); [destruct x; reflexivity|exact X]). destruct x; try reflexivity; exfalso; lia.
  - intro X. apply in_s in X. lia.
Qed.

(** ** Nobody forgets the queue *)
Lemma not_lost e s : calm e -> reach e s -> killed s = false -> 1 <= qn s ->
  if done s then cared_for s else pendw s = true \/ exists x, In x (snds s) /\ deciding x.
Proof.
  intros C R K Q. pose proof (calm_inv _ _ C R) as I. pose proof (own_w1 s I) as W. pose proof (own_r1 s I) as O.
  destruct I. rewrite K in *. destruct (done s) eqn:D.
  - destruct (en s); [|destruct i_off; discriminate].
    destruct i_on as (A & B & X & F & G & H1 & H2 & H3 & H4). destruct H4 as [H4|H4]; [lia|].
    unfold cared_for.
    destruct (wset s); [auto|]. rewrite B in *. unfold own_w in G. unfold supp_w in H4.
    assert (st_w s = 0).
    { unfold young in i_young. unfold st_w. destruct (str s); try reflexivity. destruct i_young. lia. }
    assert (Z : 1 <= ct s KRestW \/ 1 <= cs s SRest \/ 1 <= cs s SDone \/ 1 <= cs s SLock \/ 1 <= cs s SMutex \/ 1 <= cs s SFlush)
      by (unfold rest_w, sb in H4; lia).
    destruct Z as [Z|Z]; [right; left; apply t_in; exact Z|]. left.
    destruct Z as [Z|[Z|[Z|[Z|Z]]]]; apply s_in in Z; eexists; (split; [exact Z|]); unfold deciding; auto 6.
  - destruct i_nd as (A & B & [E|E] & _); [lia|]. unfold wait in E. destruct (pendw s); [auto|]. right.
    cbn in E. unfold sb in E.
    assert (Z : 1 <= cs s SDone \/ 1 <= cs s SLock \/ 1 <= cs s SMutex \/ 1 <= cs s SFlush) by lia.
    destruct Z as [Z|[Z|[Z|Z]]]; apply s_in in Z; eexists; (split; [exact Z|]); unfold deciding; auto 6.
Qed.

(** ** The clean-up is not forgotten *)
Definition due (s : cn) : Prop :=
  en s = true \/ queued s = true \/ 1 <= revs s + wevs s + eevs s \/ In REnd (rfs s) \/ In WEnd (wfs s) \/ In EEnd (efs s).

Lemma check_due s s' : check s = Some s' -> en s' = true \/ queued s' = true \/ 1 <= revs s' + wevs s' + eevs s'.
Proof.
  unfold check, idle. destruct (en s) eqn:E; cbn.
  { intro H. injection H as <-. auto. }
  destruct (revs s =? 0) eqn:A; cbn; [|intro H; injection H as <-; apply Nat.eqb_neq in A; right; right; lia].
  destruct (wevs s =? 0) eqn:B; cbn; [|intro H; injection H as <-; apply Nat.eqb_neq in B; right; right; lia].
  destruct (eevs s =? 0) eqn:C; cbn; [|intro H; injection H as <-; apply Nat.eqb_neq in C; right; right; lia].
  destruct (queued s) eqn:D; cbn; [intro H; injection H as <-; auto|].
  destruct (locked s); [discriminate|]. intro H; injection H as <-. auto.
Qed.
Lemma check_due' s s' : check s = Some s' -> due s'.
Proof. intro H. apply check_due in H. unfold due. tauto. Qed.
Lemma due_view s s' : due s -> en s' = en s -> queued s' = queued s -> revs s' = revs s -> wevs s' = wevs s -> eevs s' = eevs s ->
  incl (rfs s) (rfs s') -> incl (wfs s) (wfs s') -> incl (efs s) (efs s') -> due s'.
Proof.
  unfold due. intros D -> -> -> -> -> A B C. destruct D as [D|[D|[D|[D|[D|D]]]]]; auto 7.
Qed.
Lemma kill_view s : en (kill s) = en s /\ queued (kill s) = queued s /\ revs (kill s) = revs s /\ wevs (kill s) = wevs s /\
  eevs (kill s) = eevs s /\ rfs (kill s) = rfs s /\ wfs (kill s) = wfs s /\ efs (kill s) = efs s.
Proof. unfold kill. destruct (killed s); repeat split. Qed.
