From Coq Require Import List Arith Lia Bool.
From Verif.Lib Require Import Base.
From Verif.WriteList Require Import Model Proofs.
Import ListNotations.

Ltac sm := cbn [head tail mem size stopped prods flushers live sent written finished dead crash set_head set_tail set_mem set_size set_stopped
  set_prods set_flushers set_live set_sent set_written set_finished set_dead set_crash].

Lemma NoDup_snoc {A} (l : list A) x : NoDup l -> ~ In x l -> NoDup (l ++ [x]).
Proof. intros H N. apply (NoDup_Add (a := x) (l := l ++ [])); [apply Add_app|]. rewrite app_nil_r. auto. Qed.
Lemma chain_intro m ps l : (forall l1 a b l2, l = l1 ++ a :: b :: l2 -> nxt m a = Some b \/ nxt m a = None /\ In (PLink b (Some a)) ps) ->
  (forall l1 a, l = l1 ++ [a] -> nxt m a = None) -> chain m ps l.
Proof.
  induction l as [|a l IH]; intros H G; [exact I|]. destruct l as [|b l].
  - apply (G [] a). reflexivity.
  - split; [apply (H [] a b l); reflexivity|]. apply IH.
    + intros l1 x y l2 E. apply (H (a :: l1) x y l2). rewrite E. reflexivity.
    + intros l1 x E. apply (G (a :: l1) x). rewrite E. reflexivity.
Qed.
Lemma nodup_next {A} (l a c : list A) q x y b d : NoDup l -> l = a ++ q :: x :: b -> l = c ++ q :: y :: d -> x = y.
Proof.
  intros N E F. assert (a = c /\ x :: b = y :: d) as [_ H]; [|congruence]. rewrite E in F, N. clear E.
  revert c F. induction a as [|z a IH]; intros [|w c] F; cbn in F.
  - split; congruence.
  - injection F as -> F. inversion N; subst. exfalso. apply H1. rewrite F. apply in_or_app. right. left. reflexivity.
  - injection F as -> F. inversion N; subst. exfalso. apply H1. apply in_or_app. right. left. reflexivity.
  - injection F as -> F. inversion N; subst. destruct (IH H2 c F) as [-> E]. split; [reflexivity|exact E].
Qed.

Section S.
Variable iovmax : nat.
Notation Inv := (Inv iovmax).
Notation finv := (finv iovmax).

Lemma single s f fs : Inv s -> In f (flushers s) -> fs = flushers s -> flushers s = [f] /\ dead s = false /\ (exists c r, live s = c :: r) /\ filter first (prods s) = [].
Proof.
  intros I F _. pose proof (i_count _ _ I) as C. destruct (dead s).
  - destruct (flushers s); [destruct F|discriminate].
  - destruct (live s) as [|c r]; [destruct (flushers s); [destruct F|discriminate]|]. destruct (flushers s) as [|g [|? ?]]; [destruct F| |cbn in C; lia].
    destruct F as [->|[]]. destruct (filter first (prods s)); [eauto 6|cbn in C; lia].
Qed.

Lemma k_le s : Inv s -> kf (mem s) (flushers s) <= length (lb (mem s) (live s)).
Proof.
  intros I. destruct (flushers s) as [|f fs] eqn:E; [cbn; lia|]. pose proof (i_flush _ _ I f) as F. rewrite E in F. specialize (F (or_introl eq_refl)).
  pose proof (begins_len _ _ (lbytes_begins (mem s) (live s))) as L. destruct f; cbn in F |- *; try lia.
  - destruct F as ((r & F) & _). rewrite F, lb_cons, app_length. lia.
  - destruct F as (d & r & F). rewrite F, lb_cons, app_length. lia.
Qed.

Lemma popped_live s : Inv s -> popped (flushers s) = true -> exists c r, live s = c :: r.
Proof.
  intros I. destruct (flushers s) as [|f fs] eqn:E; [discriminate|]. pose proof (i_flush _ _ I f) as F. rewrite E in F. specialize (F (or_introl eq_refl)).
  destruct f; try discriminate; cbn in F; intros _.
  - destruct F as ((r & F) & _). eauto.
  - destruct F as (d & r & F). eauto.
Qed.

Lemma step_xchg s l1 i l2 n : Inv s -> prods s = l1 ++ PXchg i :: l2 -> mem s i = Some n ->
  Inv (set_prods (l1 ++ PLink i (tail s) :: l2) (set_tail (Some i) (set_live (live s ++ [i]) (set_sent (sent s ++ [n_msg n]) s)))).
Proof.
  intros I P M.
  destruct (i_new _ _ I i) as (NL & m & M'); [rewrite P; apply in_mid; left; reflexivity|]. rewrite M in M'. injection M' as ->. cbn [n_msg].
  pose proof (i_own _ _ I) as IO. rewrite P in IO. destruct (own_mid _ _ _ IO) as [IO1 IO2]. specialize (IO2 i (or_introl eq_refl)).
  assert (NI : nxt (mem s) i = None) by (unfold nxt; rewrite M; reflexivity).
  assert (BI : nbuf (mem s) i = concat m) by (unfold nbuf; rewrite M; reflexivity).
  assert (GI : nmsg (mem s) i = m) by (unfold nmsg; rewrite M; reflexivity).
  pose proof (i_tail _ _ I) as T.
  constructor; sm.
  - intros c C. apply in_app_or in C. destruct C as [C|[<-|[]]]; [apply (i_live _ _ I), C|congruence].
  - apply NoDup_snoc; [apply (i_nodup _ _ I)|exact NL].
  - apply own_put; [exact IO1|]. intros j [<-|[]]. exact IO2.
  - intros id H. apply in_mid in H. destruct H as [H|H]; [discriminate|]. destruct (i_new _ _ I id) as (A & B); [rewrite P; apply in_mid; right; exact H|].
    split; [|exact B]. intros C. apply in_app_or in C. destruct C as [C|[<-|[]]]; [exact (A C)|]. apply IO2. apply in_own. left. exact H.
  - intros id H. apply in_mid in H. destruct H as [H|H].
    + injection H as -> E. rewrite T in E. symmetry in E. apply lastn_none in E. rewrite E. exists []. reflexivity.
    + destruct (i_first _ _ I id) as (r & ->); [rewrite P; apply in_mid; right; exact H|]. exists (r ++ [i]). reflexivity.
  - intros id q H. apply in_mid in H. destruct H as [H|H].
    + injection H as -> E. rewrite T in E. symmetry in E. apply lastn_some in E. destruct E as (r & E). split.
      * apply (chain_last (mem s) (prods s) r). rewrite <- E. apply (i_chain _ _ I).
      * exists r, []. rewrite E, <- app_assoc. reflexivity.
    + destruct (i_link _ _ I id q) as (A & a & b & ->); [rewrite P; apply in_mid; right; exact H|]. split; [exact A|].
      exists a, (b ++ [i]). rewrite <- app_assoc. reflexivity.
  - assert (C : chain (mem s) (l1 ++ PLink i (tail s) :: l2) (live s)).
    { apply (chain_ext (mem s) _ (prods s)); [reflexivity| |apply (i_chain _ _ I)]. intros a b Y H. rewrite P in H. apply in_mid in H. apply in_mid.
      destruct H as [H|H]; [discriminate|right; exact H]. }
    destruct (tail s) as [q|] eqn:TE.
    + symmetry in T. apply lastn_some in T. destruct T as (r & E). rewrite E in C |- *. rewrite <- app_assoc. apply chain_snoc; [exact C|exact NI|].
      apply in_mid. left. reflexivity.
    + symmetry in T. apply lastn_none in T. rewrite T. exact NI.
  - symmetry. apply lastn_app.
  - intros c C. apply in_app_or in C. destruct C as [C|[<-|[]]]; [apply (i_msgs _ _ I), C|]. rewrite BI, GI. unfold bytes. lia.
  - pose proof (i_count _ _ I) as C. rewrite P, filter_app, app_length in C. rewrite filter_app, app_length. cbn [filter first] in C |- *.
    destruct (live s) as [|x r] eqn:L.
    + cbn in T. rewrite T. cbn. destruct (dead s) eqn:D; [destruct (i_dead _ _ I D L)|]. lia.
    + destruct (lastn (x :: r)) as [q|] eqn:Q; [|apply lastn_none in Q; discriminate]. rewrite T. cbn. exact C.
  - intros D E. apply app_eq_nil in E. destruct E. discriminate.
  - intros f F. pose proof (i_flush _ _ I f F) as H.
    pose proof (lbytes_more (mem s) (live s) [i]) as G. pose proof (begins_len _ _ G) as GL.
    destruct f; cbn [finv] in H |- *; sm.
    + destruct H as (c & r & -> & H). exists c, (r ++ [i]). split; [reflexivity|exact H].
    + destruct H as ((r & H1) & H2 & H3 & H4 & H5). split; [exists (r ++ [i]); rewrite H1; reflexivity|]. repeat (split; [assumption|]).
      destruct cur as [c|]; [|eapply begins_trans; eassumption]. destruct H5 as (pre & post & H5 & H6 & H7 & H8). exists pre, (post ++ [i]).
      split; [rewrite H5, <- app_assoc; reflexivity|]. auto.
    + destruct H as ((r & H1) & H2 & H3 & H4 & H5). split; [exists (r ++ [i]); rewrite H1; reflexivity|]. repeat (split; [assumption|]).
      eapply begins_trans; eassumption.
    + destruct H as ((r & H1) & H2 & H3). split; [exists (r ++ [i]); rewrite H1; reflexivity|]. lia.
    + destruct H as ((r & H1) & H2 & H3). split; [exists (r ++ [i]); rewrite H1; reflexivity|]. lia.
    + destruct H as ((r & H1) & H2). split; [exists (r ++ [i]); rewrite H1; reflexivity|]. exact H2.
    + destruct H as (d & r & H1). exists d, (r ++ [i]). rewrite H1. reflexivity.
    + destruct H as (c & r & -> & H). exists c, (r ++ [i]). split; [reflexivity|exact H].
    + destruct H as (c & r & -> & H). exists c, (r ++ [i]). split; [reflexivity|exact H].
  - rewrite map_app, concat_app, (i_bytes _ _ I), lb_app, skipn_app. pose proof (k_le s I) as K.
    replace (kf (mem s) (flushers s) - length (lb (mem s) (live s))) with 0 by lia. cbn. rewrite BI, !app_nil_r, app_assoc. reflexivity.
  - rewrite (i_sent _ _ I) at 1. destruct (popped (flushers s)) eqn:PO.
    + destruct (popped_live s I PO) as (c & r & ->). cbn. rewrite map_app, <- app_assoc. cbn. rewrite GI. reflexivity.
    + rewrite map_app, <- app_assoc. cbn. rewrite GI. reflexivity.
  - pose proof (i_size _ _ I) as Z. rewrite P, inflight_mid in Z. rewrite inflight_mid, lb_app, app_length. cbn in Z |- *. rewrite app_nil_r. lia.
  - apply (i_crash _ _ I).
Qed.

Lemma step_first s l1 i l2 : Inv s -> prods s = l1 ++ PLink i None :: l2 ->
  Inv (set_prods (l1 ++ PDone true :: l2) (set_head (Some i) (set_flushers (flushers s ++ [FLoad]) s))).
Proof.
  intros I P. destruct (i_first _ _ I i) as (r & L); [rewrite P; apply in_mid; left; reflexivity|].
  pose proof (i_own _ _ I) as IO. rewrite P in IO. destruct (own_mid _ _ _ IO) as [IO1 IO2]. specialize (IO2 i (or_introl eq_refl)).
  pose proof (i_count _ _ I) as C. rewrite P, L, filter_app, app_length in C. cbn [filter first length] in C.
  assert (D : dead s = false) by (destruct (dead s); [lia|reflexivity]). rewrite D in C.
  assert (F : flushers s = []) by (destruct (flushers s); [reflexivity|cbn in C; lia]).
  assert (C1 : filter first l1 = [] /\ filter first l2 = []).
  { rewrite F in C. cbn in C. destruct (filter first l1), (filter first l2); cbn in C; split; try reflexivity; lia. }
  destruct C1 as [C1 C2].
  constructor; sm; rewrite ?F; cbn [app].
  - apply (i_live _ _ I).
  - apply (i_nodup _ _ I).
  - apply own_put; [exact IO1|]. intros j [].
  - intros id H. apply in_mid in H. destruct H as [H|H]; [discriminate|]. apply (i_new _ _ I). rewrite P. apply in_mid. right. exact H.
  - intros id H. apply in_mid in H. destruct H as [H|H]; [discriminate|]. apply (i_first _ _ I). rewrite P. apply in_mid. right. exact H.
  - intros id q H. apply in_mid in H. destruct H as [H|H]; [discriminate|]. apply (i_link _ _ I). rewrite P. apply in_mid. right. exact H.
  - apply (chain_ext (mem s) _ (prods s)); [reflexivity| |apply (i_chain _ _ I)]. intros a b Y H. rewrite P in H. apply in_mid in H. apply in_mid.
    destruct H as [H|H]; [discriminate|right; exact H].
  - apply (i_tail _ _ I).
  - apply (i_msgs _ _ I).
  - rewrite filter_app. cbn [filter first]. rewrite C1, C2, D, L. reflexivity.
  - apply (i_dead _ _ I).
  - intros f [<-|[]]. cbn. exists i, r. auto.
  - pose proof (i_bytes _ _ I) as H. rewrite F in H. exact H.
  - pose proof (i_sent _ _ I) as H. rewrite F in H. exact H.
  - pose proof (i_size _ _ I) as H. rewrite F, P, inflight_mid in H. rewrite inflight_mid. exact H.
  - apply (i_crash _ _ I).
Qed.

Lemma step_link s l1 i q l2 n : Inv s -> prods s = l1 ++ PLink i (Some q) :: l2 -> mem s q = Some n ->
  Inv (set_prods (l1 ++ PDone true :: l2) (set_mem (upd (mem s) q (Some {| n_next := Some i; n_buf := n_buf n; n_msg := n_msg n |})) s)).
Proof.
  intros I P M. destruct (i_link _ _ I i q) as (NQ & a & b & L); [rewrite P; apply in_mid; left; reflexivity|].
  pose proof (i_own _ _ I) as IO. rewrite P in IO. destruct (own_mid _ _ _ IO) as [IO1 IO2]. specialize (IO2 i (or_introl eq_refl)).
  assert (QL : In q (live s)) by (rewrite L; apply in_or_app; right; left; reflexivity).
  set (m' := upd (mem s) q _).
  assert (B : forall c, nbuf m' c = nbuf (mem s) c).
  { intros c. destruct (Nat.eq_dec c q) as [->|N]; [|apply nbuf_other, N]. unfold nbuf, m'. rewrite upd_same, M. reflexivity. }
  assert (G : forall c, nmsg m' c = nmsg (mem s) c).
  { intros c. destruct (Nat.eq_dec c q) as [->|N]; [|apply nmsg_other, N]. unfold nmsg, m'. rewrite upd_same, M. reflexivity. }
  assert (XQ : nxt m' q = Some i) by (unfold nxt, m'; rewrite upd_same; reflexivity).
  assert (X : forall c, c <> q -> nxt m' c = nxt (mem s) c) by (intros c N; apply nxt_other, N).
  assert (LB : forall l, lb m' l = lb (mem s) l) by (intros l; apply lb_ext; auto).
  assert (LY : begins (lbytes (mem s) (live s)) (lbytes m' (live s))).
  { apply lbytes_link. intros c _. split; [apply B|]. intros N. destruct (Nat.eq_dec c q) as [->|Q]; [congruence|]. rewrite X by exact Q. exact N. }
  pose proof (begins_len _ _ LY) as LYL.
  assert (K : kf m' (flushers s) = kf (mem s) (flushers s) /\ ks m' (flushers s) = ks (mem s) (flushers s)).
  { destruct (flushers s) as [|f fs]; [split; reflexivity|]. destruct f; cbn; rewrite ?B; split; reflexivity. }
  destruct K as [K1 K2].
  constructor; sm; fold m'.
  - intros c C. unfold m'. destruct (Nat.eq_dec c q) as [->|N]; [rewrite upd_same; discriminate|]. rewrite upd_other by exact N. apply (i_live _ _ I), C.
  - apply (i_nodup _ _ I).
  - apply own_put; [exact IO1|]. intros j [].
  - intros id H. apply in_mid in H. destruct H as [H|H]; [discriminate|]. destruct (i_new _ _ I id) as (A & x & E); [rewrite P; apply in_mid; right; exact H|].
    split; [exact A|]. exists x. unfold m'. rewrite upd_other by (intros ->; contradiction). exact E.
  - intros id H. apply in_mid in H. destruct H as [H|H]; [discriminate|]. apply (i_first _ _ I). rewrite P. apply in_mid. right. exact H.
  - intros id q' H. apply in_mid in H. destruct H as [H|H]; [discriminate|].
    destruct (i_link _ _ I id q') as (A & c & d & E); [rewrite P; apply in_mid; right; exact H|]. split; [|exists c, d; exact E].
    destruct (Nat.eq_dec q' q) as [->|N]; [|rewrite X by exact N; exact A]. exfalso.
    rewrite (nodup_next _ _ _ _ _ _ _ _ (i_nodup _ _ I) L E) in IO2. apply IO2. apply in_own. right. eexists. exact H.
  - apply chain_intro.
    + intros c x y d E. destruct (Nat.eq_dec x q) as [->|N].
      * left. rewrite XQ. f_equal. apply (nodup_next _ _ _ _ _ _ _ _ (i_nodup _ _ I) L E).
      * rewrite X by exact N. pose proof (i_chain _ _ I) as C. rewrite E in C. apply chain_next in C. destruct C as [C|[C1 C2]]; [left; exact C|right].
        split; [exact C1|]. rewrite P in C2. apply in_mid in C2. apply in_mid. destruct C2 as [C2|C2]; [congruence|right; exact C2].
    + intros c x E. pose proof (i_chain _ _ I) as C. rewrite E in C. apply chain_last in C. destruct (Nat.eq_dec x q) as [->|N]; [|rewrite X by exact N; exact C].
      exfalso. rewrite L in E. assert (ND := i_nodup _ _ I). rewrite L in ND. clear -E ND. revert c E. induction a as [|z a IH]; intros [|w c] E; cbn in E.
      * discriminate.
      * injection E as -> E. inversion ND; subst. apply H1. rewrite E. apply in_or_app. right. left. reflexivity.
      * injection E as -> E. destruct a; discriminate.
      * injection E as -> E. inversion ND; subst. exact (IH H2 c E).
  - apply (i_tail _ _ I).
  - intros c C. rewrite B, G. apply (i_msgs _ _ I), C.
  - pose proof (i_count _ _ I) as C. rewrite P, filter_app in C. rewrite filter_app. exact C.
  - apply (i_dead _ _ I).
  - intros f F. pose proof (i_flush _ _ I f F) as H. destruct f; cbn [finv] in H |- *; sm; fold m'; try exact H.
    + destruct H as (H1 & H2 & H3 & H4 & H5). repeat (split; [assumption|]). destruct cur as [c|]; [|eapply begins_trans; eassumption].
      destruct H5 as (pre & post & H5 & H6 & H7 & H8). exists pre, post. rewrite LB. split; [exact H5|]. split; [|auto].
      intros x Y. destruct (Nat.eq_dec x q) as [->|N]; [congruence|]. rewrite X by exact N. apply H6, Y.
    + destruct H as (H1 & H2 & H3 & H4 & H5). repeat (split; [assumption|]). eapply begins_trans; eassumption.
    + destruct H as (H1 & H2 & H3). split; [exact H1|]. lia.
    + destruct H as (H1 & H2 & H3). split; [exact H1|]. lia.
  - rewrite K1, LB. apply (i_bytes _ _ I).
  - rewrite (map_nmsg_ext (mem s) m') by auto. apply (i_sent _ _ I).
  - rewrite K2, LB. pose proof (i_size _ _ I) as H. rewrite P, inflight_mid in H. rewrite inflight_mid, (inflight_ext (mem s) m') by auto. exact H.
  - apply (i_crash _ _ I).
Qed.
End S.
