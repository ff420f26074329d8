From Coq Require Import List Arith Lia Bool.
From Verif.Lib Require Import Base.
From Verif.WriteList Require Import Model Proofs ProofsAppend.
Import ListNotations.

(** ** The blocks *)
Lemma bytes_app a b : bytes (a ++ b) = bytes a + bytes b.
Proof. unfold bytes. rewrite concat_app, app_length. reflexivity. Qed.
Lemma fill_spec iovmax max m iov : over max iov -> exists a b, m = a ++ b /\ fill iovmax max m iov = iov ++ a /\ over max (fill iovmax max m iov) /\
  (full iovmax max (fill iovmax max m iov) = false -> b = []).
Proof.
  revert iov. induction m as [|x m IH]; intros iov O; cbn [fill].
  - exists [], []. rewrite (app_nil_r iov). auto.
  - destruct (negb (length iov =? iovmax) && (bytes iov <? max)) eqn:E.
    + apply andb_true_iff in E. destruct E as [_ E]. apply Nat.ltb_lt in E.
      destruct (IH (iov ++ [x])) as (a & b & -> & F & G & H); [right; exists iov, x; auto|]. exists (x :: a), b. split; [reflexivity|].
      split; [rewrite F, <- app_assoc; reflexivity|]. auto.
    + exists [], (x :: m). rewrite (app_nil_r iov). split; [reflexivity|]. split; [reflexivity|]. split; [exact O|].
      unfold full. intros F. apply orb_false_iff in F. destruct F as [F1 F2]. rewrite F1 in E. cbn [negb andb] in E. rewrite E in F2. discriminate.
Qed.
Lemma bytes_one b : bytes [b] = length b.
Proof. unfold bytes. cbn. rewrite app_nil_r. reflexivity. Qed.
Lemma revise_spec max iov : over max iov -> bytes (revise max iov) <= max /\ begins (concat (revise max iov)) (concat iov).
Proof.
  intros O. unfold revise. destruct (Nat.ltb_spec max (bytes iov)) as [L|L]; [|split; [exact L|apply begins_refl]].
  destruct O as [O|(a & b & -> & O)]; [lia|]. rewrite rev_app_distr. cbn [rev app]. rewrite rev_involutive. rewrite bytes_app, bytes_one in L. split.
  - rewrite !bytes_app, !bytes_one, firstn_length. lia.
  - rewrite !concat_app. cbn [concat]. rewrite !app_nil_r. eexists. rewrite <- app_assoc. f_equal. symmetry. apply firstn_skipn.
Qed.
Lemma skip_spec n m : concat (skip n m) = skipn n (concat m).
Proof.
  revert n. induction m as [|b m IH]; intros n; cbn [skip concat]; [rewrite skipn_nil; reflexivity|]. rewrite skipn_app.
  destruct (Nat.leb_spec (length b) n) as [L|L].
  - rewrite IH, (skipn_all2 b) by exact L. reflexivity.
  - replace (n - length b) with 0 by lia. reflexivity.
Qed.

Section S.
Variable iovmax : nat.
Notation Inv := (Inv iovmax).
Notation finv := (finv iovmax).

(** A step of the thread that writes which touches no node *)
Lemma move s f f' fin wr sz : Inv s -> flushers s = [f] ->
  sent s = fin ++ map (nmsg (mem s)) (if popped [f'] then tl (live s) else live s) ->
  wr ++ skipn (kf (mem s) [f']) (lb (mem s) (live s)) = written s ++ skipn (kf (mem s) [f]) (lb (mem s) (live s)) ->
  sz + ks (mem s) [f'] = size s + ks (mem s) [f] -> finv f' s ->
  Inv (set_flushers [f'] (set_finished fin (set_written wr (set_size sz s)))).
Proof.
  intros I F SE WR SZ FI. constructor; sm.
  - apply (i_live _ _ I).
  - apply (i_nodup _ _ I).
  - apply (i_own _ _ I).
  - apply (i_new _ _ I).
  - apply (i_first _ _ I).
  - apply (i_link _ _ I).
  - apply (i_chain _ _ I).
  - apply (i_tail _ _ I).
  - apply (i_msgs _ _ I).
  - pose proof (i_count _ _ I) as C. rewrite F in C. exact C.
  - apply (i_dead _ _ I).
  - intros g [<-|[]]. destruct f'; exact FI.
  - rewrite WR, <- F. apply (i_bytes _ _ I).
  - exact SE.
  - rewrite SZ, <- F. apply (i_size _ _ I).
  - apply (i_crash _ _ I).
Qed.
Lemma move0 s f f' : Inv s -> flushers s = [f] -> popped [f'] = popped [f] -> kf (mem s) [f'] = kf (mem s) [f] -> ks (mem s) [f'] = ks (mem s) [f] ->
  finv f' s -> Inv (set_flushers [f'] s).
Proof.
  intros I F P K1 K2 FI. apply (move s f f' (finished s) (written s) (size s) I F); try assumption.
  - rewrite P, <- F. apply (i_sent _ _ I).
  - rewrite K1. reflexivity.
  - rewrite K2. reflexivity.
Qed.

(** The first node is freed. *)
Lemma pop s f c r fs' hd tl' fin : Inv s -> flushers s = [f] -> live s = c :: r -> dead s = false -> filter first (prods s) = [] ->
  nxt (mem s) c <> None \/ r = [] ->
  tl' = lastn r -> length fs' = match r with [] => 0 | _ => 1 end ->
  (forall g, In g fs' -> finv g (set_head hd (set_live r (set_mem (upd (mem s) c None) s)))) ->
  (forall m', (forall x, In x r -> nbuf m' x = nbuf (mem s) x) -> skipn (kf m' fs') (lb m' r) = skipn (kf (mem s) [f]) (nbuf (mem s) c ++ lb (mem s) r)) ->
  sent s = fin ++ map (nmsg (mem s)) (if popped fs' then tl r else r) ->
  (forall m', (forall x, In x r -> nbuf m' x = nbuf (mem s) x) -> ks (mem s) [f] = ks m' fs' + length (nbuf (mem s) c)) ->
  Inv (set_flushers fs' (set_head hd (set_tail tl' (set_live r (set_mem (upd (mem s) c None) (set_finished fin s)))))).
Proof.
  intros I F L D C NC T LN FI KF SE KS.
  pose proof (i_nodup _ _ I) as ND. rewrite L in ND. inversion ND as [|? ? NC1 NC2]; subst x l.
  assert (O : forall x, In x r -> x <> c) by (intros x X ->; contradiction).
  set (m' := upd (mem s) c None) in *.
  assert (B : forall x, In x r -> nbuf m' x = nbuf (mem s) x) by (intros x X; apply nbuf_other, O, X).
  assert (X : forall x, In x r -> nxt m' x = nxt (mem s) x) by (intros x Y; apply nxt_other, O, Y).
  assert (G : forall x, In x r -> nmsg m' x = nmsg (mem s) x) by (intros x Y; apply nmsg_other, O, Y).
  assert (LB : lb m' r = lb (mem s) r) by (apply lb_ext; exact B).
  constructor; sm; fold m'.
  - intros x Y. unfold m'. rewrite upd_other by (apply O, Y). apply (i_live _ _ I). rewrite L. right. exact Y.
  - exact NC2.
  - apply (i_own _ _ I).
  - intros id H. destruct (i_new _ _ I id H) as (A & E). rewrite L in A. split; [intros Y; apply A; right; exact Y|]. destruct E as (m & E). exists m.
    unfold m'. rewrite upd_other; [exact E|]. intros ->. apply A. left. reflexivity.
  - intros id H. exfalso. assert (Q : In (PLink id None) (filter first (prods s))) by (apply filter_In; split; [exact H|reflexivity]). rewrite C in Q. exact Q.
  - intros id q H. destruct (i_link _ _ I id q H) as (A & l1 & l2 & E). rewrite L in E. destruct l1 as [|z l1]; cbn in E.
    + injection E as <- ->. destruct NC as [NC|NC]; [contradiction|discriminate].
    + injection E as <- ->. rewrite X by (apply in_or_app; right; left; reflexivity). split; [exact A|]. eauto.
  - pose proof (i_chain _ _ I) as H. rewrite L in H. apply chain_tail in H. apply (chain_ext (mem s) m' (prods s)); auto.
  - exact T.
  - intros x Y. rewrite B, G by exact Y. apply (i_msgs _ _ I). rewrite L. right. exact Y.
  - rewrite C, LN, D. destruct r; reflexivity.
  - rewrite D. discriminate.
  - intros g Y. specialize (FI g Y). destruct g; exact FI.
  - rewrite KF by exact B. rewrite (i_bytes _ _ I), F, L, lb_cons. reflexivity.
  - rewrite SE. f_equal. symmetry. apply map_nmsg_ext. intros x Y. apply G. destruct (popped fs'); [|exact Y]. destruct r; [exact Y|right; exact Y].
  - pose proof (i_size _ _ I) as H. rewrite F, L, lb_cons, app_length, (KS m' B) in H. rewrite LB, (inflight_ext (mem s) m'); [lia|].
    intros j J. apply nbuf_other. intros ->. destruct (i_new _ _ I c J) as (A & _). apply A. rewrite L. left. reflexivity.
  - apply (i_crash _ _ I).
Qed.

(** A part of the first node is written. *)
Lemma part s c n fl rc total r : Inv s -> flushers s = [FRewind c fl rc total] -> live s = c :: r -> mem s c = Some n -> fl < bytes (n_buf n) ->
  Inv (set_flushers [FNext rc total] (set_head (Some c)
        (set_mem (upd (mem s) c (Some {| n_next := n_next n; n_buf := skip fl (n_buf n); n_msg := n_msg n |})) s))).
Proof.
  intros I F L M LT.
  assert (NB : nbuf (mem s) c = concat (n_buf n)) by (unfold nbuf; rewrite M; reflexivity).
  pose proof (i_nodup _ _ I) as ND. rewrite L in ND. inversion ND as [|? ? NC1 NC2]; subst x l.
  set (m' := upd (mem s) c _) in *.
  assert (BC : nbuf m' c = skipn fl (nbuf (mem s) c)) by (unfold nbuf at 1, m'; rewrite upd_same; cbn [n_buf]; rewrite skip_spec, NB; reflexivity).
  assert (B : forall x, x <> c -> nbuf m' x = nbuf (mem s) x) by (intros x X; apply nbuf_other, X).
  assert (X : forall x, nxt m' x = nxt (mem s) x).
  { intros x. destruct (Nat.eq_dec x c) as [->|N]; [|apply nxt_other, N]. unfold nxt, m'. rewrite upd_same, M. reflexivity. }
  assert (G : forall x, nmsg m' x = nmsg (mem s) x).
  { intros x. destruct (Nat.eq_dec x c) as [->|N]; [|apply nmsg_other, N]. unfold nmsg, m'. rewrite upd_same, M. reflexivity. }
  assert (LB : lb m' r = lb (mem s) r) by (apply lb_ext; intros x Y; apply B; intros ->; contradiction).
  assert (LC : lb m' (live s) = skipn fl (lb (mem s) (live s))).
  { rewrite L, !lb_cons, LB, BC, skipn_app. replace (fl - length (nbuf (mem s) c)) with 0 by (rewrite NB; unfold bytes in LT; lia). reflexivity. }
  constructor; sm; fold m'.
  - intros x Y. unfold m'. destruct (Nat.eq_dec x c) as [->|N]; [rewrite upd_same; discriminate|]. rewrite upd_other by exact N. apply (i_live _ _ I), Y.
  - apply (i_nodup _ _ I).
  - apply (i_own _ _ I).
  - intros id H. destruct (i_new _ _ I id H) as (A & m & E). split; [exact A|]. exists m. unfold m'. rewrite upd_other; [exact E|].
    intros ->. apply A. rewrite L. left. reflexivity.
  - apply (i_first _ _ I).
  - intros id q H. rewrite X. apply (i_link _ _ I id q H).
  - apply (chain_ext (mem s) m' (prods s)); [auto|auto|apply (i_chain _ _ I)].
  - apply (i_tail _ _ I).
  - intros x Y. rewrite G. pose proof (i_msgs _ _ I x Y) as H. destruct (Nat.eq_dec x c) as [->|N]; [rewrite BC, skipn_length; lia|]. rewrite B by exact N. exact H.
  - pose proof (i_count _ _ I) as C. rewrite F in C. exact C.
  - apply (i_dead _ _ I).
  - intros g [<-|[]]. cbn. eauto.
  - cbn [kf]. rewrite LC. rewrite (i_bytes _ _ I), F. reflexivity.
  - pose proof (i_sent _ _ I) as H. rewrite F in H. cbn [popped] in *. rewrite (map_nmsg_ext (mem s) m') by auto. exact H.
  - pose proof (i_size _ _ I) as H. rewrite F in H. cbn [ks] in *. rewrite LC, skipn_length, (inflight_ext (mem s) m').
    + assert (fl <= length (lb (mem s) (live s))); [|lia]. rewrite L, lb_cons, app_length, NB. unfold bytes in LT. lia.
    + intros j J. apply B. intros ->. destruct (i_new _ _ I c J) as (A & _). apply A. rewrite L. left. reflexivity.
  - apply (i_crash _ _ I).
Qed.

Lemma kill s f : Inv s -> flushers s = [f] -> popped [f] = false -> kf (mem s) [f] = 0 -> ks (mem s) [f] = 0 -> (exists c r, live s = c :: r) ->
  filter first (prods s) = [] -> Inv (set_flushers [] (set_dead true s)).
Proof.
  intros I F P K1 K2 (c & r & L) C. constructor; sm.
  - apply (i_live _ _ I).
  - apply (i_nodup _ _ I).
  - apply (i_own _ _ I).
  - apply (i_new _ _ I).
  - apply (i_first _ _ I).
  - apply (i_link _ _ I).
  - apply (i_chain _ _ I).
  - apply (i_tail _ _ I).
  - apply (i_msgs _ _ I).
  - rewrite C. reflexivity.
  - rewrite L. discriminate.
  - intros g [].
  - pose proof (i_bytes _ _ I) as H. rewrite F, K1 in H. exact H.
  - pose proof (i_sent _ _ I) as H. rewrite F, P in H. exact H.
  - pose proof (i_size _ _ I) as H. rewrite F, K2 in H. exact H.
  - apply (i_crash _ _ I).
Qed.

Lemma live_node s c r : Inv s -> live s = c :: r -> exists n, mem s c = Some n.
Proof. intros I L. destruct (mem s c) as [n|] eqn:E; [eauto|]. destruct (i_live _ _ I c); [rewrite L; left; reflexivity|exact E]. Qed.

Definition after_inv (a : after) : Prop :=
  match a with AGo f' s' => Inv (set_flushers [f'] s') | AEnd s' => Inv (set_flushers [] s') | AWait => True end.

Lemma flush_inv s f max res again : Inv s -> flushers s = [f] -> 0 < max -> after_inv (flush_step iovmax max res again f s).
Proof.
  intros I F MX. destruct (single iovmax s f (flushers s) I) as (_ & D & LV & C); [rewrite F; left; reflexivity|reflexivity|].
  pose proof (i_flush _ _ I f) as FI. rewrite F in FI. specialize (FI (or_introl eq_refl)). destruct f; cbn [flush_step].
  - cbn in FI. destruct FI as (c & r & L & H). rewrite H. pose proof (i_tail _ _ I) as T. destruct (tail s) as [q|].
    + cbn. apply (move0 s FLoad); try assumption; try reflexivity. cbn. split; [eauto|]. split; [exact H|]. split; [exact MX|]. split; [left; cbn; lia|].
      exists [], r. rewrite L. split; [reflexivity|]. split; [intros x []|]. split; [apply begins_refl|reflexivity].
    + symmetry in T. apply lastn_none in T. congruence.
  - destruct FI as ((r & L) & H & M0 & OV & FI). destruct cur as [c|].
    + destruct FI as (pre & post & E & NX & BE & FU).
      assert (LB : begins (lb (mem s) pre) (lbytes (mem s) (live s))) by (rewrite E; apply lbytes_linked, NX).
      destruct (Nat.eqb (length iov) iovmax || negb (bytes iov <? max0)) eqn:FL.
      * cbn. apply (move0 s (FGather h (Some c) iov max0)); try assumption; try reflexivity. cbn. split; [eauto|]. repeat (split; [assumption|]).
        eapply begins_trans; eassumption.
      * destruct (mem s c) as [n|] eqn:MC; [|destruct (i_live _ _ I c); [rewrite E; apply in_or_app; right; left; reflexivity|exact MC]].
        specialize (FU FL).
        assert (NB : nbuf (mem s) c = concat (n_buf n)) by (unfold nbuf; rewrite MC; reflexivity).
        assert (NN : nxt (mem s) c = n_next n) by (unfold nxt; rewrite MC; reflexivity).
        destruct (fill_spec iovmax max0 (n_buf n) iov OV) as (a & b & SP & FE & OV' & FU'). cbn [after_inv].
        apply (move0 s (FGather h (Some c) iov max0)); try assumption; try reflexivity. cbn [finv]. split; [eauto|]. repeat (split; [assumption|]).
        assert (BE' : begins (concat (fill iovmax max0 (n_buf n) iov)) (lb (mem s) (pre ++ [c]))).
        { rewrite FE, concat_app, FU, lb_app, lb_cons, NB, SP, concat_app. exists (concat b). cbn. rewrite app_nil_r, !app_assoc. reflexivity. }
        destruct (n_next n) as [d|] eqn:DE.
        -- pose proof (i_chain _ _ I) as CH. rewrite E in CH. destruct (chain_some _ _ _ _ _ d CH) as (post' & ->); [exact NN|].
           exists (pre ++ [c]), post'. split; [rewrite E, <- app_assoc; reflexivity|]. split; [|split; [exact BE'|]].
           ++ intros x Y. apply in_app_or in Y. destruct Y as [Y|[<-|[]]]; [apply NX, Y|congruence].
           ++ intros FL'. rewrite (FU' FL'), app_nil_r in SP. rewrite FE, concat_app, FU, lb_app, lb_cons, NB, SP. cbn. rewrite app_nil_r. reflexivity.
        -- eapply begins_trans; [exact BE'|]. rewrite E. clear -NX NN. induction pre as [|x pre IH]; cbn [app].
           ++ rewrite lb_cons. cbn. rewrite NN, !app_nil_r. apply begins_refl.
           ++ rewrite lb_cons. cbn [lbytes]. destruct (nxt (mem s) x) eqn:Q; [|destruct (NX x (or_introl eq_refl) Q)].
              destruct IH as (t & ->); [intros y Y; apply NX; right; exact Y|]. exists t. apply app_assoc.
    + cbn. apply (move0 s (FGather h None iov max0)); try assumption; try reflexivity. cbn. split; [eauto|]. auto.
  - destruct FI as ((r & L) & H & M0 & OV & BE). destruct (revise_spec max0 iov OV) as (R1 & R2). cbv zeta. set (iov' := revise max0 iov) in *.
    destruct (Nat.ltb_spec max0 (bytes iov')) as [Q|_]; [lia|]. destruct res as [| |n].
    + cbn. apply (move0 s (FWrite h iov max0)); try assumption; try reflexivity. cbn. eauto.
    + cbn [after_inv]. apply (kill s (FWrite h iov max0)); try assumption; reflexivity.
    + destruct (Nat.ltb_spec (bytes iov') n) as [Q|Q]; [exact Logic.I|]. destruct (Nat.eqb n 0 && negb (Nat.eqb (bytes iov') 0)).
      * cbn [after_inv]. apply (kill s (FWrite h iov max0)); try assumption; reflexivity.
      * cbn [after_inv]. pose proof (begins_trans _ _ _ R2 BE) as B2. pose proof (begins_trans _ _ _ B2 (lbytes_begins (mem s) (live s))) as B3.
        apply (move s (FWrite h iov max0) (FSub h n (bytes iov')) (finished s) (written s ++ firstn n (concat iov')) (size s)); try assumption.
        -- pose proof (i_sent _ _ I) as SE. rewrite F in SE. exact SE.
        -- cbn [kf skipn]. rewrite (begins_firstn n _ _ B3 Q), <- app_assoc, firstn_skipn. reflexivity.
        -- reflexivity.
        -- cbn. split; [eauto|]. split; [exact Q|]. apply begins_len. exact B2.
  - destruct FI as ((r & L) & R1 & R2). pose proof (i_size _ _ I) as SZ. rewrite F in SZ. cbn [ks] in SZ.
    pose proof (begins_len _ _ (lbytes_begins (mem s) (live s))) as LE. destruct (Nat.ltb_spec (size s) rc) as [Q|Q]; [lia|]. cbn [after_inv].
    apply (move s (FSub h rc total) (FRewind h rc rc total) (finished s) (written s) (size s - rc)); try assumption.
    + pose proof (i_sent _ _ I) as SE. rewrite F in SE. exact SE.
    + reflexivity.
    + cbn. lia.
    + cbn. split; [eauto|]. lia.
  - destruct FI as ((r & L) & R1 & R2). destruct (live_node s cur r I L) as (n & M). rewrite M.
    assert (NB : nbuf (mem s) cur = concat (n_buf n)) by (unfold nbuf; rewrite M; reflexivity).
    assert (NN : nxt (mem s) cur = n_next n) by (unfold nxt; rewrite M; reflexivity).
    assert (NM : nmsg (mem s) cur = n_msg n) by (unfold nmsg; rewrite M; reflexivity).
    assert (BB : bytes (n_buf n) = length (nbuf (mem s) cur)) by (rewrite NB; reflexivity).
    pose proof (i_sent _ _ I) as SE. rewrite F, L in SE. cbn [popped map] in SE. rewrite NM in SE.
    destruct (Nat.leb_spec (bytes (n_buf n)) flushed) as [Q|Q].
    + cbv zeta. rewrite BB in *. rewrite L in R2. cbn [lbytes] in R2. rewrite NN in R2. destruct (n_next n) as [d|] eqn:DE.
      * pose proof (i_chain _ _ I) as CH. rewrite L in CH. destruct (chain_some _ _ [] _ _ d CH) as (r' & ->); [exact NN|]. rewrite L. cbn [after_inv tl].
        pose proof (i_nodup _ _ I) as ND. rewrite L in ND. inversion ND as [|? ? NC1 NC2]; subst x l.
        apply (pop s (FRewind cur flushed rc total) cur (d :: r') [FRewind d (flushed - length (nbuf (mem s) cur)) rc total] (head s) (tail s)
          (finished s ++ [n_msg n])); try assumption.
        -- left. congruence.
        -- rewrite (i_tail _ _ I), L. apply lastn_cons.
        -- reflexivity.
        -- intros g [<-|[]]. cbn [finv]. sm. split; [eauto|]. split; [exact R1|].
           rewrite (lbytes_ext (mem s)); [rewrite app_length in R2; lia|]. intros x X. split; [apply nbuf_other|apply nxt_other]; intros ->; contradiction.
        -- intros m' B. cbn [kf]. rewrite skipn_app, (skipn_all2 (nbuf (mem s) cur)) by exact Q. rewrite (lb_ext (mem s) m') by exact B. reflexivity.
        -- cbn [popped]. rewrite <- app_assoc. exact SE.
        -- intros m' B. cbn [ks]. lia.
      * rewrite app_nil_r in R2. replace (flushed - length (nbuf (mem s) cur)) with 0 by lia. cbn [Nat.eqb after_inv].
        apply (move s (FRewind cur flushed rc total) (FCas cur rc total) (finished s ++ [n_msg n]) (written s) (size s)); try assumption.
        -- cbn [popped]. rewrite L. cbn [tl]. rewrite <- app_assoc. exact SE.
        -- cbn [kf]. f_equal. f_equal. lia.
        -- cbn [ks]. lia.
        -- cbn. split; [eauto|lia].
    + cbn [after_inv]. apply (part s cur n flushed rc total r); assumption.
  - destruct FI as ((r & L) & ->). pose proof (i_tail _ _ I) as T. rewrite Nat.eqb_refl.
    pose proof (i_sent _ _ I) as SE. rewrite F, L in SE. cbn [popped tl] in SE. unfold nat_is.
    assert (TC : tail s = Some cur \/ exists q, tail s = Some q /\ q <> cur).
    { destruct (tail s) as [q|]; [|symmetry in T; apply lastn_none in T; congruence]. destruct (Nat.eq_dec q cur) as [->|N]; eauto. }
    pose proof (i_nodup _ _ I) as ND. rewrite L in ND. inversion ND as [|? ? NC1 NC2]; subst x l.
    destruct TC as [E|(q & E & N)]; rewrite E.
    + rewrite Nat.eqb_refl. assert (r = []).
      { rewrite E, L in T. symmetry in T. apply lastn_some in T. destruct T as (t & T). destruct t as [|z t]; [injection T as ->; reflexivity|].
        injection T as <- ->. exfalso. apply NC1. apply in_or_app. right. left. reflexivity. }
      subst r. rewrite L. cbn [after_inv tl].
      apply (pop s (FCas cur total total) cur [] [] (head s) None (finished s)); try assumption; try reflexivity.
      * right. reflexivity.
      * intros g [].
      * intros m' _. cbn [kf skipn lb flat_map]. rewrite app_nil_r, skipn_all. reflexivity.
    + destruct (Nat.eqb_spec q cur) as [|_]; [contradiction|]. cbn [after_inv].
      apply (move0 s (FCas cur total total)); try assumption; try reflexivity. cbn. destruct r as [|d r]; [|eauto].
      rewrite L in T. cbn in T. congruence.
  - destruct FI as (d & r & L). destruct (live_node s cur _ I L) as (n & M). rewrite M.
    assert (NN : nxt (mem s) cur = n_next n) by (unfold nxt; rewrite M; reflexivity).
    destruct (n_next n) as [d'|] eqn:DE; [|exact Logic.I]. pose proof (i_chain _ _ I) as CH. rewrite L in CH.
    destruct (chain_some _ _ [] _ _ d' CH) as (r' & E); [exact NN|]. injection E as <- <-. rewrite L. cbn [after_inv tl].
    pose proof (i_sent _ _ I) as SE. rewrite F, L in SE. cbn [popped tl] in SE.
    apply (pop s (FSpin cur rc total) cur (d :: r) [FNext rc total] (Some d) (tail s) (finished s)); try assumption.
    + left. congruence.
    + rewrite (i_tail _ _ I), L. apply lastn_cons.
    + reflexivity.
    + intros g [<-|[]]. cbn. eauto.
    + intros m' B. cbn [kf skipn]. rewrite skipn_app, skipn_all, Nat.sub_diag. rewrite (lb_ext (mem s) m') by exact B. reflexivity.
    + intros m' B. reflexivity.
  - destruct (Nat.eqb rc 0); [cbn [after_inv]; apply (kill s (FNext rc total)); try assumption; reflexivity|].
    destruct (Nat.eqb rc total && again); cbn [after_inv]; apply (move0 s (FNext rc total)); try assumption; try reflexivity; exact FI.
  - cbn [after_inv]. apply (move0 s FRest); try assumption; try reflexivity; exact FI.
Qed.
End S.
