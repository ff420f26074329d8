From Coq Require Import List Arith Lia Bool.
From Verif.Lib Require Import Base.
From Verif.WriteList Require Import Model Spec Proofs ProofsAppend ProofsFlush ProofsReach ProofsMain.
Import ListNotations.

Definition thick (m : msg) : Prop := forall b, In b m -> b <> [].
Definition nodes (s : st) : Prop := forall c n, In c (live s) -> mem s c = Some n -> sound (n_buf n).
Definition vigour (f : fst_) : Prop :=
  match f with
  | FLoad | FRest => True
  | FGather h cur iov max => thick iov /\ 0 < max /\ (iov = [] -> cur = Some h)
  | FWrite h iov max => sound iov /\ 0 < max
  | FSub _ rc _ | FRewind _ _ rc _ | FCas _ rc _ | FSpin _ rc _ | FNext rc _ => 0 < rc
  end.

Lemma sound_bytes m : sound m -> 0 < bytes m.
Proof.
  intros [N B]. destruct m as [|b m]; [congruence|]. specialize (B b (or_introl eq_refl)). unfold bytes. cbn. destruct b; [congruence|]. cbn. lia.
Qed.
Lemma skip_sound n m : thick m -> n < bytes m -> sound (skip n m).
Proof.
  revert n. induction m as [|b m IH]; intros n B L; [unfold bytes in L; cbn in L; lia|]. cbn [skip]. destruct (Nat.leb_spec (length b) n) as [Q|Q].
  - apply IH; [intros x X; apply B; right; exact X|]. unfold bytes in *. cbn in L. rewrite app_length in L. lia.
  - split; [discriminate|]. intros x [<-|X]; [|apply B; right; exact X]. intros E. apply (f_equal (@length nat)) in E. rewrite skipn_length in E. cbn in E. lia.
Qed.
Lemma revise_pos max iov : sound iov -> 0 < max -> over max iov -> 0 < bytes (revise max iov).
Proof.
  intros G M O. pose proof (sound_bytes _ G) as B. unfold revise. destruct (Nat.ltb_spec max (bytes iov)) as [L|L]; [|exact B].
  destruct O as [O|(a & b & -> & O)]; [lia|]. rewrite rev_app_distr. cbn [rev app]. rewrite rev_involutive. rewrite bytes_app, bytes_one in L.
  rewrite !bytes_app, !bytes_one, firstn_length. lia.
Qed.

Section S.
Variable cap iovmax : nat.
Hypothesis IM : 0 < iovmax.
Notation Inv := (Inv iovmax).

Lemma fill_thick max m iov : thick m -> thick iov -> thick (fill iovmax max m iov).
Proof.
  revert iov. induction m as [|b m IH]; intros iov B T; [exact T|]. cbn [fill]. destruct (_ && _); [|exact T]. apply IH.
  - intros x X. apply B. right. exact X.
  - intros x X. apply in_app_or in X. destruct X as [X|[<-|[]]]; [apply T, X|apply B; left; reflexivity].
Qed.
Lemma fill_some max m iov : 0 < max -> sound m -> fill iovmax max m iov <> [].
Proof.
  intros M [N _]. destruct m as [|b m]; [congruence|]. cbn [fill]. destruct (_ && _) eqn:E.
  - assert (H : forall m i, i <> [] -> fill iovmax max m i <> []).
    { clear -IM. induction m as [|x m IH]; intros i I; [exact I|]. cbn [fill]. destruct (_ && _); [|exact I]. apply IH. destruct i; discriminate. }
    apply H. destruct iov; discriminate.
  - intros ->. cbn in E. destruct iovmax; [lia|]. cbn in E. destruct max; [lia|]. discriminate.
Qed.

Lemma nodes_flush s f max res again : Inv s -> flushers s = [f] -> nodes s -> vigour f -> 0 < max ->
  match flush_step iovmax max res again f s with
  | AGo f' s' => nodes s' /\ vigour f'
  | AEnd s' => nodes s' /\ (dead s' = dead s \/ exists h iov m, f = FWrite h iov m)
  | AWait => True
  end.
Proof.
  intros I F N V M. pose proof (flush_inv iovmax s f max res again I F M) as CR.
  pose proof (i_flush _ _ I f) as FI. rewrite F in FI. specialize (FI (or_introl eq_refl)). destruct f; cbn [flush_step] in *.
  - destruct (head s), (tail s); try (apply i_crash in CR; discriminate). split; [exact N|]. cbn. split; [intros b []|]. auto.
  - destruct V as (V1 & V2 & V3). destruct FI as ((r & L) & _ & _ & _ & FI). destruct cur as [c|].
    + destruct (Nat.eqb (length iov) iovmax || negb (bytes iov <? max0)) eqn:E.
      * split; [exact N|]. cbn. split; [|exact V2]. split; [|exact V1]. intros ->. cbn in E. destruct iovmax; [lia|]. cbn in E. destruct max0; [lia|]. discriminate.
      * destruct (mem s c) as [n|] eqn:MC; [|apply i_crash in CR; discriminate]. split; [exact N|]. cbn [vigour].
        destruct FI as (pre & post & LE & _). assert (G : sound (n_buf n)) by (apply (N c); [rewrite LE; apply in_or_app; right; left; reflexivity|exact MC]).
        split; [apply fill_thick; [exact (proj2 G)|exact V1]|]. split; [exact V2|]. intros Q. destruct (fill_some max0 (n_buf n) iov V2 G Q).
    + split; [exact N|]. cbn. split; [|exact V2]. split; [|exact V1]. intros Q. discriminate (V3 Q).
  - destruct V as (V1 & V2). destruct FI as (_ & _ & _ & OV & _). cbv zeta in *. pose proof (revise_pos max0 iov V1 V2 OV) as RP.
    destruct (max0 <? bytes (revise max0 iov)); [apply i_crash in CR; discriminate|]. destruct res as [| |n].
    + split; [exact N|exact Logic.I].
    + split; [exact N|]. right. eauto.
    + destruct (_ <? _); [exact Logic.I|]. destruct (Nat.eqb n 0 && negb (Nat.eqb (bytes (revise max0 iov)) 0)) eqn:E.
      * split; [exact N|]. right. eauto.
      * split; [exact N|]. cbn. destruct n as [|n]; [|lia]. cbn in E. apply negb_false_iff, Nat.eqb_eq in E. lia.
  - destruct (_ <? _); split; try exact N; exact V.
  - destruct FI as ((r & L) & _). destruct (mem s cur) as [n|] eqn:MC; [|apply i_crash in CR; discriminate].
    assert (G : sound (n_buf n)) by (apply (N cur); [rewrite L; left; reflexivity|exact MC]).
    pose proof (i_nodup _ _ I) as ND. rewrite L in ND. inversion ND as [|? ? NC1 NC2]; subst x l.
    destruct (Nat.leb_spec (bytes (n_buf n)) flushed) as [Q|Q].
    + cbv zeta in *. destruct (n_next n) as [d|].
      * split; [|exact V]. intros x y. sm. rewrite L. cbn [tl]. intros X Y. unfold upd in Y. destruct (Nat.eqb_spec x cur); [discriminate|].
        apply (N x); [rewrite L; right; exact X|exact Y].
      * destruct (_ =? _); [|apply i_crash in CR; discriminate]. split; [exact N|exact V].
    + split; [|exact V]. intros x y. sm. intros X Y. unfold upd in Y. destruct (Nat.eqb_spec x cur); [|apply (N x); assumption].
      injection Y as <-. cbn. apply skip_sound; [exact (proj2 G)|exact Q].
  - destruct FI as ((r & L) & _). pose proof (i_nodup _ _ I) as ND. rewrite L in ND. inversion ND as [|? ? NC1 NC2]; subst x l.
    destruct (nat_is _ _); [|split; [exact N|exact V]]. destruct (_ =? _); [|apply i_crash in CR; discriminate]. split; [|left; reflexivity].
    intros x y. sm. rewrite L. cbn [tl]. intros X Y. unfold upd in Y. destruct (Nat.eqb_spec x cur); [discriminate|].
    apply (N x); [rewrite L; right; exact X|exact Y].
  - destruct FI as (d' & r & L). pose proof (i_nodup _ _ I) as ND. rewrite L in ND. inversion ND as [|? ? NC1 NC2]; subst x l.
    destruct (mem s cur) as [n|] eqn:MC; [|apply i_crash in CR; discriminate]. destruct (n_next n); [|exact Logic.I]. split; [|exact V].
    intros x y. sm. rewrite L. cbn [tl]. intros X Y. unfold upd in Y. destruct (Nat.eqb_spec x cur); [discriminate|].
    apply (N x); [rewrite L; right; exact X|exact Y].
  - cbn in V. destruct (Nat.eqb_spec rc 0); [lia|]. destruct (_ && _); split; try exact N; exact Logic.I.
  - split; [exact N|exact Logic.I].
Qed.

Lemma nodes_prod s l1 p l2 fresh p' s' : Inv s -> prods s = l1 ++ p :: l2 -> nodes s -> prod_step cap fresh p s = Some (p', s') ->
  (forall m, In m (sent s') -> sound m) -> nodes s' /\ (flushers s' = flushers s \/ flushers s' = flushers s ++ [FLoad]) /\ dead s' = dead s.
Proof.
  intros I P N H G. assert (IP : In p (prods s)) by (rewrite P; apply in_mid; left; reflexivity). destruct p; cbn in H.
  - destruct ((cap =? 0) || may_append cap s); [|destruct last]; injection H as <- <-; auto.
  - injection H as <- <-. auto.
  - discriminate.
  - injection H as <- <-. auto.
  - destruct (mem s fresh) as [n|] eqn:M; [discriminate|]. injection H as <- <-. split; [|auto]. intros c n X Y. cbn in X, Y. unfold upd in Y.
    destruct (Nat.eqb_spec c fresh) as [->|]; [destruct (i_live _ _ I fresh X M)|]. apply (N c); assumption.
  - destruct (i_new _ _ I id IP) as (NL & m & M). rewrite M in H. injection H as <- <-. split; [|auto]. intros c n X Y. cbn in X, Y.
    apply in_app_or in X. destruct X as [X|[<-|[]]]; [apply (N c); assumption|]. rewrite M in Y. injection Y as <-. cbn. apply G. cbn. apply in_or_app.
    right. left. reflexivity.
  - destruct prev as [q|].
    + destruct (mem s q) as [n|] eqn:M; [destruct (n_next n)|]; injection H as <- <-; auto. split; [|auto]. intros c x X Y. cbn in X, Y. unfold upd in Y.
      destruct (Nat.eqb_spec c q) as [->|]; [|apply (N c); assumption]. injection Y as <-. cbn. apply (N q); assumption.
    + injection H as <- <-. auto.
  - discriminate.
Qed.
Lemma prod_sent s p fresh p' s' : prod_step cap fresh p s = Some (p', s') -> forall m, In m (sent s) -> In m (sent s').
Proof.
  destruct p; cbn; intros H x X.
  - destruct ((cap =? 0) || may_append cap s); [|destruct last]; injection H as <- <-; exact X.
  - injection H as <- <-. exact X.
  - discriminate.
  - injection H as <- <-. exact X.
  - destruct (mem s fresh); [discriminate|]. injection H as <- <-. exact X.
  - destruct (mem s id); injection H as <- <-; [cbn; apply in_or_app; left; exact X|exact X].
  - destruct prev as [q|]; [destruct (mem s q) as [n|]; [destruct (n_next n)|]|]; injection H as <- <-; exact X.
  - discriminate.
Qed.

Definition fit (s : st) : Prop := nodes s /\ forall f, In f (flushers s) -> vigour f.

Lemma own_fit s z : Inv s -> fit s -> own_step cap iovmax s z -> (forall m, In m (sent z) -> sound m) ->
  fit z /\ (dead z = dead s \/ exists h iov m, flushers s = [FWrite h iov m]).
Proof.
  intros I [N V] O G.
  destruct O as [l1 p l2 fresh p' s' P H|l1 f l2 max res again f' s' F _ M H|l1 f l2 max res again s' F M H|l1 f l2 f' s' ps F _ H Q].
  - destruct (nodes_prod s l1 p l2 fresh p' s' I P N H G) as (A & B & C). split; [|left; exact C]. split; [exact A|]. sm.
    destruct B as [-> | ->]; [exact V|]. intros f X. apply in_app_or in X. destruct X as [X|[<-|[]]]; [apply V, X|exact Logic.I].
  - destruct (single iovmax s f (flushers s) I) as (E & _); [rewrite F; apply in_mid; left; reflexivity|reflexivity|].
    rewrite E in F. symmetry in F. destruct (one_in _ _ _ _ F) as (-> & _ & ->).
    assert (VF : vigour f) by (apply V; rewrite E; left; reflexivity).
    pose proof (nodes_flush s f max res again I E N VF M) as J. rewrite H in J. destruct J as [J1 J2]. split; [split; [exact J1|]|].
    + sm. intros g [<-|[]]. exact J2.
    + left. sm. clear -H. destruct f; cbn [flush_step] in H; cbv zeta in H; repeat (match type of H with context[match ?x with _ => _ end] => destruct x end; try discriminate);
        injection H as <- <-; reflexivity.
  - destruct (single iovmax s f (flushers s) I) as (E & _); [rewrite F; apply in_mid; left; reflexivity|reflexivity|].
    rewrite E in F. symmetry in F. destruct (one_in _ _ _ _ F) as (-> & _ & ->).
    assert (VF : vigour f) by (apply V; rewrite E; left; reflexivity).
    pose proof (nodes_flush s f max res again I E N VF M) as J. rewrite H in J. destruct J as [J1 J2]. split; [split; [exact J1|]|].
    + intros g [].
    + destruct J2 as [J2|(h & iov & m & ->)]; [left; exact J2|right; eauto].
  - destruct (single iovmax s f (flushers s) I) as (E & _); [rewrite F; apply in_mid; left; reflexivity|reflexivity|].
    rewrite E in F. symmetry in F. destruct (one_in _ _ _ _ F) as (-> & _ & ->).
    assert (VF : vigour f) by (apply V; rewrite E; left; reflexivity).
    pose proof (nodes_flush s f 1 RAgain false I E N VF ltac:(lia)) as J. rewrite H in J. destruct J as [J1 J2]. split; [split; [exact J1|]|].
    + sm. intros g [<-|[]]. exact J2.
    + left. sm. clear -H. destruct f; cbn [flush_step] in H; cbv zeta in H; repeat (match type of H with context[match ?x with _ => _ end] => destruct x end; try discriminate);
        injection H as <- <-; reflexivity.
Qed.
Lemma own_sent s z : own_step cap iovmax s z -> forall m, In m (sent s) -> In m (sent z).
Proof.
  intros O. destruct O as [l1 p l2 fresh p' s' P H|l1 f l2 max res again f' s' F _ M H|l1 f l2 max res again s' F M H|l1 f l2 f' s' ps F _ H Q].
  - sm. eapply prod_sent. exact H.
  - pose proof (flush_same iovmax s f max res again) as E. rewrite H in E. destruct E as [_ E]. sm. rewrite E. auto.
  - pose proof (flush_same iovmax s f max res again) as E. rewrite H in E. destruct E as [_ E]. sm. rewrite E. auto.
  - pose proof (flush_same iovmax s f 1 RAgain false) as E. rewrite H in E. destruct E as [_ E]. sm. rewrite E. auto.
Qed.
Lemma reach_fit s : reach cap iovmax s -> (forall m, In m (sent s) -> sound m) -> fit s.
Proof.
  induction 1 as [|s z R IH H]; intros G.
  - split; [intros c n []|intros f []].
  - destruct H as [t O|m|l1 m l2 P|].
    + apply (own_fit s t); [eapply reach_inv; exact R| |exact O|exact G]. apply IH. intros m X. apply G. eapply own_sent; eassumption.
    + apply IH. exact G.
    + apply IH. exact G.
    + apply IH. exact G.
Qed.
Lemma alive s z : reach cap iovmax s -> own_step cap iovmax s z -> (forall m, In m (sent z) -> sound m) -> dead s = false -> dead z = true ->
  exists h iov m, flushers s = [FWrite h iov m].
Proof.
  intros R O G D D'. assert (Gs : forall m, In m (sent s) -> sound m) by (intros m X; apply G; eapply own_sent; eassumption).
  destruct (own_fit s z (reach_inv _ _ _ R) (reach_fit s R Gs) O G) as [_ [E|E]]; [congruence|exact E].
Qed.
End S.

(** ** What the calls do *)
Lemma calls cap fresh m last s :
  (cap = 0 \/ size s < cap \/ stopped s = true -> prod_step cap fresh (PCheck m last) s = Some (PSize m, s)) /\
  (0 < cap -> cap <= size s -> stopped s = false -> prod_step cap fresh (PCheck m last) s = Some (if last then PDone false else PSleepy m, s)) /\
  prod_step cap fresh (PSize m) s = Some (PNew m, set_size (size s + length (concat m)) s).
Proof.
  unfold prod_step, may_append. split; [|split; [|reflexivity]].
  - intros H. destruct (Nat.eqb_spec cap 0) as [|N]; [reflexivity|]. destruct (Nat.ltb_spec (size s) cap) as [|L]; [reflexivity|]. cbn [orb].
    destruct H as [H|[H|H]]; [lia|lia|]. rewrite H. reflexivity.
  - intros C L P. destruct (Nat.eqb_spec cap 0) as [|N]; [lia|]. destruct (Nat.ltb_spec (size s) cap) as [|_]; [lia|]. rewrite P. cbn. destruct last; reflexivity.
Qed.
Lemma revise_id max iov : length (concat iov) <= max -> revise max iov = iov.
Proof. intros H. unfold revise, bytes. destruct (Nat.ltb_spec max (length (concat iov))); [lia|reflexivity]. Qed.
Lemma writes iovmax max again h iov max0 s : length (concat iov) <= max0 ->
  flush_step iovmax max RAgain again (FWrite h iov max0) s = AGo FRest s /\
  flush_step iovmax max RError again (FWrite h iov max0) s = AEnd (set_dead true s) /\
  (forall n, 0 < n -> n <= length (concat iov) -> flush_step iovmax max (RWrote n) again (FWrite h iov max0) s =
     AGo (FSub h n (length (concat iov))) (set_written (written s ++ firstn n (concat iov)) s)) /\
  (forall rc total, 0 < rc -> flush_step iovmax max RAgain again (FNext rc total) s = AGo (if (rc =? total) && again then FLoad else FRest) s).
Proof.
  intros L. cbn [flush_step]. cbv zeta. rewrite (revise_id _ _ L). unfold bytes. destruct (Nat.ltb_spec max0 (length (concat iov))); [lia|].
  split; [reflexivity|]. split; [reflexivity|]. split.
  - intros n P Q. destruct (Nat.ltb_spec (length (concat iov)) n); [lia|]. destruct n; [lia|]. reflexivity.
  - intros rc total P. destruct (Nat.eqb_spec rc 0); [lia|]. destruct (_ && _); reflexivity.
Qed.
Lemma wakes cap iovmax s z h rc total : reach cap iovmax s -> own_step cap iovmax s z -> flushers s = [FSub h rc total] -> flushers z = [FRewind h rc rc total] ->
  size s - rc < cap -> existsb asleep (prods s) = true -> length (filter asleep (prods s)) = S (length (filter asleep (prods z))).
Proof.
  intros R O F FZ C A. destruct O as [l1 p l2 fresh p' s' P H|l1 f l2 max res again f' s' E B M H|l1 f l2 max res again s' E M H|l1 f l2 f' s' ps E B H Q].
  - exfalso. cbn in FZ. destruct p; cbn in H.
    + destruct ((cap =? 0) || may_append cap s); [|destruct last]; injection H as <- <-; congruence.
    + injection H as <- <-. congruence.
    + discriminate.
    + injection H as <- <-. cbn in FZ. congruence.
    + destruct (mem s fresh); [discriminate|]. injection H as <- <-. cbn in FZ. congruence.
    + destruct (mem s id); injection H as <- <-; cbn in FZ; congruence.
    + destruct prev as [q|]; [destruct (mem s q) as [n|]; [destruct (n_next n)|]|]; injection H as <- <-; cbn in FZ; try congruence.
      rewrite F in FZ. discriminate.
    + discriminate.
  - rewrite F in E. symmetry in E. destruct (one_in _ _ _ _ E) as (_ & -> & _). discriminate.
  - rewrite F in E. symmetry in E. destruct (one_in _ _ _ _ E) as (_ & -> & _). cbn [flush_step] in H. destruct (_ <? _); discriminate.
  - rewrite F in E. symmetry in E. destruct (one_in _ _ _ _ E) as (-> & -> & ->). cbn [flush_step] in H.
    destruct (size s <? rc); injection H as <- <-; [cbn in FZ; discriminate|]. cbn in Q |- *. apply Nat.ltb_lt in C. unfold Nat.ltb in C. cbn in C.
    unfold Nat.ltb in Q. cbn in Q. rewrite C in Q. destruct Q as [l N|l1 m l2].
    + exfalso. clear -N A. induction l as [|p l IH]; [discriminate|]. destruct p; cbn in *; try (apply IH; assumption). discriminate.
    + rewrite !filter_app, !app_length. cbn. lia.
Qed.
