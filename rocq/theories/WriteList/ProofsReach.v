From Coq Require Import List Arith Lia Bool.
From Verif.Lib Require Import Base.
From Verif.WriteList Require Import Model Spec Proofs ProofsAppend ProofsFlush.
Import ListNotations.

Section S.
Variable cap iovmax : nat.
Notation Inv := (Inv iovmax).

Lemma one_in {A} (l1 : list A) x l2 y : l1 ++ x :: l2 = [y] -> l1 = [] /\ x = y /\ l2 = [].
Proof. destruct l1 as [|z [|? ?]]; cbn; intros H; try discriminate. injection H as -> ->. auto. Qed.
Lemma same_prods s ps : same s (set_prods ps s).
Proof. repeat split. Qed.
Lemma filter_mid {A} (f : A -> bool) l1 p q l2 : f p = false -> f q = false -> filter f (l1 ++ q :: l2) = filter f (l1 ++ p :: l2).
Proof. intros P Q. rewrite !filter_app. cbn. rewrite P, Q. reflexivity. Qed.

Lemma calm s l1 p q l2 : Inv s -> prods s = l1 ++ p :: l2 -> act p = false -> act q = false -> infl (mem s) p = infl (mem s) q ->
  Inv (set_prods (l1 ++ q :: l2) s).
Proof.
  intros I P A B E. apply (inert iovmax s); [exact I|apply same_prods| |].
  - sm. rewrite P. apply filter_mid; assumption.
  - sm. rewrite P, !inflight_mid, E. reflexivity.
Qed.

Lemma prod_inv s l1 p l2 fresh p' s' : Inv s -> prods s = l1 ++ p :: l2 -> prod_step cap fresh p s = Some (p', s') -> Inv (set_prods (l1 ++ p' :: l2) s').
Proof.
  intros I P H. assert (IP : In p (prods s)) by (rewrite P; apply in_mid; left; reflexivity). destruct p; cbn in H.
  - destruct ((cap =? 0) || may_append cap s); [|destruct last]; injection H as <- <-; eapply calm; eauto.
  - injection H as <- <-. eapply calm; eauto.
  - discriminate.
  - injection H as <- <-. apply (inert iovmax s); [exact I|repeat split| |].
    + sm. rewrite P. apply filter_mid; reflexivity.
    + sm. rewrite P, !inflight_mid. cbn. lia.
  - destruct (mem s fresh) as [n|] eqn:M; [discriminate|]. injection H as <- <-. apply (step_new iovmax s l1 m l2); assumption.
  - destruct (i_new _ _ I id IP) as (_ & m & M). rewrite M in H. injection H as <- <-.
    apply (step_xchg iovmax s l1 id l2 _ I P M).
  - destruct prev as [q|].
    + destruct (i_link _ _ I id q IP) as (N & a & b & L). destruct (mem s q) as [n|] eqn:M.
      * unfold nxt in N. rewrite M in N. rewrite N in H. injection H as <- <-. apply (step_link iovmax s l1 id q l2 n); assumption.
      * destruct (i_live _ _ I q); [rewrite L; apply in_or_app; right; left; reflexivity|exact M].
    + injection H as <- <-. apply (step_first iovmax s l1 id l2); assumption.
  - discriminate.
Qed.

Lemma waked_act ps : filter act (map waked ps) = filter act ps.
Proof. induction ps as [|p ps IH]; [reflexivity|]. destruct p; cbn; rewrite IH; reflexivity. Qed.
Lemma waked_infl m ps : inflight m (map waked ps) = inflight m ps.
Proof. unfold inflight. rewrite map_map. f_equal. apply map_ext. intros []; reflexivity. Qed.
Lemma notify_act a b : notify a b -> filter act b = filter act a.
Proof. intros []; [reflexivity|]. apply filter_mid; reflexivity. Qed.
Lemma notify_infl m a b : notify a b -> inflight m b = inflight m a.
Proof. intros []; [reflexivity|]. rewrite !inflight_mid. reflexivity. Qed.
Lemma notify_own a b : notify a b -> flat_map own b = flat_map own a.
Proof. intros []; [reflexivity|]. rewrite !flat_map_app. reflexivity. Qed.

Lemma step_inv s z : Inv s -> step cap iovmax s z -> Inv z.
Proof.
  intros I [t O|m|l1 m l2 P|].
  - destruct O as [l1 p l2 fresh p' s' P H|l1 f l2 max res again f' s' F _ M H|l1 f l2 max res again s' F M H|l1 f l2 f' s' ps F _ H N].
    + eapply prod_inv; eassumption.
    + destruct (single iovmax s f (flushers s) I) as (E & _); [rewrite F; apply in_mid; left; reflexivity|reflexivity|].
      rewrite E in F. symmetry in F. destruct (one_in _ _ _ _ F) as (-> & _ & ->).
      pose proof (flush_inv iovmax s f max res again I E M) as J. rewrite H in J. exact J.
    + destruct (single iovmax s f (flushers s) I) as (E & _); [rewrite F; apply in_mid; left; reflexivity|reflexivity|].
      rewrite E in F. symmetry in F. destruct (one_in _ _ _ _ F) as (-> & _ & ->).
      pose proof (flush_inv iovmax s f max res again I E M) as J. rewrite H in J. exact J.
    + destruct (single iovmax s f (flushers s) I) as (E & _); [rewrite F; apply in_mid; left; reflexivity|reflexivity|].
      rewrite E in F. symmetry in F. destruct (one_in _ _ _ _ F) as (-> & _ & ->).
      pose proof (flush_inv iovmax s f 1 RAgain false I E ltac:(lia)) as J. rewrite H in J. cbn [after_inv app] in J |- *.
      assert (PE : prods s' = prods s).
      { destruct f; cbn in H; try discriminate. all: repeat (match type of H with context[match ?x with _ => _ end] => destruct x end; try discriminate).
        all: injection H as <- <-; reflexivity. }
      apply (inert iovmax (set_flushers [f'] s')); [exact J|repeat split| |]; sm; rewrite PE; destruct (size s' <? cap).
      * apply notify_act, N.
      * rewrite N. reflexivity.
      * rewrite (notify_infl _ _ _ N). reflexivity.
      * rewrite N. reflexivity.
  - apply (inert iovmax s); [exact I|apply same_prods| |]; sm.
    + rewrite filter_app. cbn. apply app_nil_r.
    + rewrite inflight_app. cbn. lia.
  - eapply calm; eauto.
  - apply (inert iovmax s); [exact I|repeat split| |]; sm.
    + apply waked_act.
    + rewrite waked_infl. reflexivity.
Qed.

Lemma new_inv : Inv st_new.
Proof.
  constructor; cbn; try reflexivity; try (intros; contradiction); try (intros; discriminate); try constructor.
Qed.

Lemma reach_inv s : reach cap iovmax s -> Inv s.
Proof. induction 1 as [|s s' R IH H]; [apply new_inv|]. eapply step_inv; eassumption. Qed.

(** ** Nothing leaks. *)
Definition leakless (s : st) : Prop := forall i, mem s i <> None -> In i (live s) \/ In (PXchg i) (prods s).

Lemma leak_prods s ps : leakless s -> (forall i, In (PXchg i) (prods s) -> In (PXchg i) ps) -> forall s', mem s' = mem s -> live s' = live s -> prods s' = ps -> leakless s'.
Proof. intros L H s' M E P i N. rewrite M in N. rewrite E, P. destruct (L i N) as [A|A]; [left; exact A|right; auto]. Qed.
Lemma mid_keep {A} (x p q : A) l1 l2 : x <> p -> In x (l1 ++ p :: l2) -> In x (l1 ++ q :: l2).
Proof. intros N H. apply in_mid. apply in_mid in H. destruct H; [contradiction|right; assumption]. Qed.

Lemma leak_prod s l1 p l2 fresh p' s' : leakless s -> Inv s -> prods s = l1 ++ p :: l2 -> prod_step cap fresh p s = Some (p', s') -> leakless (set_prods (l1 ++ p' :: l2) s').
Proof.
  intros K I P H. assert (IP : In p (prods s)) by (rewrite P; apply in_mid; left; reflexivity). destruct p; cbn in H.
  - destruct ((cap =? 0) || may_append cap s); [|destruct last]; injection H as <- <-;
      (eapply leak_prods; [exact K| |reflexivity|reflexivity|reflexivity]; intros i; rewrite P; apply mid_keep; discriminate).
  - injection H as <- <-. eapply leak_prods; [exact K| |reflexivity|reflexivity|reflexivity]; intros i; rewrite P; apply mid_keep; discriminate.
  - discriminate.
  - injection H as <- <-. eapply leak_prods; [exact K| |reflexivity|reflexivity|reflexivity]; intros i; rewrite P; apply mid_keep; discriminate.
  - destruct (mem s fresh) as [n|] eqn:M; [discriminate|]. injection H as <- <-. intros i N. sm. cbn in N.
    destruct (Nat.eq_dec i fresh) as [->|Q]; [right; apply in_mid; left; reflexivity|]. rewrite upd_other in N by exact Q.
    destruct (K i N) as [A|A]; [left; exact A|right]. rewrite P in A. revert A. apply mid_keep. discriminate.
  - destruct (i_new _ _ I id IP) as (_ & m & M). rewrite M in H. injection H as <- <-. intros i N. cbn in N. sm.
    destruct (Nat.eq_dec i id) as [->|Q]; [left; apply in_or_app; right; left; reflexivity|].
    destruct (K i N) as [A|A]; [left; apply in_or_app; left; exact A|right]. rewrite P in A. revert A. apply mid_keep. congruence.
  - destruct prev as [q|].
    + destruct (i_link _ _ I id q IP) as (N & a & b & L). destruct (mem s q) as [n|] eqn:M.
      * unfold nxt in N. rewrite M in N. rewrite N in H. injection H as <- <-. intros i Y. cbn in Y. sm.
        assert (Y' : mem s i <> None) by (destruct (Nat.eq_dec i q) as [->|Q]; [congruence|]; rewrite upd_other in Y by exact Q; exact Y).
        destruct (K i Y') as [A|A]; [left; exact A|right]. rewrite P in A. revert A. apply mid_keep. discriminate.
      * destruct (i_live _ _ I q); [rewrite L; apply in_or_app; right; left; reflexivity|exact M].
    + injection H as <- <-. eapply leak_prods; [exact K| |reflexivity|reflexivity|reflexivity]; intros i; rewrite P; apply mid_keep; discriminate.
  - discriminate.
Qed.

Definition after_leak (a : after) : Prop := match a with AGo f' s' => leakless s' | AEnd s' => leakless s' | AWait => True end.
Lemma leak_pop s c r x : leakless s -> live s = c :: r -> mem x = upd (mem s) c None -> live x = r -> prods x = prods s -> leakless x.
Proof.
  intros K L M E P i N. rewrite M in N. rewrite E, P. destruct (Nat.eq_dec i c) as [->|Q]; [rewrite upd_same in N; congruence|].
  rewrite upd_other in N by exact Q. destruct (K i N) as [A|A]; [|right; exact A]. rewrite L in A. destruct A as [A|A]; [congruence|left; exact A].
Qed.
Lemma leak_flush s f max res again : leakless s -> Inv s -> flushers s = [f] -> after_leak (flush_step iovmax max res again f s).
Proof.
  intros K I F. pose proof (i_flush _ _ I f) as FI. rewrite F in FI. specialize (FI (or_introl eq_refl)). destruct f; cbn [flush_step].
  - destruct (head s), (tail s); exact K.
  - destruct cur; [|exact K]. destruct (_ || _); [exact K|]. destruct (mem s _); exact K.
  - cbv zeta. destruct (_ <? _); [exact K|]. destruct res; try exact K. destruct (_ <? _); [exact Logic.I|]. destruct (_ && _); exact K.
  - destruct (_ <? _); exact K.
  - destruct FI as ((r & L) & _). destruct (mem s cur) as [n|] eqn:M; [|exact K]. destruct (_ <=? _).
    + cbv zeta. destruct (n_next n) as [d|].
      * cbn. eapply (leak_pop s cur r); try eassumption; try reflexivity. cbn. rewrite L. reflexivity.
      * destruct (_ =? _); exact K.
    + cbn. intros i N. sm. cbn in N. apply K. destruct (Nat.eq_dec i cur) as [->|Q]; [congruence|]. rewrite upd_other in N by exact Q. exact N.
  - destruct FI as ((r & L) & _). destruct (nat_is _ _); [|exact K]. destruct (_ =? _); [|exact K].
    cbn. eapply (leak_pop s cur r); try eassumption; try reflexivity. cbn. rewrite L. reflexivity.
  - destruct FI as (d & r & L). destruct (mem s cur) as [n|] eqn:M; [|exact K]. destruct (n_next n); [|exact Logic.I].
    cbn. eapply (leak_pop s cur (d :: r)); try eassumption; try reflexivity. cbn. rewrite L. reflexivity.
  - destruct (_ =? _); [exact K|]. destruct (_ && _); exact K.
  - exact K.
Qed.

Lemma own_fx i ps ps' : flat_map own ps' = flat_map own ps -> filter act ps' = filter act ps -> In (PXchg i) ps -> In (PXchg i) ps'.
Proof. intros _ F H. apply (act_in (PXchg i)) in H; [|reflexivity]. apply (act_in (PXchg i)); [reflexivity|]. rewrite F. exact H. Qed.

Lemma leak_step s z : leakless s -> Inv s -> step cap iovmax s z -> leakless z.
Proof.
  intros K I [t O|m|l1 m l2 P|].
  - destruct O as [l1 p l2 fresh p' s' P H|l1 f l2 max res again f' s' F _ M H|l1 f l2 max res again s' F M H|l1 f l2 f' s' ps F _ H N].
    + eapply leak_prod; eassumption.
    + destruct (single iovmax s f (flushers s) I) as (E & _); [rewrite F; apply in_mid; left; reflexivity|reflexivity|].
      pose proof (leak_flush s f max res again K I E) as J. rewrite H in J. exact J.
    + destruct (single iovmax s f (flushers s) I) as (E & _); [rewrite F; apply in_mid; left; reflexivity|reflexivity|].
      pose proof (leak_flush s f max res again K I E) as J. rewrite H in J. exact J.
    + destruct (single iovmax s f (flushers s) I) as (E & _); [rewrite F; apply in_mid; left; reflexivity|reflexivity|].
      pose proof (leak_flush s f 1 RAgain false K I E) as J. rewrite H in J. cbn [after_leak] in J.
      assert (PE : prods s' = prods s).
      { destruct f; cbn in H; try discriminate. all: repeat (match type of H with context[match ?x with _ => _ end] => destruct x end; try discriminate).
        all: injection H as <- <-; reflexivity. }
      eapply leak_prods; [exact J| |reflexivity|reflexivity|reflexivity]. intros i. sm. rewrite PE. destruct (size s' <? cap).
      * apply own_fx; [apply notify_own, N|apply notify_act, N].
      * rewrite N. auto.
  - eapply leak_prods; [exact K| |reflexivity|reflexivity|reflexivity]. intros i H. apply in_or_app. left. exact H.
  - eapply leak_prods; [exact K| |reflexivity|reflexivity|reflexivity]. intros i. rewrite P. apply mid_keep. discriminate.
  - eapply (leak_prods s (map waked (prods s))); [exact K| |reflexivity|reflexivity|reflexivity]. intros i H. apply (act_in (PXchg i)) in H; [|reflexivity].
    apply (act_in (PXchg i)); [reflexivity|]. rewrite waked_act. exact H.
Qed.
Lemma reach_leak s : reach cap iovmax s -> leakless s.
Proof. induction 1 as [|s s' R IH H]; [intros i N; destruct (N eq_refl)|]. eapply leak_step; [exact IH|apply reach_inv, R|exact H]. Qed.
End S.
