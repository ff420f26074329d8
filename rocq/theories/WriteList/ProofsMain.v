From Coq Require Import List Arith Lia Bool.
From Verif.Lib Require Import Base.
From Verif.WriteList Require Import Model Spec Proofs ProofsAppend ProofsFlush ProofsReach.
Import ListNotations.

Section S.
Variable cap iovmax : nat.
Notation Inv := (Inv iovmax).
Notation reach := (reach cap iovmax).

Lemma order s : reach s -> is_beginning (written s) (all_bytes (sent s)).
Proof. intros R. eexists. apply (i_bytes _ _ (reach_inv _ _ _ R)). Qed.

Lemma beginning_le {A} (a b c d : list A) : a ++ b = c ++ d -> length a <= length c -> is_beginning a c.
Proof.
  revert c. induction a as [|x a IH]; intros [|y c] E L; cbn in *; try lia.
  - exists []. reflexivity.
  - exists (y :: c). reflexivity.
  - injection E as -> E. destruct (IH c E) as (r & ->); [lia|]. exists r. reflexivity.
Qed.
Lemma lb_le s l : (forall c, In c l -> length (nbuf (mem s) c) <= bytes (nmsg (mem s) c)) -> length (lb (mem s) l) <= length (all_bytes (map (nmsg (mem s)) l)).
Proof.
  induction l as [|c l IH]; intros H; [cbn; lia|]. rewrite lb_cons. cbn. rewrite !app_length. specialize (H c (or_introl eq_refl)) as Hc.
  unfold bytes in Hc. specialize (IH (fun x X => H x (or_intror X))). unfold all_bytes in IH. lia.
Qed.
Lemma finished_ok s : reach s -> is_beginning (finished s) (sent s) /\ is_beginning (all_bytes (finished s)) (written s).
Proof.
  intros R. pose proof (reach_inv _ _ _ R) as I. split; [eexists; apply (i_sent _ _ I)|].
  pose proof (i_bytes _ _ I) as B. pose proof (i_sent _ _ I) as E. change (concat (map (@concat nat) (sent s))) with (all_bytes (sent s)) in B.
  rewrite E in B. unfold all_bytes in B. rewrite map_app, concat_app in B. eapply beginning_le; [exact B|].
  assert (L : length (skipn (kf (mem s) (flushers s)) (lb (mem s) (live s))) <=
              length (all_bytes (map (nmsg (mem s)) (if popped (flushers s) then tl (live s) else live s)))).
  { destruct (popped (flushers s)) eqn:P.
    - destruct (popped_live iovmax s I P) as (c & r & LV).
      assert (K : kf (mem s) (flushers s) = length (nbuf (mem s) c)).
      { destruct (flushers s) as [|f fs] eqn:F; [discriminate|]. pose proof (i_flush _ _ I f) as FI. rewrite F in FI. specialize (FI (or_introl eq_refl)).
        destruct f; try discriminate; cbn in FI |- *.
        - destruct FI as ((r' & FI) & _). congruence.
        - destruct FI as (d & r' & FI). congruence. }
      rewrite K, LV, lb_cons, skipn_app, skipn_all, Nat.sub_diag. cbn [app skipn tl]. apply lb_le. intros x X. apply (i_msgs _ _ I). rewrite LV. right. exact X.
    - rewrite skipn_length. pose proof (lb_le s (live s) (i_msgs _ _ I)). lia. }
  apply (f_equal (@length nat)) in B. rewrite !app_length in B. unfold all_bytes in L |- *. lia.
Qed.

Lemma one_writer s : reach s -> length (flushers s) <= 1.
Proof. intros R. pose proof (i_count _ _ (reach_inv _ _ _ R)). destruct (dead s); [lia|]. destruct (live s); lia. Qed.
Lemma no_crash s : reach s -> crash s = false.
Proof. intros R. apply (i_crash _ _ (reach_inv _ _ _ R)). Qed.

Lemma total_sum l : total l = list_sum l.
Proof. induction l as [|x l IH]; [reflexivity|]. cbn. rewrite IH. reflexivity. Qed.
Lemma counted_infl s : Inv s -> total (map (counted s) (prods s)) = inflight (mem s) (prods s).
Proof.
  intros I. rewrite total_sum. unfold inflight. f_equal. apply map_ext_in. intros p P. destruct p; cbn; try reflexivity.
  destruct (i_new _ _ I id P) as (_ & m & M). unfold nbuf. rewrite M. reflexivity.
Qed.
Lemma size_ok s : reach s -> size s + length (written s) = length (all_bytes (sent s)) + total (map (counted s) (prods s)) + total (map uncounted (flushers s)).
Proof.
  intros R. pose proof (reach_inv _ _ _ R) as I. rewrite (counted_infl s I). pose proof (i_bytes _ _ I) as B. pose proof (i_size _ _ I) as Z.
  pose proof (k_le iovmax s I) as K. change (concat (map (@concat nat) (sent s))) with (all_bytes (sent s)) in B. rewrite B, app_length, skipn_length.
  assert (E : kf (mem s) (flushers s) = ks (mem s) (flushers s) + total (map uncounted (flushers s))).
  { pose proof (one_writer s R) as O. destruct (flushers s) as [|f [|? ?]]; [reflexivity| |cbn in O; lia]. destruct f; cbn; lia. }
  lia.
Qed.

Lemma no_leak s : reach s -> (forall i, mem s i <> None -> In i (live s) \/ exists p, In p (prods s) /\ holds p i) /\
  length (finished s) + length (live s) <= length (sent s) + 1.
Proof.
  intros R. split.
  - intros i N. destruct (reach_leak _ _ _ R i N) as [A|A]; [left; exact A|right]. exists (PXchg i). split; [exact A|reflexivity].
  - pose proof (i_sent _ _ (reach_inv _ _ _ R)) as E. apply (f_equal (@length msg)) in E. rewrite app_length, map_length in E.
    destruct (popped (flushers s)); destruct (live s); cbn in *; lia.
Qed.

Lemma in_split_mid {A} (x : A) l : In x l -> exists l1 l2, l = l1 ++ x :: l2.
Proof. apply in_split. Qed.

Lemma link_runs s id q : Inv s -> In (PLink id q) (prods s) -> exists s', own_step cap iovmax s s'.
Proof.
  intros I P. destruct (in_split _ _ P) as (l1 & l2 & E). destruct q as [q|].
  - destruct (i_link _ _ I id q P) as (N & a & b & L). destruct (mem s q) as [n|] eqn:M.
    + eexists. eapply (T_prod cap iovmax s l1 _ l2 0 _ _ E). cbn. rewrite M. unfold nxt in N. rewrite M in N. rewrite N. reflexivity.
    + destruct (i_live _ _ I q); [rewrite L; apply in_or_app; right; left; reflexivity|exact M].
  - eexists. eapply (T_prod cap iovmax s l1 _ l2 0 _ _ E). reflexivity.
Qed.

Lemma fresh_one s : leakless s -> Inv s -> exists i, mem s i = None.
Proof.
  intros K I. set (l := live s ++ flat_map own (prods s)). exists (S (list_max l)). destruct (mem s (S (list_max l))) eqn:M; [|reflexivity]. exfalso.
  assert (H : In (S (list_max l)) l).
  { apply in_or_app. destruct (K (S (list_max l))) as [A|A]; [congruence|left; exact A|right]. apply in_own. left. exact A. }
  pose proof (proj1 (list_max_le l (list_max l)) (le_n _)) as F. rewrite Forall_forall in F. specialize (F _ H). lia.
Qed.

Lemma prod_runs s p : reach s -> In p (prods s) -> ~ at_rest p -> exists s', own_step cap iovmax s s'.
Proof.
  intros R P N. pose proof (reach_inv _ _ _ R) as I. destruct (in_split _ _ P) as (l1 & l2 & E). destruct p.
  - destruct (prod_step cap 0 (PCheck m last) s) as [[p' s']|] eqn:H; [eexists; eapply T_prod; eassumption|].
    cbn in H. destruct ((cap =? 0) || may_append cap s); [discriminate|]. destruct last; discriminate.
  - eexists. eapply (T_prod cap iovmax s l1 _ l2 0 _ _ E). reflexivity.
  - exfalso. apply N. right. eauto.
  - eexists. eapply (T_prod cap iovmax s l1 _ l2 0 _ _ E). reflexivity.
  - destruct (fresh_one s (reach_leak _ _ _ R) I) as (i & M). eexists. eapply (T_prod cap iovmax s l1 _ l2 i _ _ E). cbn. rewrite M. reflexivity.
  - destruct (i_new _ _ I id P) as (_ & m & M). eexists. eapply (T_prod cap iovmax s l1 _ l2 0 _ _ E). cbn. rewrite M. reflexivity.
  - eapply link_runs; eassumption.
  - exfalso. apply N. left. eauto.
Qed.

Lemma notify_ex l : exists l', notify l l'.
Proof.
  destruct (forallb (fun p => negb (sleeps p)) l) eqn:E; [exists l; constructor; exact E|].
  assert (H : exists l1 m l2, l = l1 ++ PAsleep m :: l2).
  { induction l as [|p l IH]; [discriminate|]. destruct p; cbn in E; try (destruct (IH E) as (l1 & x & l2 & ->); eexists (_ :: l1), x, l2; reflexivity).
    exists [], m, l. reflexivity. }
  destruct H as (l1 & m & l2 & ->). eexists. apply notify_some.
Qed.

Lemma flush_runs s f : reach s -> In f (flushers s) -> exists s', own_step cap iovmax s s'.
Proof.
  intros R F. pose proof (reach_inv _ _ _ R) as I. destruct (in_split _ _ F) as (l1 & l2 & E). destruct (is_sub f) eqn:SU.
  - destruct f; try discriminate. destruct (flush_step iovmax 1 RAgain false (FSub h rc total) s) as [f' s'|s'|] eqn:H.
    + destruct (notify_ex (prods s)) as (ps & N). exists (set_prods (if size s' <? cap then ps else prods s) (set_flushers (l1 ++ f' :: l2) s')).
      eapply T_sub; [exact E|reflexivity|exact H|]. destruct (size s' <? cap); [exact N|reflexivity].
    + eexists. eapply (T_end cap iovmax s l1 _ l2 1); [exact E|lia|exact H].
    + cbn [flush_step] in H. destruct (_ <? _); discriminate.
  - destruct (flush_step iovmax 1 RAgain false f s) as [f' s'|s'|] eqn:H.
    + eexists. eapply (T_flush cap iovmax s l1 f l2 1); [exact E|exact SU|lia|exact H].
    + eexists. eapply (T_end cap iovmax s l1 f l2 1); [exact E|lia|exact H].
    + pose proof (i_flush _ _ I f F) as FI. destruct f; cbn [flush_step] in H; cbv zeta in H; try discriminate.
      * destruct (head s), (tail s); discriminate.
      * destruct cur; [|discriminate]. destruct (_ || _); [discriminate|]. destruct (mem s _); discriminate.
      * destruct (_ <? _); discriminate.
      * destruct (mem s cur) as [n|]; [|discriminate]. destruct (_ <=? _); [|discriminate]. destruct (n_next n); [discriminate|]. destruct (_ =? _); discriminate.
      * destruct (nat_is _ _); [|discriminate]. destruct (_ =? _); discriminate.
      * destruct (mem s cur) as [n|] eqn:M; [|discriminate]. destruct (n_next n) eqn:N; [discriminate|].
        destruct FI as (d & r & L). pose proof (i_chain _ _ I) as C. rewrite L in C. destruct C as [[C|[_ C]] _].
        -- unfold nxt in C. rewrite M in C. congruence.
        -- eapply link_runs; eassumption.
      * destruct (_ =? _); [discriminate|]. rewrite andb_false_r in H. discriminate.
Qed.

Lemma progress s : reach s -> flushers s <> [] \/ (exists p, In p (prods s) /\ ~ at_rest p) -> exists s', own_step cap iovmax s s'.
Proof.
  intros R [F|(p & P & N)]; [|eapply prod_runs; eassumption]. destruct (flushers s) as [|f fs] eqn:E; [congruence|].
  apply (flush_runs s f R). rewrite E. left. reflexivity.
Qed.

Lemma quiet s : reach s -> dead s = false -> flushers s = [] -> (forall p, In p (prods s) -> at_rest p) ->
  written s = all_bytes (sent s) /\ finished s = sent s /\ size s = 0 /\ tail s = None /\ forall i, mem s i = None.
Proof.
  intros R D F P. pose proof (reach_inv _ _ _ R) as I. pose proof (i_count _ _ I) as C. rewrite F, D in C.
  assert (C1 : filter first (prods s) = []).
  { destruct (filter first (prods s)) as [|p l] eqn:E; [reflexivity|]. assert (H : In p (filter first (prods s))) by (rewrite E; left; reflexivity).
    apply filter_In in H. destruct H as [H1 H2]. destruct (P p H1) as [(ok & ->)|(m & ->)]; discriminate. }
  rewrite C1 in C. assert (L : live s = []) by (destruct (live s); [reflexivity|discriminate]).
  pose proof (i_bytes _ _ I) as B. rewrite F, L in B. cbn in B. rewrite app_nil_r in B.
  pose proof (i_sent _ _ I) as E. rewrite F, L in E. cbn in E. rewrite app_nil_r in E.
  split; [symmetry; exact B|]. split; [symmetry; exact E|]. split; [|split].
  - pose proof (size_ok s R) as Z. rewrite F in Z. unfold all_bytes in Z. rewrite B in Z. cbn in Z.
    assert (T : total (map (counted s) (prods s)) = 0); [|lia]. revert P. generalize (prods s). induction l as [|p l IH]; intros P; [reflexivity|].
    cbn. rewrite IH by (intros q Q; apply P; right; exact Q). destruct (P p (or_introl eq_refl)) as [(ok & ->)|(m & ->)]; reflexivity.
  - rewrite (i_tail _ _ I), L. reflexivity.
  - intros i. destruct (mem s i) eqn:M; [|reflexivity]. exfalso. destruct (reach_leak _ _ _ R i) as [A|A]; [congruence|rewrite L in A; exact A|].
    destruct (P _ A) as [(ok & Q)|(m & Q)]; discriminate.
Qed.

Lemma acc_mid l1 p q l2 : accepted p = accepted q -> length (filter accepted (l1 ++ q :: l2)) = length (filter accepted (l1 ++ p :: l2)).
Proof. intros E. rewrite !filter_app, !app_length. cbn. rewrite E. destruct (accepted q); reflexivity. Qed.
Lemma acc_up l1 p q l2 : accepted p = false -> accepted q = true -> length (filter accepted (l1 ++ q :: l2)) = S (length (filter accepted (l1 ++ p :: l2))).
Proof. intros P Q. rewrite !filter_app, !app_length. cbn. rewrite P, Q. cbn. lia. Qed.
Lemma acc_waked l : filter accepted (map waked l) = filter accepted l.
Proof. induction l as [|p l IH]; [reflexivity|]. destruct p; cbn; rewrite IH; reflexivity. Qed.
Lemma flush_same s f max res again : match flush_step iovmax max res again f s with
  | AGo _ s' | AEnd s' => prods s' = prods s /\ sent s' = sent s | AWait => True end.
Proof.
  destruct f; cbn [flush_step].
  - destruct (head s), (tail s); auto.
  - destruct cur; [|auto]. destruct (_ || _); [auto|]. destruct (mem s _); auto.
  - cbv zeta. destruct (_ <? _); [auto|]. destruct res; auto. destruct (_ <? _); [auto|]. destruct (_ && _); auto.
  - destruct (_ <? _); auto.
  - destruct (mem s cur) as [n|]; [|auto]. destruct (_ <=? _); [|auto]. cbv zeta. destruct (n_next n); [auto|]. destruct (_ =? _); auto.
  - destruct (nat_is _ _); [|auto]. destruct (_ =? _); auto.
  - destruct (mem s cur) as [n|]; [|auto]. destruct (n_next n); auto.
  - destruct (_ =? _); [auto|]. destruct (_ && _); auto.
  - auto.
Qed.
Lemma accepted_ok s : reach s -> length (sent s) = length (filter accepted (prods s)).
Proof.
  induction 1 as [|s z R IH H]; [reflexivity|]. destruct H as [t O|m|l1 m l2 P|]; sm.
  - destruct O as [l1 p l2 fresh p' s' P H|l1 f l2 max res again f' s' F _ M H|l1 f l2 max res again s' F M H|l1 f l2 f' s' ps F _ H N]; sm.
    + rewrite P in IH. destruct p; cbn in H.
      * destruct ((cap =? 0) || may_append cap s); [|destruct last]; injection H as <- <-; rewrite IH; symmetry; apply acc_mid; reflexivity.
      * injection H as <- <-. rewrite IH. symmetry. apply acc_mid. reflexivity.
      * discriminate.
      * injection H as <- <-. cbn. rewrite IH. symmetry. apply acc_mid. reflexivity.
      * destruct (mem s fresh); [discriminate|]. injection H as <- <-. cbn. rewrite IH. symmetry. apply acc_mid. reflexivity.
      * destruct (i_new _ _ (reach_inv _ _ _ R) id) as (_ & m & M); [rewrite P; apply in_mid; left; reflexivity|]. rewrite M in H. injection H as <- <-. sm.
        rewrite app_length, IH, (acc_up l1 (PXchg id) (PLink id (tail s))) by reflexivity. cbn [length]. lia.
      * destruct prev as [q|]; [destruct (mem s q) as [n|]; [destruct (n_next n)|]|]; injection H as <- <-; cbn; rewrite IH; symmetry; apply acc_mid; reflexivity.
      * discriminate.
    + pose proof (flush_same s f max res again) as E. rewrite H in E. destruct E as [E1 E2]. congruence.
    + pose proof (flush_same s f max res again) as E. rewrite H in E. destruct E as [E1 E2]. congruence.
    + pose proof (flush_same s f 1 RAgain false) as E. rewrite H in E. destruct E as [E1 E2]. rewrite E2, IH.
      destruct (size s' <? cap); [|rewrite N; reflexivity]. destruct N; [reflexivity|]. symmetry. apply acc_mid. reflexivity.
  - rewrite filter_app, app_length. cbn. rewrite Nat.add_0_r. exact IH.
  - rewrite IH, P. symmetry. apply acc_mid. reflexivity.
  - rewrite acc_waked. exact IH.
Qed.
End S.
