(** Substring facts: the library find, and FlattenSlowUntil. *)
From Verif.Lib Require Import Base Bytes ListX.
From Verif.Buffer Require Import Model Spec Machine Proofs.
Local Open Scope nat_scope.

Lemma prefixb_spec p s : prefixb p s = true <-> exists c, s = p ++ c.
Proof.
  revert s; induction p as [|a p IH]; intros s; simpl.
  - split; eauto.
  - destruct s as [|c s].
    + split; [discriminate|]. intros [c H]. discriminate.
    + destruct (byte_eqb_spec a c) as [->|Hne]; simpl.
      * rewrite IH. split; intros [x H]; exists x; congruence.
      * split; [discriminate|]. intros [x H]. congruence.
Qed.

Lemma occurs_prefixb p s k :
  occurs_at p s k <-> k <= length s /\ prefixb p (skipn k s) = true.
Proof.
  rewrite prefixb_spec. split.
  - intros (a & c & -> & <-). rewrite !app_length. split; [lia|].
    exists c. rewrite skipn_exact_app; auto.
  - intros [Hk [c H]]. exists (firstn k s), c. split.
    + rewrite <- H. symmetry. apply firstn_skipn.
    + rewrite firstn_length. lia.
Qed.

Lemma occurs_length p s k : occurs_at p s k -> k + length p <= length s.
Proof. intros (a & c & -> & <-). rewrite !app_length. lia. Qed.

(** Occurrence in a prefix. *)
Lemma occurs_app_l p s t k : occurs_at p s k -> occurs_at p (s ++ t) k.
Proof.
  intros (a & c & -> & <-). exists a, (c ++ t). split; auto. rewrite <- !app_assoc. reflexivity.
Qed.

Lemma occurs_app_inv p s t k :
  occurs_at p (s ++ t) k -> k + length p <= length s -> occurs_at p s k.
Proof.
  intros (a & c & H & <-) Hl. exists a, (skipn (length a + length p) s). split; auto.
  rewrite <- (firstn_skipn (length a + length p) s) at 1.
  rewrite app_assoc. f_equal.
  assert (E : firstn (length a + length p) (s ++ t) = firstn (length a + length p) (a ++ p ++ c)).
  { rewrite H. reflexivity. }
  rewrite firstn_lt_app in E by lia. rewrite E. rewrite app_assoc.
  apply firstn_exact_app. rewrite app_length. reflexivity.
Qed.

Lemma str_find_aux_spec s d pos :
  match str_find_aux s d pos with
  | Some k => pos <= k /\ occurs_at d s (k - pos) /\
              (forall k', k' < k - pos -> ~ occurs_at d s k')
  | None => forall k', ~ occurs_at d s k'
  end.
Proof.
  revert pos; induction s as [|c s IH]; intros pos; cbn [str_find_aux].
  - destruct (prefixb d []) eqn:E.
    + split; [lia|]. replace (pos - pos) with 0 by lia. split.
      * apply occurs_prefixb. simpl. auto.
      * lia.
    + intros k' H. apply occurs_prefixb in H. simpl in H. destruct H as [Hk H].
      replace k' with 0 in H by lia. simpl in H. congruence.
  - destruct (prefixb d (c :: s)) eqn:E.
    + split; [lia|]. replace (pos - pos) with 0 by lia. split.
      * apply occurs_prefixb. simpl. split; [lia|auto].
      * lia.
    + specialize (IH (S pos)).
      assert (Hs : forall k', occurs_at d (c :: s) (S k') <-> occurs_at d s k').
      { intros k'. rewrite !occurs_prefixb. simpl. intuition lia. }
      assert (H0 : ~ occurs_at d (c :: s) 0).
      { intros H. apply occurs_prefixb in H. simpl in H. destruct H. congruence. }
      destruct (str_find_aux s d (S pos)) as [k|].
      * destruct IH as (Hk & Ho & Hn). split; [lia|].
        replace (k - pos) with (S (k - S pos)) by lia. split.
        -- apply Hs. exact Ho.
        -- intros [|k'] Hlt; auto. rewrite Hs. apply Hn. lia.
      * intros [|k']; auto. rewrite Hs. apply IH.
Qed.

Lemma occurs_skipn d s n k : n <= length s -> occurs_at d (skipn n s) k <-> occurs_at d s (n + k).
Proof.
  intros Hn. rewrite !occurs_prefixb, skipn_length, skipn_skipn_add. intuition lia.
Qed.

Lemma str_find_spec s d from :
  from <= length s ->
  match str_find s d from with
  | Some k => from <= k /\ occurs_at d s k /\ (forall k', from <= k' < k -> ~ occurs_at d s k')
  | None => forall k', from <= k' -> ~ occurs_at d s k'
  end.
Proof.
  intros Hf. unfold str_find. replace (from <=? length s) with true by (symmetry; apply Nat.leb_le; lia).
  pose proof (str_find_aux_spec (skipn from s) d from) as H.
  destruct (str_find_aux (skipn from s) d from) as [k|].
  - destruct H as (Hk & Ho & Hn). split; auto. split.
    + apply occurs_skipn in Ho; auto. replace (from + (k - from)) with k in Ho by lia. exact Ho.
    + intros k' Hk' Hx. apply (Hn (k' - from)); [lia|].
      apply occurs_skipn; auto. replace (from + (k' - from)) with k' by lia. exact Hx.
  - intros k' Hk' Hx. apply (H (k' - from)). apply occurs_skipn; auto.
    replace (from + (k' - from)) with k' by lia. exact Hx.
Qed.

Lemma str_find_first s d :
  match str_find s d 0 with
  | Some k => first_occurrence d s k
  | None => forall k, ~ occurs_at d s k
  end.
Proof.
  pose proof (str_find_spec s d 0 ltac:(lia)) as H. destruct (str_find s d 0).
  - destruct H as (_ & H1 & H2). split; auto. intros k' Hk'. apply H2. lia.
  - intros k. apply H. lia.
Qed.

Lemma first_occurrence_unique p s k1 k2 :
  first_occurrence p s k1 -> first_occurrence p s k2 -> k1 = k2.
Proof.
  intros [H1 N1] [H2 N2]. destruct (Nat.lt_trichotomy k1 k2) as [H|[H|H]]; auto.
  - exfalso; eapply N2; eauto.
  - exfalso; eapply N1; eauto.
Qed.

Lemma first_occurrence_dec p s :
  (exists k, first_occurrence p s k) \/ (forall k, ~ occurs_at p s k).
Proof.
  pose proof (str_find_first s p). destruct (str_find s p 0); eauto.
Qed.

Lemma first_occurrence_app p s t k :
  first_occurrence p s k -> first_occurrence p (s ++ t) k.
Proof.
  intros [H N]. split; [apply occurs_app_l; auto|].
  intros k' Hk' Ho. apply (N k' Hk'). eapply occurs_app_inv; eauto.
  apply occurs_length in H. lia.
Qed.

(** The loop of FlattenSlowUntil, with [rc] = bytes accumulated so far. *)
Definition lim (m : option nat) (l : list byte) : list byte := at_most m l.

Lemma at_most_app m (a c : list byte) :
  match m with Some n => n <= length a | None => False end -> at_most m (a ++ c) = at_most m a.
Proof. destruct m as [n|]; simpl; [|tauto]. intros H. apply firstn_lt_app. auto. Qed.

Lemma until_loop_spec bs d m rc :
  (forall k, ~ occurs_at d rc k) ->
  (forall k, first_occurrence d (rc ++ concat bs) k ->
     at_most m (until_loop bs d m rc) = at_most m (firstn (k + length d) (rc ++ concat bs))) /\
  ((forall k, ~ occurs_at d (rc ++ concat bs) k) ->
     at_most m (until_loop bs d m rc) = at_most m (rc ++ concat bs)).
Proof.
  revert rc; induction bs as [|b r IH]; intros rc Hno.
  - simpl. rewrite app_nil_r. split; auto.
    intros k [Ho _]. exfalso. eapply Hno; eauto.
  - cbn [until_loop concat].
    destruct (match m with Some m0 => length rc <? m0 | None => true end) eqn:Em.
    + set (from := length rc - Nat.min (length rc) (length d)).
      assert (Hfrom : from <= length (rc ++ b)) by (unfold from; rewrite app_length; lia).
      pose proof (str_find_spec (rc ++ b) d from Hfrom) as Hf.
      assert (Hlow : forall k, k < from -> ~ occurs_at d (rc ++ b) k).
      { intros k Hk Ho. apply (Hno k). eapply occurs_app_inv; eauto. unfold from in Hk. lia. }
      destruct (str_find (rc ++ b) d from) as [pos|].
      * destruct Hf as (H1 & H2 & H3).
        assert (Hfirst : first_occurrence d (rc ++ b) pos).
        { split; auto. intros k' Hk'. destruct (Nat.lt_ge_cases k' from); auto. }
        rewrite app_assoc. split.
        -- intros k Hk. pose proof (first_occurrence_app d (rc ++ b) (concat r) pos Hfirst) as Hx.
           rewrite (first_occurrence_unique _ _ _ _ Hk Hx).
           rewrite (firstn_lt_app (rc ++ b)) by (apply occurs_length; auto). reflexivity.
        -- intros Hk. exfalso. eapply Hk. apply occurs_app_l. eauto.
      * rewrite app_assoc. apply IH.
        intros k Ho. destruct (Nat.lt_ge_cases k from).
        -- eapply Hlow; eauto.
        -- eapply Hf; eauto.
    + destruct m as [mm|]; [|discriminate]. apply Nat.ltb_ge in Em. split.
      * intros k [Ho Hn]. unfold at_most.
        assert (length rc < k + length d).
        { destruct (Nat.lt_ge_cases (length rc) (k + length d)); auto. exfalso.
          eapply Hno. eapply occurs_app_inv; eauto. }
        rewrite firstn_firstn. replace (Nat.min mm (k + length d)) with mm by lia.
        rewrite firstn_lt_app by lia. reflexivity.
      * intros _. symmetry. apply at_most_app. exact Em.
Qed.

Lemma flatten_slow_until_spec b d m :
  nb_wf b ->
  exists r, flatten_slow_until b d m = Ok r /\
  (forall k, first_occurrence d (content b) k -> r = at_most m (firstn (k + length d) (content b))) /\
  ((forall k, ~ occurs_at d (content b) k) -> r = at_most m (content b)).
Proof.
  intros Hwf. unfold flatten_slow_until, nb_is_empty.
  destruct (byte_size b =? 0) eqn:E0.
  - apply Nat.eqb_eq in E0. destruct Hwf as [Hs Hf].
    assert (Hc : content b = []) by (apply nil_length_inv; lia).
    exists []. split; auto. rewrite Hc. split; intros.
    + rewrite firstn_nil. destruct m; simpl; auto. rewrite firstn_nil; auto.
    + destruct m; simpl; auto. rewrite firstn_nil; auto.
  - apply Nat.eqb_neq in E0. pose proof Hwf as [Hs Hf].
    unfold nb_first_contiguous, content in *. destruct (blocks b) as [|x bs] eqn:Eb.
    { simpl in Hs. lia. }
    cbn [bind]. pose proof (str_find_first x d) as Hx.
    destruct (str_find x d 0) as [pos|].
    + eexists; split; [reflexivity|]. split.
      * intros k Hk. simpl concat in *.
        rewrite (first_occurrence_unique _ _ _ _ Hk (first_occurrence_app _ _ _ _ Hx)).
        assert (pos + length d <= length x) by (apply occurs_length; apply Hx).
        rewrite firstn_lt_app with (l1 := x) by auto.
        destruct m as [mm|]; simpl; auto. rewrite firstn_firstn, Nat.min_comm. reflexivity.
      * intros Hk. exfalso. eapply Hk. simpl. apply occurs_app_l. apply Hx.
    + eexists; split; [reflexivity|].
      assert (Hnil : forall k, ~ occurs_at d [] k).
      { intros k Ho. pose proof (occurs_length _ _ _ Ho) as Hl. simpl in Hl.
        apply (Hx k). replace x with ([] ++ x) by reflexivity. apply occurs_app_l. auto. }
      destruct (until_loop_spec (x :: bs) d m [] Hnil) as [H1 H2].
      assert (Hr : match m with
                   | Some m0 => if m0 <? length (until_loop (x :: bs) d m [])
                                then firstn m0 (until_loop (x :: bs) d m [])
                                else until_loop (x :: bs) d m []
                   | None => until_loop (x :: bs) d m []
                   end = at_most m (until_loop (x :: bs) d m [])).
      { destruct m as [mm|]; simpl at_most; auto.
        destruct (mm <? _) eqn:E; auto. apply Nat.ltb_ge in E. rewrite firstn_all2; auto. }
      rewrite Hr. split; [intros k Hk; apply H1; exact Hk|intros Hk; apply H2; exact Hk].
Qed.
