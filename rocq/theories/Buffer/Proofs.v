(** Proofs about NoncontiguousBuffer: block operations and the multi-buffer refinement. *)
From Verif.Lib Require Import Base Bytes ListX.
From Verif.Buffer Require Import Model Spec Machine.
Local Open Scope nat_scope.


Lemma wf_empty : nb_wf nb_empty.
Proof. split; [reflexivity|constructor]. Qed.

Lemma nonempty_pos {A} (l : list A) : l <> [] -> 0 < length l.
Proof. destruct l; simpl; [congruence|lia]. Qed.

Lemma wf_size0_blocks b : nb_wf b -> byte_size b = 0 -> blocks b = [].
Proof.
  intros [Hs Hf] H0. unfold content in Hs. destruct (blocks b) as [|x r]; auto.
  inversion Hf as [|? ? Hx Hr]; subst. simpl in Hs. rewrite app_length in Hs.
  apply nonempty_pos in Hx. lia.
Qed.

Lemma skip_slow_cons b r n :
  n <> 0 -> skip_slow (b :: r) n =
  if Nat.min n (length b) =? length b then skip_slow r (n - Nat.min n (length b))
  else Ok (skipn (Nat.min n (length b)) b :: r).
Proof. destruct n; [lia|reflexivity]. Qed.

Lemma cut_loop_cons b r n rc :
  n <> 0 -> cut_loop (b :: r) n rc =
  if length b <=? n then cut_loop r (n - length b) (rc ++ [b])
  else Ok (rc ++ [firstn n b], skipn n b :: r).
Proof. destruct n; [lia|reflexivity]. Qed.

Lemma flatten_loop_cons b r n :
  n <> 0 -> flatten_loop (b :: r) n =
  firstn (Nat.min n (length b)) b ++ flatten_loop r (n - Nat.min n (length b)).
Proof. destruct n; [lia|reflexivity]. Qed.

Lemma skip_slow_spec bs n :
  n <= length (concat bs) ->
  exists bs', skip_slow bs n = Ok bs' /\ concat bs' = skipn n (concat bs) /\
    (Forall (fun l : block => l <> []) bs -> Forall (fun l : block => l <> []) bs').
Proof.
  revert n; induction bs as [|b r IH]; intros n Hn.
  - simpl in Hn. replace n with 0 by lia. exists []. repeat split; auto.
  - destruct (Nat.eq_dec n 0) as [->|Hn0].
    { exists (b :: r). simpl. repeat split; auto. }
    rewrite skip_slow_cons by auto.
    simpl concat in *. rewrite app_length in Hn.
    destruct (Nat.min n (length b) =? length b) eqn:E.
    + apply Nat.eqb_eq in E. rewrite E.
      destruct (IH (n - length b)) as (bs' & H1 & H2 & H3); [lia|].
      exists bs'. split; [exact H1|]. split.
      * rewrite H2, skipn_length_app by lia. reflexivity.
      * intros Hf. inversion Hf; subst; auto.
    + apply Nat.eqb_neq in E. replace (Nat.min n (length b)) with n by lia.
      eexists; split; [reflexivity|]. split.
      * simpl. rewrite skipn_lt_app by lia. reflexivity.
      * intros Hf. inversion Hf; subst. constructor; auto.
        intros Hnil. apply (f_equal (@length _)) in Hnil. rewrite skipn_length in Hnil.
        simpl in Hnil. lia.
Qed.

Lemma nb_skip_spec b n :
  nb_wf b -> n <= byte_size b ->
  exists b', nb_skip b n = Ok b' /\ content b' = skipn n (content b) /\ nb_wf b'.
Proof.
  intros [Hs Hf] Hn. unfold nb_skip.
  destruct (n =? 0) eqn:E0.
  { apply Nat.eqb_eq in E0. subst n. exists b. repeat split; auto. }
  apply Nat.eqb_neq in E0. unfold content in *.
  destruct (blocks b) as [|x r] eqn:Eb.
  { simpl in Hs. lia. }
  destruct (n <? length x) eqn:E1.
  - apply Nat.ltb_lt in E1. eexists; split; [reflexivity|]. simpl.
    split; [rewrite skipn_lt_app by lia; reflexivity|].
    split; simpl.
    + unfold content; simpl. rewrite app_length, skipn_length.
      simpl in Hs. rewrite app_length in Hs. lia.
    + inversion Hf; subst. constructor; auto.
      intros Hnil. apply (f_equal (@length _)) in Hnil. rewrite skipn_length in Hnil.
      simpl in Hnil. lia.
  - destruct (skip_slow_spec (x :: r) n) as (bs' & H1 & H2 & H3); [lia|].
    rewrite H1. simpl bind. eexists; split; [reflexivity|]. simpl blocks.
    split; [exact H2|]. split; [|auto].
    unfold content; simpl blocks. simpl byte_size. rewrite H2, skipn_length. lia.
Qed.

Lemma cut_loop_spec bs n rc :
  n <= length (concat bs) ->
  exists a r, cut_loop bs n rc = Ok (rc ++ a, r) /\
    concat a = firstn n (concat bs) /\ concat r = skipn n (concat bs) /\
    (Forall (fun l : block => l <> []) bs ->
     Forall (fun l : block => l <> []) a /\ Forall (fun l : block => l <> []) r).
Proof.
  revert n rc; induction bs as [|b r IH]; intros n rc Hn.
  - simpl in Hn. replace n with 0 by lia. exists [], []. simpl.
    rewrite app_nil_r. repeat split; auto.
  - destruct (Nat.eq_dec n 0) as [->|Hn0].
    { exists [], (b :: r). simpl. rewrite app_nil_r. repeat split; auto. }
    rewrite cut_loop_cons by auto.
    simpl concat in *. rewrite app_length in Hn.
    destruct (length b <=? n) eqn:E.
    + apply Nat.leb_le in E.
      destruct (IH (n - length b) (rc ++ [b])) as (a & r' & H1 & H2 & H3 & H4); [lia|].
      exists (b :: a), r'. rewrite H1. split.
      { rewrite <- app_assoc. reflexivity. }
      split. { simpl. rewrite H2, firstn_length_app by lia. reflexivity. }
      split. { rewrite H3, skipn_length_app by lia. reflexivity. }
      intros Hf. inversion Hf; subst. destruct (H4 H6). split; auto.
    + apply Nat.leb_gt in E.
      exists [firstn n b], (skipn n b :: r). split; [reflexivity|].
      split. { simpl concat. rewrite app_nil_r, firstn_lt_app by lia. reflexivity. }
      split. { simpl concat. rewrite skipn_lt_app by lia. reflexivity. }
      intros Hf. inversion Hf; subst. split.
      * constructor; auto. intros Hnil. apply (f_equal (@length _)) in Hnil.
        rewrite firstn_length in Hnil. simpl in Hnil. lia.
      * constructor; auto. intros Hnil. apply (f_equal (@length _)) in Hnil.
        rewrite skipn_length in Hnil. simpl in Hnil. lia.
Qed.

Lemma nb_cut_spec b n :
  nb_wf b -> n <= byte_size b ->
  exists rc b', nb_cut b n = Ok (rc, b') /\
    content rc = firstn n (content b) /\ content b' = skipn n (content b) /\
    nb_wf rc /\ nb_wf b'.
Proof.
  intros Hwf Hn. unfold nb_cut. destruct Hwf as [Hs Hf].
  destruct (n =? byte_size b) eqn:E.
  - apply Nat.eqb_eq in E. exists b, nb_empty. split; [reflexivity|].
    rewrite firstn_all2 by lia. rewrite skipn_all2 by lia.
    repeat split; auto using wf_empty; try constructor.
  - unfold content in *.
    destruct (cut_loop_spec (blocks b) n []) as (a & r & H1 & H2 & H3 & H4); [lia|].
    rewrite H1. simpl. do 2 eexists; split; [reflexivity|]. simpl.
    destruct (H4 Hf) as [Ha Hr].
    split; [exact H2|]. split; [exact H3|].
    split; (split; [unfold content; simpl|assumption]).
    + rewrite H2, firstn_length. lia.
    + rewrite H3, skipn_length. lia.
Qed.

Lemma nb_append_block_spec b l :
  nb_wf b -> l <> [] ->
  content (nb_append_block b l) = content b ++ l /\ nb_wf (nb_append_block b l).
Proof.
  intros [Hs Hf] Hl. unfold content, nb_append_block in *; simpl.
  rewrite concat_app. simpl. rewrite app_nil_r. split; auto.
  split; simpl.
  - unfold content; simpl. rewrite concat_app; simpl. rewrite app_nil_r, app_length. lia.
  - apply Forall_app; split; auto.
Qed.

Lemma nb_append_contiguous_spec b l :
  nb_wf b ->
  content (nb_append_contiguous b l) = content b ++ l /\ nb_wf (nb_append_contiguous b l).
Proof.
  intros H. unfold nb_append_contiguous. destruct l as [|x l]; simpl length.
  - simpl. rewrite app_nil_r. auto.
  - simpl Nat.eqb. cbv iota. apply nb_append_block_spec; [auto|discriminate].
Qed.

Lemma nb_append_spec b c :
  nb_wf b -> nb_wf c -> content (nb_append b c) = content b ++ content c /\ nb_wf (nb_append b c).
Proof.
  intros [Hs Hf] [Hs' Hf']. unfold content, nb_append in *; simpl.
  rewrite concat_app. split; auto.
  split; simpl.
  - unfold content; simpl. rewrite concat_app, app_length. lia.
  - apply Forall_app; auto.
Qed.

Lemma nb_clear_spec b : nb_wf b -> nb_clear b = nb_empty.
Proof.
  intros H. unfold nb_clear, nb_is_empty.
  destruct (byte_size b =? 0) eqn:E; auto.
  apply Nat.eqb_eq in E. pose proof (wf_size0_blocks b H E) as Hb.
  destruct b as [bs sz]; simpl in *. subst. reflexivity.
Qed.

Lemma nb_move_assign_spec d s :
  nb_wf d -> nb_move_assign d s = Ok (s, nb_empty).
Proof.
  intros H. unfold nb_move_assign. rewrite nb_clear_spec by auto. simpl.
  destruct s; reflexivity.
Qed.

Lemma nb_copy_assign_spec d s : nb_wf d -> nb_copy_assign d s = s.
Proof.
  intros H. unfold nb_copy_assign. rewrite nb_clear_spec by auto. simpl. destruct s; reflexivity.
Qed.

(** ** Refinement of the multi-buffer machine. *)
Definition refines (m : mstate) (s : sstate) : Prop :=
  forall k, nb_wf (m k) /\ content (m k) = s k.

Lemma upd_same {A} (f : nat -> A) i v : upd f i v i = v.
Proof. unfold upd. rewrite Nat.eqb_refl. reflexivity. Qed.

Lemma upd_cases {A} (f : nat -> A) i v k :
  (k = i /\ upd f i v k = v) \/ (k <> i /\ upd f i v k = f k).
Proof. unfold upd. destruct (Nat.eqb_spec k i); auto. Qed.

Lemma refines_upd m s i b l :
  refines m s -> nb_wf b -> content b = l -> refines (upd m i b) (upd s i l).
Proof.
  intros H Hw Hc k. unfold upd. destruct (k =? i); auto.
Qed.

Lemma refines_size m s i : refines m s -> byte_size (m i) = length (s i).
Proof. intros H. destruct (H i) as [[Hs _] Hc]. rewrite <- Hc. exact Hs. Qed.

Lemma m_step_refines m s o s' :
  refines m s -> spec_step s o = Some s' -> exists m', m_step m o = Ok m' /\ refines m' s'.
Proof.
  intros HR Hs. destruct o as [i l|i l|i j|i n|i n j|i|i j|i j]; simpl in *.
  - destruct l as [|x l]; [discriminate|]. inversion Hs; subst; clear Hs.
    eexists; split; [reflexivity|].
    destruct (HR i) as [Hw Hc].
    destruct (nb_append_block_spec (m i) (x :: l) Hw ltac:(discriminate)) as [H1 H2].
    apply refines_upd; auto. rewrite H1, Hc. reflexivity.
  - inversion Hs; subst; clear Hs. eexists; split; [reflexivity|].
    destruct (HR i) as [Hw Hc].
    destruct (nb_append_contiguous_spec (m i) l Hw) as [H1 H2].
    apply refines_upd; auto. rewrite H1, Hc. reflexivity.
  - inversion Hs; subst; clear Hs. eexists; split; [reflexivity|].
    assert (HR1 : refines (upd m j nb_empty) (upd s j [])).
    { apply refines_upd; auto using wf_empty. }
    destruct (HR j) as [Hwj Hcj].
    destruct (HR1 i) as [Hwi Hci].
    destruct (nb_append_spec _ _ Hwi Hwj) as [H1 H2].
    apply refines_upd; auto. rewrite H1, Hci, Hcj. reflexivity.
  - destruct (n <=? length (s i)) eqn:E; [|discriminate]. inversion Hs; subst; clear Hs.
    apply Nat.leb_le in E. destruct (HR i) as [Hw Hc].
    destruct (nb_skip_spec (m i) n Hw) as (b' & H1 & H2 & H3).
    { rewrite (refines_size m s) by auto. lia. }
    rewrite H1. simpl. eexists; split; [reflexivity|].
    apply refines_upd; auto. rewrite H2, Hc. reflexivity.
  - destruct (n <=? length (s i)) eqn:E; [|discriminate]. inversion Hs; subst; clear Hs.
    apply Nat.leb_le in E. destruct (HR i) as [Hw Hc].
    destruct (nb_cut_spec (m i) n Hw) as (rc & b' & H1 & H2 & H3 & H4 & H5).
    { rewrite (refines_size m s) by auto. lia. }
    rewrite H1. simpl.
    assert (HR1 : refines (upd m i b') (upd s i (skipn n (s i)))).
    { apply refines_upd; auto. rewrite H3, Hc. reflexivity. }
    rewrite nb_move_assign_spec by apply HR1. simpl.
    eexists; split; [reflexivity|].
    apply refines_upd; auto. rewrite H2, Hc. reflexivity.
  - inversion Hs; subst; clear Hs. eexists; split; [reflexivity|].
    rewrite nb_clear_spec by apply HR. apply refines_upd; auto using wf_empty.
  - inversion Hs; subst; clear Hs. destruct (Nat.eqb_spec i j) as [->|Hij].
    + eexists; split; [reflexivity|]. intros k. destruct (upd_cases s j (s j) k) as [[-> ->]|[_ ->]]; apply HR.
    + eexists; split; [reflexivity|]. rewrite nb_copy_assign_spec by apply HR.
      destruct (HR j). apply refines_upd; auto.
  - destruct (i =? j) eqn:Eij.
    + inversion Hs; subst; clear Hs. eexists; split; [reflexivity|]. exact HR.
    + inversion Hs; subst; clear Hs. rewrite nb_move_assign_spec by apply HR. simpl.
      eexists; split; [reflexivity|]. destruct (HR j).
      apply refines_upd; auto using wf_empty. apply refines_upd; auto.
Qed.

Lemma m_run_refines ops m s s' :
  refines m s -> spec_run s ops = Some s' -> exists m', m_run m ops = Ok m' /\ refines m' s'.
Proof.
  revert m s; induction ops as [|o r IH]; intros m s HR Hs; simpl in *.
  - inversion Hs; subst. exists m; auto.
  - destruct (spec_step s o) as [s1|] eqn:E; [|discriminate].
    destruct (m_step_refines m s o s1 HR E) as (m1 & H1 & H2).
    rewrite H1. simpl. eauto.
Qed.

(** ** Flattening. *)
Lemma flatten_loop_spec bs n : flatten_loop bs n = firstn n (concat bs).
Proof.
  revert n; induction bs as [|b r IH]; intros n.
  - destruct n; reflexivity.
  - destruct (Nat.eq_dec n 0) as [->|Hn0]; [reflexivity|].
    rewrite flatten_loop_cons by auto. rewrite IH. simpl concat.
    destruct (Nat.le_gt_cases (length b) n) as [H|H].
    + rewrite Nat.min_r by lia. rewrite firstn_all, firstn_length_app by lia. reflexivity.
    + rewrite Nat.min_l by lia. replace (n - n) with 0 by lia. simpl firstn at 2.
      rewrite app_nil_r, firstn_lt_app by lia. reflexivity.
Qed.

Lemma flatten_slow_spec b m :
  byte_size b = length (content b) -> flatten_slow b m = at_most m (content b).
Proof.
  intros Hs. unfold flatten_slow, at_most. rewrite flatten_loop_spec. fold (content b).
  destruct m as [m|].
  - rewrite Hs. rewrite <- firstn_firstn. rewrite firstn_all. reflexivity.
  - rewrite Hs. apply firstn_all.
Qed.

Lemma flatten_to_slow_spec b n :
  nb_wf b -> n <= byte_size b -> 0 < byte_size b ->
  flatten_to_slow b n = Ok (firstn n (content b)).
Proof.
  intros [Hs Hf] Hn H0. unfold flatten_to_slow, nb_first_contiguous, flatten_to_slow_slow.
  rewrite flatten_loop_spec. fold (content b).
  unfold content in *. destruct (blocks b) as [|x r] eqn:Eb; simpl in *; [lia|].
  destruct (n <=? length x) eqn:E.
  - apply Nat.leb_le in E. rewrite firstn_lt_app by lia. reflexivity.
  - replace (n <=? byte_size b) with true by (symmetry; apply Nat.leb_le; lia). reflexivity.
Qed.
