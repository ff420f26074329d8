(** The lemmas the property file refers to. *)
From Verif.Lib Require Import Base Bytes ListX.
From Verif.Buffer Require Import Model Spec Machine Proofs ProofsFind ProofsStreams ProofsSearch.
Local Open Scope nat_scope.

Lemma refines_empty : refines (fun _ => nb_empty) (fun _ => []).
Proof. intros k. split; [apply wf_empty|reflexivity]. Qed.

Lemma buffer_refines ops s' :
  spec_run (fun _ => []) ops = Some s' ->
  exists m', m_run (fun _ => nb_empty) ops = Ok m' /\
    forall k, content (m' k) = s' k /\ byte_size (m' k) = length (s' k) /\
              flatten_slow (m' k) None = s' k /\ nb_wf (m' k).
Proof.
  intros H. destruct (m_run_refines ops _ _ s' refines_empty H) as (m' & H1 & H2).
  exists m'. split; auto. intros k. destruct (H2 k) as [Hw Hc].
  pose proof Hw as [Hs _]. split; auto. split; [congruence|]. split; auto.
  rewrite flatten_slow_spec by auto. exact Hc.
Qed.

(** Every layout without empty blocks is reachable. *)
Lemma layout_reachable (i : nat) (bs : list block) :
  Forall (fun l : block => l <> []) bs ->
  exists m', m_run (fun _ => nb_empty) (map (OpAppendBlock i) bs) = Ok m' /\ blocks (m' i) = bs.
Proof.
  intros _.
  assert (H : forall m, exists m', m_run m (map (OpAppendBlock i) bs) = Ok m' /\
            blocks (m' i) = blocks (m i) ++ bs).
  { induction bs as [|x r IH]; intros m.
    - exists m. simpl. rewrite app_nil_r. auto.
    - simpl. destruct (IH (upd m i (nb_append_block (m i) x))) as (m' & H1 & H2).
      exists m'. split; auto. rewrite H2. rewrite upd_same. simpl.
      rewrite <- app_assoc. reflexivity. }
  destruct (H (fun _ => nb_empty)) as (m' & H1 & H2). exists m'. auto.
Qed.

Lemma skip_slow_over bs n :
  length (concat bs) < n -> skip_slow bs n = UB.
Proof.
  revert n; induction bs as [|b r IH]; intros n Hn.
  - destruct n; [lia|reflexivity].
  - simpl in Hn. rewrite app_length in Hn. rewrite skip_slow_cons by lia.
    rewrite Nat.min_r by lia. rewrite Nat.eqb_refl. apply IH. lia.
Qed.

Lemma cut_loop_over bs n rc :
  length (concat bs) < n -> cut_loop bs n rc = UB.
Proof.
  revert n rc; induction bs as [|b r IH]; intros n rc Hn.
  - destruct n; [lia|reflexivity].
  - simpl in Hn. rewrite app_length in Hn. rewrite cut_loop_cons by lia.
    replace (length b <=? n) with true by (symmetry; apply Nat.leb_le; lia).
    apply IH. lia.
Qed.

Lemma past_end_undefined b n :
  nb_wf b -> length (content b) < n -> nb_skip b n = UB /\ nb_cut b n = UB.
Proof.
  intros [Hs Hf] Hn. unfold content in *. split.
  - unfold nb_skip. replace (n =? 0) with false by (symmetry; apply Nat.eqb_neq; lia).
    destruct (blocks b) as [|x r] eqn:E; auto.
    simpl in Hn. rewrite app_length in Hn.
    replace (n <? length x) with false by (symmetry; apply Nat.ltb_ge; lia).
    rewrite skip_slow_over; auto. simpl. rewrite app_length. lia.
  - unfold nb_cut. replace (n =? byte_size b) with false by (symmetry; apply Nat.eqb_neq; lia).
    rewrite cut_loop_over; auto.
Qed.

Lemma builder_exact bmax ops :
  0 < bmax -> Forall (bd_op_legal bmax) ops ->
  exists b0 b, bd_new bmax = Ok b0 /\ bd_run bmax b0 ops = Ok b /\
    content (fst (bd_destructive_get b)) = concat (map bd_op_bytes ops) /\
    nb_wf (fst (bd_destructive_get b)) /\
    bd_byte_size b = length (concat (map bd_op_bytes ops)).
Proof.
  intros Hb Hl. destruct (bd_new_spec bmax Hb) as (b0 & H1 & H2 & H3).
  destruct (bd_run_spec bmax Hb b0 ops H2 Hl) as (b & G1 & G2 & G3).
  exists b0, b. rewrite H3 in G3. simpl in G3.
  destruct (bd_destructive_get_spec bmax b G2) as [D1 D2].
  split; auto. split; auto. split; [congruence|]. split; auto.
  rewrite (bd_byte_size_spec bmax Hb b G2). congruence.
Qed.

Lemma create_slow_exact bmax s :
  0 < bmax -> exists b, create_buffer_slow bmax s = Ok b /\ content b = s /\ nb_wf b.
Proof.
  intros Hb. unfold create_buffer_slow.
  destruct (bd_new_spec bmax Hb) as (b0 & H1 & H2 & H3). rewrite H1. cbn [bind].
  destruct (bd_append_spec bmax Hb b0 s H2) as (b1 & G1 & G2 & G3). rewrite G1. cbn [bind].
  destruct (bd_destructive_get_spec bmax b1 G2) as [D1 D2].
  eexists; split; [reflexivity|]. split; auto. rewrite D1, G3, H3. reflexivity.
Qed.

Lemma flatten_exact b m :
  nb_wf b ->
  flatten_slow b None = content b /\ flatten_slow b (Some m) = firstn m (content b) /\
  (m <= length (content b) -> content b <> [] -> flatten_to_slow b m = Ok (firstn m (content b))).
Proof.
  intros Hw. pose proof Hw as [Hs _].
  split; [apply (flatten_slow_spec b None); auto|].
  split; [apply (flatten_slow_spec b (Some m)); auto|].
  intros Hm Hne. apply flatten_to_slow_spec; auto; [lia|].
  rewrite Hs. apply nonempty_pos; auto.
Qed.

(** Traces consume a prefix. *)
Lemma in_trace_consumed s p l es p' :
  in_trace s p l es p' -> p <= length s ->
  consumed s (firstn p s) es = firstn p' s /\ p' <= length s.
Proof.
  induction 1 as [p l|p l c es p' Hc Hf Ht IH|p l es p' Hp Ht IH|p l n es p' Hn Ht IH
                 |p l n es p' Hn Ht IH|p l n es p' Hn Ht IH]; intros Hle; simpl.
  - auto.
  - assert (Hl : p + length c <= length s).
    { assert (H : length c <= length (skipn p s)) by (rewrite <- Hf, firstn_length; lia).
      rewrite skipn_length in H. lia. }
    assert (E : firstn p s ++ c = firstn (p + length c) s).
    { rewrite <- Hf at 1. clear. revert s; induction p as [|p IH]; intros s; simpl.
      - reflexivity.
      - destruct s; simpl; [rewrite firstn_nil; reflexivity|]. f_equal. apply IH. }
    rewrite E. apply IH. exact Hl.
  - apply IH. exact Hle.
  - rewrite firstn_firstn, firstn_length. rewrite (Nat.min_l p) by lia.
    rewrite Nat.min_l by lia. apply IH. lia.
  - rewrite firstn_length, Nat.min_l by lia.
    assert (E : firstn p s ++ firstn n (skipn p s) = firstn (p + n) s).
    { clear. revert s; induction p as [|p IH]; intros s; simpl.
      - reflexivity.
      - destruct s; simpl; [rewrite firstn_nil; reflexivity|]. f_equal. apply IH. }
    rewrite E. apply IH. exact Hn.
  - apply IH. exact Hle.
Qed.

Lemma input_stream_exact b ops :
  nb_wf b ->
  exists i es p, is_run (is_new b) ops = Ok (i, es) /\
    in_trace (content b) 0 0 es p /\ p <= length (content b) /\
    consumed (content b) [] es = firstn p (content b) /\ is_read i = p /\
    exists i', is_pending i = Ok i' /\ content (is_buf i') = skipn p (content b).
Proof.
  intros Hw. destruct (is_run_spec (content b) ops _ 0 (is_new_at b Hw)) as (i & es & p & H1 & H2 & H3).
  change (is_skip (is_new b)) with 0 in H2.
  destruct (in_trace_consumed _ _ _ _ _ H2 ltac:(lia)) as [H4 H5].
  exists i, es, p. split; auto. split; auto. split; auto. split; auto.
  split; [apply H3|].
  destruct (is_pending_at _ _ _ H3) as (i' & G1 & (_ & _ & _ & G2 & _ & _) & G3).
  exists i'. split; auto. rewrite G2, G3. f_equal. lia.
Qed.

Lemma input_stream_read_all b :
  nb_wf b -> exists i, is_read_all (S (length (content b))) (is_new b) = Ok (i, content b).
Proof.
  intros Hw. destruct (is_read_all_spec (content b) (S (length (content b))) _ 0 (is_new_at b Hw)) as (i & H & _).
  - lia.
  - exists i. exact H.
Qed.

Lemma output_stream_exact bmax ops :
  0 < bmax ->
  exists b0 o sizes o', bd_new bmax = Ok b0 /\ os_run bmax (mk_os b0 []) ops = Ok (o, sizes) /\
    Forall (fun k => 0 < k) sizes /\ os_flush bmax o = Ok o' /\
    content (fst (bd_destructive_get (os_bd o'))) = out_written [] [] ops sizes.
Proof.
  intros Hb. destruct (bd_new_spec bmax Hb) as (b0 & H1 & H2 & H3).
  assert (Ho : os_wf bmax (mk_os b0 [])) by (split; [auto|simpl; lia]).
  destruct (os_run_spec bmax Hb ops _ Ho) as (o & sizes & G1 & G2 & G3 & G4).
  destruct (os_flush_spec bmax Hb o G2) as (o' & F1 & F2 & F3 & F4).
  exists b0, o, sizes, o'. split; auto. split; auto. split; auto. split; auto.
  destruct F2 as [F2 _]. destruct (bd_destructive_get_spec bmax _ F2) as [D1 _].
  rewrite D1, F4, G4. simpl. rewrite H3. reflexivity.
Qed.

Lemma output_stream_write_string bmax l :
  0 < bmax ->
  exists b0 o o', bd_new bmax = Ok b0 /\ os_write_string bmax (length l) (mk_os b0 []) l = Ok o /\
    os_flush bmax o = Ok o' /\
    content (fst (bd_destructive_get (os_bd o'))) = l.
Proof.
  intros Hb. destruct (bd_new_spec bmax Hb) as (b0 & H1 & H2 & H3).
  assert (Ho : os_wf bmax (mk_os b0 [])) by (split; [auto|simpl; lia]).
  destruct (os_write_string_spec bmax Hb (length l) _ l Ho ltac:(lia)) as (o & G1 & G2 & G4).
  destruct (os_flush_spec bmax Hb o G2) as (o' & F1 & F2 & F3 & F4).
  exists b0, o, o'. split; auto. split; auto. split; auto.
  destruct F2 as [F2 _]. destruct (bd_destructive_get_spec bmax _ F2) as [D1 _].
  rewrite D1, F4, G4. unfold os_content. simpl. rewrite H3. reflexivity.
Qed.

(** Findings. *)
Lemma find_empty_block :
  exists garbage pat b,
    byte_size b = length (concat (blocks b)) /\ pat <> [] /\
    occurs_at pat (concat (blocks b)) 0 /\ nb_find garbage pat b = UB.
Proof.
  exists Byte.x00, [Byte.x61; Byte.x62],
    (nb_append_block (nb_append_block (nb_append_block nb_empty [Byte.x61]) []) [Byte.x62]).
  split; [reflexivity|]. split; [discriminate|]. split; [|vm_compute; reflexivity].
  exists [], []. split; reflexivity.
Qed.

Lemma find_underread :
  exists pat p, p < length pat - 1 /\ suffix_length pat p = S p.
Proof. exists [Byte.x61; Byte.x61], 0. split; [simpl; lia|reflexivity]. Qed.

Lemma move_assign_empty_block :
  exists dst src, byte_size dst = length (concat (blocks dst)) /\ nb_move_assign dst src = Abort.
Proof. exists (nb_append_block nb_empty []), nb_empty. split; reflexivity. Qed.

Lemma input_stream_empty_block :
  exists b, byte_size b = length (concat (blocks b)) /\
    forall n, is_read_all n (is_new b) = NoFuel.
Proof.
  exists (nb_append_block (nb_append_block nb_empty []) [Byte.x61]). split; [reflexivity|].
  intros n. unfold is_new. simpl.
  generalize 0 at 2 as r. induction n as [|n IH]; intros r; [reflexivity|].
  cbn [is_read_all]. unfold is_next, is_pending. simpl.
  rewrite (IH (r + 0)). reflexivity.
Qed.

Lemma byte_count_pending :
  exists bmax b0 o sizes, 0 < bmax /\ bd_new bmax = Ok b0 /\
    os_run bmax (mk_os b0 []) [WNext (fun _ => Byte.x61)] = Ok (o, sizes) /\
    os_byte_count o = 0 /\ 0 < length (out_written [] [] [WNext (fun _ => Byte.x61)] sizes).
Proof.
  exists 4. eexists. eexists. eexists. split; [lia|]. split; [reflexivity|].
  split; [reflexivity|]. split; [reflexivity|]. simpl. lia.
Qed.

Lemma builder_reuse_after_get :
  exists bmax b0 b1, 0 < bmax /\ bd_new bmax = Ok b0 /\ bd_append bmax b0 [Byte.x61] = Ok b1 /\
    bd_append bmax (snd (bd_destructive_get b1)) [Byte.x62] = UB.
Proof.
  exists 4. eexists. eexists. split; [lia|]. split; [reflexivity|]. split; reflexivity.
Qed.
