(** Proofs about the builder and the zero-copy streams. *)
From Verif.Lib Require Import Base Bytes ListX.
From Verif.Buffer Require Import Model Spec Machine Proofs.
Local Open Scope nat_scope.

Section B.
  Variable bmax : nat.
  Hypothesis bmax_pos : 0 < bmax.

  (** The bytes a builder has accumulated. *)
  Definition bd_content (b : builder) : list byte :=
    content (bd_nb b) ++ match bd_cur b with Some l => l | None => [] end.

  (** Between calls the current block exists and has room for at least one byte. *)
  Definition bd_wf (b : builder) : Prop :=
    nb_wf (bd_nb b) /\ exists l, bd_cur b = Some l /\ length l < bmax.

  Lemma bd_new_spec : exists b, bd_new bmax = Ok b /\ bd_wf b /\ bd_content b = [].
  Proof.
    eexists; split; [reflexivity|]. split; [|reflexivity].
    split; [apply wf_empty|]. exists []. split; auto.
  Qed.

  Lemma bd_flush_init b :
    nb_wf (bd_nb b) -> (exists l, bd_cur b = Some l /\ length l <= bmax /\ l <> []) ->
    exists b', bd_init_next bmax (bd_flush b) = Ok b' /\ bd_wf b' /\
               bd_content b' = bd_content b /\ bd_cur b' = Some [].
  Proof.
    intros Hw (l & Hl & Hlen & Hne). unfold bd_flush. rewrite Hl.
    destruct l as [|x l]; [congruence|]. simpl length. simpl Nat.eqb. cbv iota.
    unfold bd_init_next; simpl. eexists; split; [reflexivity|].
    destruct (nb_append_block_spec (bd_nb b) (x :: l) Hw Hne) as [H1 H2].
    split; [split; [exact H2|exists []; auto]|]. split; [|reflexivity].
    unfold bd_content; simpl. rewrite H1, Hl, app_nil_r. reflexivity.
  Qed.

  Lemma bd_write_spec b w :
    bd_wf b -> length w <= bd_avail bmax b ->
    exists b', bd_write bmax b w = Ok b' /\ bd_wf b' /\ bd_content b' = bd_content b ++ w.
  Proof.
    intros [Hw (l & Hl & Hlen)] Hav. unfold bd_write. rewrite Hl.
    replace (bd_avail bmax b <? length w) with false by (symmetry; apply Nat.ltb_ge; lia).
    unfold bd_avail, bd_used in Hav. rewrite Hl in Hav.
    assert (Hc : bd_content {| bd_nb := bd_nb b; bd_cur := Some (l ++ w) |} = bd_content b ++ w).
    { unfold bd_content; simpl. rewrite Hl, app_assoc. reflexivity. }
    destruct (bd_avail bmax _ =? 0) eqn:E.
    - apply Nat.eqb_eq in E. unfold bd_avail, bd_used in E; simpl in E. rewrite app_length in E.
      destruct (bd_flush_init {| bd_nb := bd_nb b; bd_cur := Some (l ++ w) |}) as (b' & H1 & H2 & H3 & _).
      + exact Hw.
      + exists (l ++ w). split; auto. rewrite app_length. split; [lia|].
        intros Hnil. apply (f_equal (@length _)) in Hnil. rewrite app_length in Hnil. simpl in Hnil. lia.
      + exists b'. split; auto. split; auto. congruence.
    - apply Nat.eqb_neq in E. unfold bd_avail, bd_used in E; simpl in E. rewrite app_length in E.
      eexists; split; [reflexivity|]. split; auto. split; auto.
      exists (l ++ w). split; auto. rewrite app_length. lia.
  Qed.

  Lemma bd_avail_pos b : bd_wf b -> 0 < bd_avail bmax b.
  Proof. intros [_ (l & Hl & Hlen)]. unfold bd_avail, bd_used. rewrite Hl. lia. Qed.

  Lemma bd_reserve_spec b w :
    bd_wf b -> length w <= bmax ->
    exists b', bd_reserve bmax b w = Ok b' /\ bd_wf b' /\ bd_content b' = bd_content b ++ w.
  Proof.
    intros Hwf Hw. unfold bd_reserve.
    replace (bmax <? length w) with false by (symmetry; apply Nat.ltb_ge; lia).
    destruct (bd_avail bmax b <? length w) eqn:E.
    - apply Nat.ltb_lt in E. pose proof Hwf as [Hn (l & Hl & Hlen)].
      destruct (bd_flush_init b) as (b1 & H1 & H2 & H3 & H4); auto.
      { exists l. split; auto. split; [lia|]. intros ->. unfold bd_avail, bd_used in E.
        rewrite Hl in E. simpl in E. lia. }
      rewrite H1. simpl bind.
      destruct (bd_write_spec b1 w H2) as (b2 & G1 & G2 & G3).
      { unfold bd_avail, bd_used. rewrite H4. simpl. lia. }
      exists b2. split; auto. split; auto. congruence.
    - apply Nat.ltb_ge in E. simpl bind. apply bd_write_spec; auto.
  Qed.

  Lemma bd_append_slow_spec fuel b l :
    bd_wf b -> length l <= fuel ->
    exists b', bd_append_slow bmax fuel b l = Ok b' /\ bd_wf b' /\ bd_content b' = bd_content b ++ l.
  Proof.
    revert b l; induction fuel as [|f IH]; intros b l Hwf Hf.
    - destruct l; [|simpl in Hf; lia]. exists b. rewrite app_nil_r. auto.
    - destruct l as [|x l]; [exists b; rewrite app_nil_r; auto|].
      cbn [bd_append_slow]. remember (x :: l) as w eqn:Ew.
      assert (Hpos : 0 < length w) by (subst; simpl; lia).
      remember (Nat.min (length w) (bd_avail bmax b)) as c eqn:Ec.
      pose proof (bd_avail_pos b Hwf) as Hap.
      destruct (bd_write_spec b (firstn c w) Hwf) as (b1 & H1 & H2 & H3).
      { rewrite firstn_length. lia. }
      rewrite H1. cbn [bind].
      destruct (IH b1 (skipn c w) H2) as (b2 & G1 & G2 & G3).
      { rewrite skipn_length. lia. }
      exists b2. split; auto. split; auto. rewrite G3, H3, <- app_assoc, firstn_skipn. reflexivity.
  Qed.

  Lemma bd_append_spec b l :
    bd_wf b ->
    exists b', bd_append bmax b l = Ok b' /\ bd_wf b' /\ bd_content b' = bd_content b ++ l.
  Proof.
    intros Hwf. destruct l as [|x l]; [exists b; rewrite app_nil_r; auto|].
    unfold bd_append. remember (x :: l) as w eqn:Ew.
    pose proof Hwf as [Hn (c & Hc & Hlen)]. rewrite Hc.
    destruct (length c + length w <? bmax) eqn:E.
    - apply Nat.ltb_lt in E. eexists. split; [destruct w; [discriminate|reflexivity]|]. split.
      + split; auto. exists (c ++ w). split; auto. rewrite app_length. lia.
      + unfold bd_content; simpl. rewrite Hc, app_assoc. reflexivity.
    - destruct (bd_append_slow_spec (length w) b w Hwf) as (b' & H); [lia|].
      exists b'. destruct w; [discriminate|]. exact H.
  Qed.

  Lemma bd_append_char_spec b c :
    bd_wf b ->
    exists b', bd_append_char bmax b c = Ok b' /\ bd_wf b' /\ bd_content b' = bd_content b ++ [c].
  Proof.
    intros Hwf. apply bd_write_spec; auto. simpl. pose proof (bd_avail_pos b Hwf). lia.
  Qed.

  Lemma bd_append_each_spec b ls :
    bd_wf b ->
    exists b', bd_append_each bmax b ls = Ok b' /\ bd_wf b' /\ bd_content b' = bd_content b ++ concat ls.
  Proof.
    revert b; induction ls as [|l r IH]; intros b Hwf; simpl.
    - exists b. rewrite app_nil_r. auto.
    - destruct (bd_append_spec b l Hwf) as (b1 & H1 & H2 & H3). rewrite H1. simpl.
      destruct (IH b1 H2) as (b2 & G1 & G2 & G3). exists b2. split; auto. split; auto.
      rewrite G3, H3, <- app_assoc. reflexivity.
  Qed.

  Lemma bd_append_multi_spec b ls :
    bd_wf b ->
    exists b', bd_append_multi bmax b ls = Ok b' /\ bd_wf b' /\ bd_content b' = bd_content b ++ concat ls.
  Proof.
    intros Hwf. unfold bd_append_multi. pose proof Hwf as [Hn (c & Hc & Hlen)]. rewrite Hc.
    destruct (length c + length (concat ls) <? bmax) eqn:E.
    - apply Nat.ltb_lt in E. eexists; split; [reflexivity|]. split.
      + split; auto. exists (c ++ concat ls). split; auto. rewrite app_length. lia.
      + unfold bd_content; simpl. rewrite Hc, app_assoc. reflexivity.
    - apply bd_append_each_spec; auto.
  Qed.

  Lemma bd_append_nb_spec b nb :
    bd_wf b -> nb_wf nb ->
    exists b', bd_append_nb bmax b nb = Ok b' /\ bd_wf b' /\ bd_content b' = bd_content b ++ content nb.
  Proof.
    intros Hwf Hnb. unfold bd_append_nb. pose proof Hwf as [Hn (c & Hc & Hlen)].
    assert (H : exists b1, (if bd_used b =? 0 then Ok b else bd_init_next bmax (bd_flush b)) = Ok b1 /\
                bd_wf b1 /\ bd_content b1 = bd_content b /\ bd_cur b1 = Some []).
    { unfold bd_used. rewrite Hc. destruct c as [|x c].
      - simpl. exists b. auto.
      - simpl Nat.eqb. cbv iota. apply bd_flush_init; auto. exists (x :: c).
        split; auto. split; [lia|discriminate]. }
    destruct H as (b1 & H1 & H2 & H3 & H4). rewrite H1. simpl bind.
    destruct H2 as [H2 _]. destruct (nb_append_spec (bd_nb b1) nb H2 Hnb) as [G1 G2].
    eexists; split; [reflexivity|]. split.
    - split; auto. exists []. simpl. auto.
    - rewrite <- H3. unfold bd_content; simpl. rewrite G1, H4. rewrite !app_nil_r. reflexivity.
  Qed.

  Lemma bd_destructive_get_spec b :
    bd_wf b -> content (fst (bd_destructive_get b)) = bd_content b /\
               nb_wf (fst (bd_destructive_get b)).
  Proof.
    intros [Hn (c & Hc & Hlen)]. unfold bd_destructive_get, bd_flush, bd_content. rewrite Hc.
    destruct c as [|x c].
    - simpl. rewrite app_nil_r. auto.
    - simpl length. simpl Nat.eqb. cbv iota. simpl fst.
      apply nb_append_block_spec; auto. discriminate.
  Qed.

  Lemma bd_byte_size_spec b : bd_wf b -> bd_byte_size b = length (bd_content b).
  Proof.
    intros [Hn (c & Hc & Hlen)]. unfold bd_byte_size, bd_used, bd_content. rewrite Hc.
    destruct Hn as [Hs _]. rewrite app_length. lia.
  Qed.

  Lemma bd_step_spec b o :
    bd_wf b -> bd_op_legal bmax o ->
    exists b', bd_step bmax b o = Ok b' /\ bd_wf b' /\ bd_content b' = bd_content b ++ bd_op_bytes o.
  Proof.
    intros Hwf Hl. destruct o; simpl in *.
    - apply bd_reserve_spec; auto.
    - apply bd_append_spec; auto.
    - apply bd_append_char_spec; auto.
    - apply bd_append_multi_spec; auto.
    - apply bd_append_nb_spec; auto.
  Qed.

  Lemma bd_run_spec b ops :
    bd_wf b -> Forall (bd_op_legal bmax) ops ->
    exists b', bd_run bmax b ops = Ok b' /\ bd_wf b' /\
               bd_content b' = bd_content b ++ concat (map bd_op_bytes ops).
  Proof.
    intros Hwf Hf. revert b Hwf; induction Hf as [|o r Ho Hr IH]; intros b Hwf; simpl.
    - exists b. rewrite app_nil_r. auto.
    - destruct (bd_step_spec b o Hwf Ho) as (b1 & H1 & H2 & H3). rewrite H1. simpl.
      destruct (IH b1 H2) as (b2 & G1 & G2 & G3). exists b2. split; auto. split; auto.
      rewrite G3, H3, <- app_assoc. reflexivity.
  Qed.

  (** ** Output stream. *)
  Definition os_wf (o : ostream) : Prop :=
    bd_wf (os_bd o) /\ length (os_pending o) <= bd_avail bmax (os_bd o).

  Definition os_content (o : ostream) : list byte := bd_content (os_bd o) ++ os_pending o.

  Lemma os_flush_spec o :
    os_wf o -> exists o', os_flush bmax o = Ok o' /\ os_wf o' /\ os_pending o' = [] /\
                          bd_content (os_bd o') = os_content o.
  Proof.
    intros [Hb Hp]. unfold os_flush, os_content. destruct (os_pending o) as [|x w] eqn:E.
    - exists o. rewrite app_nil_r, E. repeat split; auto; try apply Hb. rewrite E. simpl. lia.
    - destruct (bd_write_spec (os_bd o) (x :: w) Hb Hp) as (b' & H1 & H2 & H3).
      rewrite H1. simpl bind. eexists; split; [reflexivity|]. simpl. repeat split; auto; try apply H2.
      simpl. lia.
  Qed.

  Lemma os_next_spec o fill :
    os_wf o -> exists o' k, os_next bmax o fill = Ok (o', k) /\ os_wf o' /\ 0 < k /\
      os_pending o' = map fill (seq 0 k) /\ bd_content (os_bd o') = os_content o.
  Proof.
    intros Ho. destruct (os_flush_spec o Ho) as (o1 & H1 & H2 & H3 & H4).
    unfold os_flush in H1. unfold os_next.
    assert (E : match os_pending o with
                | [] => Ok (os_bd o) | x :: w => bd_write bmax (os_bd o) (x :: w) end
                = Ok (os_bd o1)).
    { destruct (os_pending o) as [|x w].
      - inversion H1; subst; auto.
      - destruct (bd_write bmax (os_bd o) (x :: w)) as [b1| | |]; simpl in H1; try discriminate.
        inversion H1; subst; auto. }
    rewrite E. cbn [bind].
    destruct H2 as [Hb Hp]. pose proof (bd_avail_pos _ Hb) as Hav.
    pose proof Hb as [_ (l & Hl & _)]. rewrite Hl.
    replace (bd_avail bmax (os_bd o1) =? 0) with false by (symmetry; apply Nat.eqb_neq; lia).
    do 2 eexists; split; [reflexivity|]. simpl. repeat split; auto; try apply Hb.
    simpl. rewrite map_length, seq_length. lia.
  Qed.

  Lemma os_backup_spec o n :
    os_wf o -> n <= length (os_pending o) ->
    exists o', os_backup o n = Ok o' /\ os_wf o' /\ os_bd o' = os_bd o /\
      os_pending o' = firstn (length (os_pending o) - n) (os_pending o).
  Proof.
    intros [Hb Hp] Hn. unfold os_backup.
    replace (length (os_pending o) <? n) with false by (symmetry; apply Nat.ltb_ge; lia).
    eexists; split; [reflexivity|]. simpl. repeat split; auto; try apply Hb.
    simpl. rewrite firstn_length. lia.
  Qed.

  Lemma os_run_spec ops : forall o,
    os_wf o ->
    exists o' sizes, os_run bmax o ops = Ok (o', sizes) /\ os_wf o' /\
       Forall (fun k => 0 < k) sizes /\
       os_content o' = out_written (bd_content (os_bd o)) (os_pending o) ops sizes.
  Proof.
    induction ops as [|a r IH]; intros o Ho; cbn [os_run out_written].
    - exists o, []. repeat split; auto; apply Ho.
    - destruct a as [fill|k].
      + destruct (os_next_spec o fill Ho) as (o1 & k & H1 & H2 & H3 & H4 & H5).
        rewrite H1. cbn [bind].
        destruct (IH o1 H2) as (o2 & ks & G1 & G2 & G3 & G4).
        exists o2, (k :: ks). rewrite G1. cbn [bind]. repeat split; auto; try apply G2.
        rewrite <- H4. fold (os_content o). rewrite <- H5. exact G4.
      + destruct (os_backup_spec o (length (os_pending o) - k) Ho) as (o1 & H1 & H2 & H3 & H4); [lia|].
        rewrite H1. cbn [bind].
        destruct (IH o1 H2) as (o2 & ks & G1 & G2 & G3 & G4).
        exists o2, ks. repeat split; auto; try apply G2.
        rewrite G4, H3, H4. f_equal.
        destruct (Nat.le_gt_cases k (length (os_pending o))).
        * f_equal. lia.
        * rewrite !firstn_all2; auto; lia.
  Qed.

  Lemma os_write_string_spec fuel o l :
    os_wf o -> length l <= fuel ->
    exists o', os_write_string bmax fuel o l = Ok o' /\ os_wf o' /\
               os_content o' = os_content o ++ l.
  Proof.
    revert o l; induction fuel as [|f IH]; intros o l Ho Hf.
    - destruct l; [|simpl in Hf; lia]. exists o. rewrite app_nil_r. auto.
    - destruct l as [|x l]; [exists o; rewrite app_nil_r; auto|].
      cbn [os_write_string]. remember (x :: l) as w eqn:Ew.
      destruct (os_next_spec o (fun i => nth i w Byte.x00) Ho) as (o1 & k & H1 & H2 & H3 & H4 & H5).
      assert (Hk : forall c, c <= k -> c <= length w ->
                firstn c (map (fun i => nth i w Byte.x00) (seq 0 k)) = firstn c w).
      { intros c Hc Hc2. apply nth_ext with (d := Byte.x00) (d' := Byte.x00).
        - rewrite !firstn_length, map_length, seq_length. lia.
        - intros i Hi. rewrite firstn_length, map_length, seq_length in Hi.
          assert (Hn : forall (u : list byte) , i < c -> nth i (firstn c u) Byte.x00 = nth i u Byte.x00).
          { clear. revert c; induction i as [|i IH]; intros [|c] u Hc; try lia; destruct u; simpl; auto.
            apply IH. lia. }
          rewrite !Hn by lia.
          apply (nth_map_seq (fun i => nth i w Byte.x00)). lia. }
      rewrite H1. cbn [bind].
      destruct (Nat.leb_spec (length w) k) as [Hle|Hgt].
      + destruct (os_backup_spec o1 (k - length w) H2) as (o2 & G1 & G2 & G3 & G4).
        { rewrite H4, map_length, seq_length. lia. }
        exists o2. split; auto. split; auto. unfold os_content at 1. rewrite G3, H5, G4, H4.
        rewrite map_length, seq_length. replace (k - (k - length w)) with (length w) by lia.
        rewrite Hk by lia. rewrite firstn_all. reflexivity.
      + destruct (IH o1 (skipn k w) H2) as (o2 & G1 & G2 & G3).
        { rewrite skipn_length. lia. }
        exists o2. split; auto. split; auto. rewrite G3. unfold os_content at 1. rewrite H5, H4.
        rewrite <- (firstn_all2 (n := k) (map _ _)) by (rewrite map_length, seq_length; lia).
        rewrite Hk by lia. rewrite <- app_assoc, firstn_skipn. reflexivity.
  Qed.
End B.

(** ** Input stream. *)

(** [is_at s i p]: stream [i] over the original bytes [s] has consumed [p] bytes. *)
Definition is_at (s : list byte) (i : istream) (p : nat) : Prop :=
  nb_wf (is_buf i) /\ is_skip i <= p /\ p <= length s /\
  content (is_buf i) = skipn (p - is_skip i) s /\ is_read i = p /\ is_skip i <= byte_size (is_buf i).

Lemma is_new_at b : nb_wf b -> is_at (content b) (is_new b) 0.
Proof. intros H. unfold is_at; simpl. repeat split; auto; try apply H; lia. Qed.

Lemma is_pending_at s i p :
  is_at s i p -> exists i', is_pending i = Ok i' /\ is_at s i' p /\ is_skip i' = 0.
Proof.
  intros (Hw & H1 & H2 & H3 & H4 & H5). unfold is_pending.
  destruct (is_skip i =? 0) eqn:E.
  - apply Nat.eqb_eq in E. exists i. repeat split; auto; apply Hw.
  - destruct (nb_skip_spec (is_buf i) (is_skip i) Hw H5) as (b & G1 & G2 & G3).
    rewrite G1. simpl bind. eexists; split; [reflexivity|]. split; [|reflexivity].
    repeat split; simpl; auto; try apply G3; try lia.
    rewrite G2, H3, skipn_skipn_add. f_equal. lia.
Qed.

Lemma is_at_size s i p : is_at s i p -> is_skip i = 0 -> byte_size (is_buf i) = length s - p.
Proof.
  intros (Hw & H1 & H2 & H3 & H4 & H5) E. destruct Hw as [Hs _]. rewrite Hs, H3, skipn_length. lia.
Qed.

Lemma is_next_at s i p :
  is_at s i p ->
  exists i' c, is_next i = Ok (i', c) /\
  match c with
  | Some l => l <> [] /\ firstn (length l) (skipn p s) = l /\
              is_at s i' (p + length l) /\ is_skip i' = length l
  | None => p = length s /\ is_at s i' p /\ is_skip i' = 0
  end.
Proof.
  intros Ha. destruct (is_pending_at s i p Ha) as (i1 & E1 & Ha1 & Es). unfold is_next.
  rewrite E1. cbn [bind]. pose proof (is_at_size s i1 p Ha1 Es) as Hsz.
  pose proof Ha1 as (Hw & H1 & H2 & H3 & H4 & H5).
  unfold nb_is_empty. destruct (byte_size (is_buf i1) =? 0) eqn:E0.
  - apply Nat.eqb_eq in E0. do 2 eexists; split; [reflexivity|]. simpl.
    split; [lia|]. split; auto.
  - apply Nat.eqb_neq in E0. pose proof Hw as [Hs Hf]. unfold nb_first_contiguous.
    unfold content in *. destruct (blocks (is_buf i1)) as [|x r] eqn:Eb.
    { simpl in Hs. lia. }
    cbn [bind]. do 2 eexists; split; [reflexivity|]. simpl concat in *.
    rewrite Es, Nat.sub_0_r in H3.
    assert (Hx : x <> []) by (inversion Hf; auto).
    split; auto. split.
    { rewrite <- H3. apply firstn_exact_app. reflexivity. }
    assert (Hlen : length x <= length s - p).
    { rewrite <- Hsz, Hs. rewrite app_length. lia. }
    split; [|reflexivity].
    unfold is_at; simpl is_buf; simpl is_skip; simpl is_read. split; auto.
    unfold content. rewrite Eb. simpl concat. repeat split; try lia.
    rewrite H3. f_equal. lia.
Qed.

Lemma is_backup_at s i p n :
  is_at s i p -> n <= is_skip i ->
  exists i', is_backup i n = Ok i' /\ is_at s i' (p - n) /\ is_skip i' = is_skip i - n.
Proof.
  intros (Hw & H1 & H2 & H3 & H4 & H5) Hn. unfold is_backup.
  replace (is_skip i <? n) with false by (symmetry; apply Nat.ltb_ge; lia).
  eexists; split; [reflexivity|]. split; [|reflexivity].
  unfold is_at; simpl. split; auto. repeat split; try lia.
  rewrite H3. f_equal. lia.
Qed.

Lemma is_do_skip_at s i p n :
  is_at s i p ->
  exists i' b, is_do_skip i n = Ok (i', b) /\ is_skip i' = 0 /\
  if b then p + n <= length s /\ is_at s i' (p + n) else length s < p + n /\ is_at s i' p.
Proof.
  intros Ha. destruct (is_pending_at s i p Ha) as (i1 & E1 & Ha1 & Es). unfold is_do_skip.
  rewrite E1. cbn [bind]. pose proof (is_at_size s i1 p Ha1 Es) as Hsz.
  pose proof Ha1 as (Hw & H1 & H2 & H3 & H4 & H5).
  destruct (byte_size (is_buf i1) <? n) eqn:E.
  - apply Nat.ltb_lt in E. do 2 eexists; split; [reflexivity|]. simpl. split; auto. split; [lia|auto].
  - apply Nat.ltb_ge in E.
    destruct (nb_skip_spec (is_buf i1) n Hw E) as (b & G1 & G2 & G3).
    rewrite G1. cbn [bind]. do 2 eexists; split; [reflexivity|]. simpl. split; auto. split; [lia|].
    unfold is_at; simpl. split; auto. rewrite Es in *. repeat split; try lia.
    rewrite G2, H3, skipn_skipn_add. f_equal. lia.
Qed.

Lemma is_run_spec s ops : forall i p,
  is_at s i p ->
  exists i' es p', is_run i ops = Ok (i', es) /\ in_trace s p (is_skip i) es p' /\ is_at s i' p'.
Proof.
  induction ops as [|o r IH]; intros i p Ha; cbn [is_run].
  - exists i, [], p. repeat split; auto; try apply Ha. constructor.
  - destruct o as [|n|n].
    + destruct (is_next_at s i p Ha) as (i1 & c & H1 & H2). rewrite H1. cbn [bind].
      destruct c as [l|].
      * destruct H2 as (Hl & Hf & Ha1 & Hs1).
        destruct (IH i1 _ Ha1) as (i2 & es & p' & G1 & G2 & G3).
        exists i2, (EvNext (Some l) :: es), p'. rewrite G1. split; [reflexivity|].
        split; auto. rewrite Hs1 in G2. constructor; auto.
      * destruct H2 as (Hp & Ha1 & Hs1).
        destruct (IH i1 _ Ha1) as (i2 & es & p' & G1 & G2 & G3).
        exists i2, (EvNext None :: es), p'. rewrite G1. split; [reflexivity|].
        split; auto. rewrite Hs1 in G2. constructor; auto.
    + destruct (is_backup_at s i p (Nat.min n (is_skip i)) Ha) as (i1 & H1 & Ha1 & Hs1); [lia|].
      cbv zeta. rewrite H1. cbn [bind].
      destruct (IH i1 _ Ha1) as (i2 & es & p' & G1 & G2 & G3).
      exists i2, (EvBackUp (Nat.min n (is_skip i)) :: es), p'. rewrite G1. split; [reflexivity|].
      split; auto. rewrite Hs1 in G2. constructor; auto. lia.
    + destruct (is_do_skip_at s i p n Ha) as (i1 & b & H1 & Hs1 & H2). rewrite H1. cbn [bind].
      destruct b; destruct H2 as [Hp Ha1];
        destruct (IH i1 _ Ha1) as (i2 & es & p' & G1 & G2 & G3);
        do 3 eexists; rewrite G1; (split; [reflexivity|]; split; [|exact G3];
          rewrite Hs1 in G2; constructor; auto).
Qed.

Lemma is_read_all_spec s fuel : forall i p,
  is_at s i p -> length s - p < fuel ->
  exists i', is_read_all fuel i = Ok (i', skipn p s) /\ is_at s i' (length s).
Proof.
  induction fuel as [|f IH]; intros i p Ha Hf; [lia|]. cbn [is_read_all].
  destruct (is_next_at s i p Ha) as (i1 & c & H1 & H2). rewrite H1. cbn [bind].
  destruct c as [l|].
  - destruct H2 as (Hl & Hx & Ha1 & Hs1).
    assert (Hp : p + length l <= length s) by apply Ha1.
    assert (0 < length l) by (apply nonempty_pos; auto).
    destruct (IH i1 _ Ha1) as (i2 & G1 & G2); [lia|].
    exists i2. rewrite G1. cbn [bind]. split; auto. do 2 f_equal.
    rewrite <- Hx at 1. rewrite <- skipn_skipn_add. apply firstn_skipn.
  - destruct H2 as (Hp & Ha1 & Hs1). exists i1. split; [|subst; auto].
    rewrite skipn_all2 by lia. reflexivity.
Qed.
