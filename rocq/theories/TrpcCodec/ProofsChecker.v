(** Proofs about the framing check and the read path. *)
From Verif.Lib Require Import Base Bytes ListX.
From Verif.Buffer Require Import Model Spec Machine Proofs ProofsStreams ProofsMain.
From Verif.TrpcCodec Require Import Model Spec Machine Proofs.
Local Open Scope Z_scope.

Lemma be_dec_inj a b : length a = length b -> be_dec a = be_dec b -> a = b.
Proof. intros Hl H. rewrite <- (be_enc_dec a), <- (be_enc_dec b), Hl, H. reflexivity. Qed.

Lemma magic_bytes c :
  (16 <= length c)%nat -> (magic_value (fh_parse c) = TRPC_MAGIC <-> firstn 2 c = [Byte.x09; Byte.x30]).
Proof.
  intros Hl. change (magic_value (fh_parse c)) with (be_dec (firstn 2 c)). split.
  - intros H. apply be_dec_inj.
    + rewrite firstn_length. cbn [length]. lia.
    + rewrite H. reflexivity.
  - intros ->. reflexivity.
Qed.

Lemma app_eq_len {A} (a b c d : list A) : length a = length c -> a ++ b = c ++ d -> a = c /\ b = d.
Proof.
  revert c; induction a as [|x a IH]; intros [|y c] Hl E; simpl in *; try discriminate; auto.
  inversion E; subst. destruct (IH c) as [-> ->]; auto.
Qed.

Lemma bytes_at_app off n a b :
  (off + n <= length a)%nat -> bytes_at off n (a ++ b) = bytes_at off n a.
Proof. exact (slice_app_in off n a b). Qed.

Lemma declared_size_app a b : (16 <= length a)%nat -> declared_size (a ++ b) = declared_size a.
Proof. intros H. unfold declared_size. rewrite bytes_at_app by lia. reflexivity. Qed.
Lemma declared_pb_app a b : (16 <= length a)%nat -> declared_pb (a ++ b) = declared_pb a.
Proof. intros H. unfold declared_pb. rewrite bytes_at_app by lia. reflexivity. Qed.
Lemma firstn2_app (a b : list byte) : (16 <= length a)%nat -> firstn 2 (a ++ b) = firstn 2 a.
Proof. intros H. apply firstn_lt_app. lia. Qed.

Lemma bad_head_app maxp a b : bad_head maxp a -> bad_head maxp (a ++ b).
Proof.
  intros [Hl H]. split; [rewrite app_length; lia|].
  rewrite firstn2_app, declared_size_app, declared_pb_app by auto. exact H.
Qed.

Lemma good_not_bad maxp f r : good_frame maxp f -> ~ bad_head maxp (f ++ r).
Proof.
  intros (H1 & H2 & H3 & H4 & H5) [_ H]. rewrite firstn2_app, declared_size_app, declared_pb_app in H by auto.
  destruct H as [H|[H|H]]; [congruence|lia|]. destruct maxp; lia.
Qed.

Lemma good_not_more maxp f r : good_frame maxp f -> ~ needs_more maxp (f ++ r).
Proof.
  intros (H1 & H2 & H3 & H4 & H5) [H|H].
  - rewrite app_length in H. lia.
  - rewrite declared_size_app in H by auto. rewrite app_length in H. lia.
Qed.

Lemma bad_not_more maxp c : bad_head maxp c -> ~ needs_more maxp c.
Proof.
  intros [Hl Hb] [H|(H1 & H2 & H3 & H4 & H5)]; [lia|].
  destruct Hb as [Hb|[Hb|Hb]]; [congruence|lia|]. destruct maxp; lia.
Qed.

Lemma good_unique maxp f1 r1 f2 r2 :
  good_frame maxp f1 -> good_frame maxp f2 -> f1 ++ r1 = f2 ++ r2 -> f1 = f2 /\ r1 = r2.
Proof.
  intros (A1 & A2 & A3 & _) (B1 & B2 & B3 & _) E.
  assert (Hl : length f1 = length f2).
  { assert (declared_size (f1 ++ r1) = declared_size (f2 ++ r2)) by congruence.
    rewrite !declared_size_app in H by auto. lia. }
  apply app_eq_len in E; auto.
Qed.

(** Parsing a byte string into frames and a remainder. *)
Definition framed (maxp : option Z) (s : list byte) (fs : list (list byte)) (r : list byte) : Prop :=
  s = concat fs ++ r /\ Forall (good_frame maxp) fs /\ needs_more maxp r.

Lemma framed_unique maxp s fs1 r1 fs2 r2 :
  framed maxp s fs1 r1 -> framed maxp s fs2 r2 -> fs1 = fs2 /\ r1 = r2.
Proof.
  revert s fs2; induction fs1 as [|f fs1 IH]; intros s fs2 (E1 & G1 & N1) (E2 & G2 & N2).
  - destruct fs2 as [|g fs2].
    + simpl in *. split; congruence.
    + exfalso. simpl in E1, E2. inversion G2; subst. eapply good_not_more; eauto.
      rewrite app_assoc. exact N1.
  - inversion G1 as [|? ? Gf Gfs]; subst. destruct fs2 as [|g fs2].
    + exfalso. simpl in E2. eapply good_not_more; eauto.
      rewrite <- E2 in N2. simpl in N2. rewrite <- app_assoc in N2. exact N2.
    + inversion G2 as [|? ? Gg Ggs]; subst. simpl in E2. rewrite <- !app_assoc in E2.
      destruct (good_unique _ _ _ _ _ Gf Gg E2) as [-> E3].
      destruct (IH (concat fs1 ++ r1) fs2) as [-> ->]; auto.
      * split; auto.
      * split; auto.
Qed.

Lemma framed_app maxp s c fs r fs' r' :
  framed maxp s fs r -> framed maxp (r ++ c) fs' r' -> framed maxp (s ++ c) (fs ++ fs') r'.
Proof.
  intros (E1 & G1 & N1) (E2 & G2 & N2). split; [|split; auto].
  - rewrite concat_app, <- app_assoc, <- E2, E1, <- app_assoc. reflexivity.
  - apply Forall_app; auto.
Qed.

(** A string with a prefix leading to a bad head is not framed. *)
Lemma framed_no_bad maxp s fs r fs' r' c :
  framed maxp (s ++ c) fs r -> s = concat fs' ++ r' -> Forall (good_frame maxp) fs' ->
  ~ bad_head maxp r'.
Proof.
  revert s fs; induction fs' as [|g fs' IH]; intros s fs (E & G & N) Es Gs Hb.
  - simpl in Es. subst r'. destruct fs as [|f fs].
    + simpl in E. subst r. eapply bad_not_more; [apply bad_head_app; eauto|]. exact N.
    + inversion G; subst. simpl in E. rewrite <- app_assoc in E.
      eapply good_not_bad; eauto. rewrite <- E. apply bad_head_app. exact Hb.
  - inversion Gs as [|? ? Gg Ggs]; subst. destruct fs as [|f fs].
    + simpl in E. eapply good_not_more; eauto. rewrite <- E in N. simpl in N.
      rewrite <- !app_assoc in N. exact N.
    + inversion G as [|? ? Gf Gfs]; subst. simpl in E. rewrite <- !app_assoc in E.
      destruct (good_unique _ _ _ _ _ Gg Gf E) as [-> E'].
      eapply (IH (concat fs' ++ r') fs); eauto. split; [|split; auto].
      rewrite <- app_assoc. exact E'.
Qed.

Lemma partial_needs_more maxp r : partial_frame maxp r -> needs_more maxp r.
Proof.
  intros [->|(x & Hx & Hl & Hm & Hd & Hp & Hmx)].
  - left. simpl. lia.
  - destruct (Nat.lt_ge_cases (length r) 16) as [Hlt|Hge]; [left; auto|].
    right. rewrite firstn2_app in Hm by auto. rewrite declared_size_app in * by auto.
    rewrite declared_pb_app in * by auto.
    split; auto. split; auto. split; auto. split; auto.
    rewrite app_length in Hd. destruct x; [congruence|]. simpl in Hd. lia.
Qed.

(** ** The checker. *)
Lemma check_loop_spec maxp fuel : forall b q,
  nb_wf b -> (byte_size b < fuel)%nat ->
  exists code rest frames, check_loop fuel maxp b q = Ok (code, rest, q ++ frames) /\
    nb_wf rest /\ Forall nb_wf frames /\
    content b = concat (map content frames) ++ content rest /\
    Forall (good_frame maxp) (map content frames) /\
    (code = PACKET_ERR -> bad_head maxp (content rest)) /\
    (code <> PACKET_ERR -> code = match q ++ frames with [] => PACKET_LESS | _ => PACKET_FULL end) /\
    (code <> PACKET_ERR -> Z.of_nat (length (content b)) < 2 ^ 32 -> needs_more maxp (content rest)).
Proof.
  induction fuel as [|f IH]; intros b q Hw Hf; [lia|]. cbn [check_loop].
  pose proof Hw as [Hs _].
  assert (Hstop : forall code, code = match q with [] => PACKET_LESS | _ :: _ => PACKET_FULL end ->
    (Z.of_nat (length (content b)) < 2 ^ 32 -> needs_more maxp (content b)) ->
    exists code' rest frames, Ok (code, b, q) = Ok (code', rest, q ++ frames) /\
    nb_wf rest /\ Forall nb_wf frames /\
    content b = concat (map content frames) ++ content rest /\
    Forall (good_frame maxp) (map content frames) /\
    (code' = PACKET_ERR -> bad_head maxp (content rest)) /\
    (code' <> PACKET_ERR -> code' = match q ++ frames with [] => PACKET_LESS | _ => PACKET_FULL end) /\
    (code' <> PACKET_ERR -> Z.of_nat (length (content b)) < 2 ^ 32 -> needs_more maxp (content rest))).
  { intros code Hc Hn. exists code, b, []. rewrite app_nil_r.
    split; auto. split; auto. split; auto. split; auto. split; [constructor|].
    split; [|split; auto]. intros ->. destruct q; discriminate. }
  assert (Herr : bad_head maxp (content b) ->
    exists code' rest frames, Ok (PACKET_ERR, b, q) = Ok (code', rest, q ++ frames) /\
    nb_wf rest /\ Forall nb_wf frames /\
    content b = concat (map content frames) ++ content rest /\
    Forall (good_frame maxp) (map content frames) /\
    (code' = PACKET_ERR -> bad_head maxp (content rest)) /\
    (code' <> PACKET_ERR -> code' = match q ++ frames with [] => PACKET_LESS | _ => PACKET_FULL end) /\
    (code' <> PACKET_ERR -> Z.of_nat (length (content b)) < 2 ^ 32 -> needs_more maxp (content rest))).
  { intros Hb. exists PACKET_ERR, b, []. rewrite app_nil_r.
    split; auto. split; auto. split; auto. split; auto. split; [constructor|].
    split; [|split; congruence]. auto. }
  rewrite Hs. unfold u32 at 1.
  destruct (Z.ltb_spec (Z.of_nat (length (content b)) mod 2 ^ 32) 16) as [Hsm|Hsm].
  { apply Hstop; [reflexivity|]. intros Hlt. rewrite Z.mod_small in Hsm by lia. left. lia. }
  assert (Hmod : Z.of_nat (length (content b)) mod 2 ^ 32 <= Z.of_nat (length (content b)))
    by (apply Z.mod_le; lia).
  assert (H16 : (16 <= length (content b))%nat) by lia.
  destruct (fh_decode_long b false Hw H16) as (b1 & E1 & Hw1 & Hc1).
  assert (b1 = b).
  { unfold fh_decode in E1. destruct (_ <? _)%nat; [discriminate|].
    destruct (nb_first_contiguous b); try discriminate. cbn [bind] in E1.
    destruct (prefix_space <=? length a)%nat; cbn [bind] in E1; [congruence|].
    destruct (flatten_to_slow b prefix_space); cbn [bind] in E1; congruence. }
  subst b1. rewrite E1. cbn [bind].
  pose proof (fh_parse_wf (content b) ltac:(lia)) as (_ & _ & _ & Hdfs & Hphs & _).
  set (h := fh_parse (content b)) in *.
  assert (Eds : data_frame_size h = declared_size (content b)) by reflexivity.
  assert (Epb : pb_header_size h = declared_pb (content b)) by reflexivity.
  destruct (magic_value h =? TRPC_MAGIC) eqn:Em; cbn [negb].
  2: { apply Herr. split; [exact H16|]. left. rewrite <- magic_bytes by auto. fold h. lia. }
  assert (Hmag : firstn 2 (content b) = [Byte.x09; Byte.x30]) by (apply magic_bytes; [auto|fold h; lia]).
  assert (Hu : u32 (16 + pb_header_size h) = 16 + pb_header_size h).
  { unfold u32. apply Z.mod_small. lia. }
  rewrite Hu.
  destruct (Z.ltb_spec (data_frame_size h) (16 + pb_header_size h)) as [Hps|Hps].
  { apply Herr. split; [exact H16|]. right; left. lia. }
  destruct (match maxp with Some mx => mx <? data_frame_size h | None => false end) eqn:Emx.
  { apply Herr. split; [exact H16|]. right; right. destruct maxp; [lia|discriminate]. }
  assert (Hmx : match maxp with Some mx => declared_size (content b) <= mx | None => True end).
  { destruct maxp; [lia|auto]. }
  unfold u32.
  destruct (Z.ltb_spec (Z.of_nat (length (content b)) mod 2 ^ 32) (data_frame_size h)) as [Hless|Hfull].
  { apply Hstop; [reflexivity|]. intros Hlt. rewrite Z.mod_small in Hless by lia. right.
    repeat (split; [assumption || lia|]). lia. }
  destruct (nb_cut_spec b (Z.to_nat (data_frame_size h)) Hw ltac:(lia))
    as (frame & b2 & C1 & C2 & C3 & C4 & C5).
  rewrite C1. cbn [bind].
  pose proof C5 as [Hs2 _].
  destruct (IH b2 (q ++ [frame]) C5) as (code & rest & frames & F1 & F2 & F3 & F4 & F5 & F6 & F7 & F8).
  { rewrite Hs2, C3, skipn_length. lia. }
  exists code, rest, (frame :: frames).
  assert (Hgood : good_frame maxp (content frame)).
  { assert (Hl : length (content frame) = Z.to_nat (data_frame_size h)) by (rewrite C2, firstn_length; lia).
    assert (Hc : content b = content frame ++ content b2) by (rewrite C2, C3, firstn_skipn; reflexivity).
    rewrite Hc in Hmag, Hmx, Eds, Epb.
    rewrite firstn2_app in Hmag by lia. rewrite declared_size_app in * by lia.
    rewrite declared_pb_app in * by lia.
    split; [lia|]. split; auto. split; [lia|]. split; [lia|]. exact Hmx. }
  split; [rewrite F1, <- app_assoc; reflexivity|].
  split; auto. split; [constructor; auto|]. split.
  { simpl. rewrite <- app_assoc, <- F4, C2, C3, firstn_skipn. reflexivity. }
  split; [simpl; constructor; auto|]. split; auto. split.
  { intros Hne. rewrite (F7 Hne), <- app_assoc. reflexivity. }
  intros Hne Hlt. apply F8; auto. rewrite C3, skipn_length. lia.
Qed.

Lemma check_message_spec maxp b :
  nb_wf b ->
  exists code rest frames, check_message maxp b = Ok (code, rest, frames) /\
    nb_wf rest /\ Forall nb_wf frames /\
    content b = concat (map content frames) ++ content rest /\
    Forall (good_frame maxp) (map content frames) /\
    (code = PACKET_ERR -> bad_head maxp (content rest)) /\
    (code <> PACKET_ERR -> code = match frames with [] => PACKET_LESS | _ => PACKET_FULL end) /\
    (code <> PACKET_ERR -> Z.of_nat (length (content b)) < 2 ^ 32 -> needs_more maxp (content rest)).
Proof.
  intros Hw. destruct (check_loop_spec maxp (S (byte_size b)) b [] Hw ltac:(lia)) as (c & r & fs & H).
  exists c, r, fs. exact H.
Qed.

(** A head that is already bad is reported at once. *)
Lemma check_message_bad maxp b :
  nb_wf b -> bad_head maxp (content b) -> Z.of_nat (length (content b)) < 2 ^ 32 ->
  check_message maxp b = Ok (PACKET_ERR, b, []) \/
  exists rest, check_message maxp b = Ok (PACKET_ERR, rest, []) /\ content rest = content b.
Proof.
  intros Hw Hb Hlt. destruct (check_message_spec maxp b Hw) as (code & rest & fs & H1 & H2 & H3 & H4 & H5 & H6 & H7 & H8).
  right. exists rest.
  assert (fs = []).
  { destruct fs as [|f fs]; auto. exfalso. simpl in *. inversion H5; subst.
    eapply good_not_bad; eauto. rewrite app_assoc, <- H4. exact Hb. }
  subst fs. simpl in H4. split; [|auto].
  assert (code = PACKET_ERR).
  { destruct code; auto; exfalso; apply (bad_not_more _ _ Hb); rewrite H4; apply H8; auto; discriminate. }
  subst code. exact H1.
Qed.

(** ** The read path. *)
Lemma append_blocks_spec blks b :
  nb_wf b -> Forall (fun l : block => l <> []) blks ->
  nb_wf (fold_left nb_append_block blks b) /\
  content (fold_left nb_append_block blks b) = content b ++ concat blks.
Proof.
  revert b; induction blks as [|x r IH]; intros b Hw Hf; simpl.
  - rewrite app_nil_r. auto.
  - inversion Hf; subst. destruct (nb_append_block_spec b x Hw) as [E1 E2]; auto.
    destruct (IH (nb_append_block b x) E2) as [G1 G2]; auto. split; auto.
    rewrite G2, E1, <- app_assoc. reflexivity.
Qed.

Lemma needs_more_small maxp mx r :
  maxp = Some mx -> needs_more maxp r -> Z.of_nat (length r) <= Z.max 15 mx.
Proof. intros -> [H|(H1 & H2 & H3 & H4 & H5)]; lia. Qed.

Lemma read_events_spec mx reads : forall c s fs,
  nb_wf (c_buf c) -> c_closed c = false -> Forall nb_wf (c_handled c) ->
  framed (Some mx) s (map content (c_handled c)) (content (c_buf c)) ->
  Forall (Forall (fun l : block => l <> [])) reads ->
  Forall (fun r => Z.max 15 mx + Z.of_nat (length (concat r)) < 2 ^ 32) reads ->
  forall tail, framed (Some mx) (s ++ concat (map (@concat byte) reads)) fs tail ->
  exists c', read_events mx c reads = Ok c' /\ c_closed c' = false /\
    map content (c_handled c') = fs /\ content (c_buf c') = tail /\ nb_wf (c_buf c') /\
    Forall nb_wf (c_handled c').
Proof.
  induction reads as [|r rs IH]; intros c s fs Hw Hcl Hhw Hfr Hne Hsz tail Hall; cbn [read_events].
  - simpl in Hall. rewrite app_nil_r in Hall.
    destruct (framed_unique _ _ _ _ _ _ Hfr Hall) as [<- <-].
    exists c. auto 10.
  - inversion Hne as [|? ? Hr Hrs]; subst. inversion Hsz as [|? ? Zr Zrs]; subst.
    simpl map in Hall. simpl concat in Hall.
    unfold read_event. rewrite Hcl.
    destruct (concat r) as [|y ys] eqn:Ec.
    + cbn [bind]. simpl in Hall. apply (IH c s fs); auto.
    + rewrite <- Ec in *.
      destruct (append_blocks_spec r (c_buf c) Hw Hr) as [Hw1 Hc1].
      set (buf := fold_left nb_append_block r (c_buf c)) in *.
      destruct (check_message_spec (Some mx) buf Hw1) as
        (code & rest & frames & F1 & F2 & F3 & F4 & F5 & F6 & F7 & F8).
      rewrite F1. cbn [bind].
      assert (Hlen : Z.of_nat (length (content buf)) < 2 ^ 32).
      { rewrite Hc1, app_length. destruct Hfr as (_ & _ & Hn).
        pose proof (needs_more_small _ mx _ eq_refl Hn). lia. }
      assert (Hcode : code <> PACKET_ERR).
      { intros ->. destruct Hfr as (Hs & Hg & _).
        assert (Hbad : bad_head (Some mx) (content rest)) by auto.
        revert Hbad.
        rewrite app_assoc in Hall.
        eapply (framed_no_bad (Some mx) (s ++ concat r) fs tail
                  (map content (c_handled c) ++ map content frames) (content rest)).
        - exact Hall.
        - rewrite Hs, concat_app, <- !app_assoc, <- F4, Hc1. reflexivity.
        - apply Forall_app; auto. }
      assert (Hfr2 : framed (Some mx) (s ++ concat r) (map content (c_handled c ++ frames)) (content rest)).
      { rewrite map_app. eapply framed_app; eauto. rewrite <- Hc1. split; auto. }
      assert (Hall2 : framed (Some mx) ((s ++ concat r) ++ concat (map (@concat byte) rs)) fs tail)
        by (rewrite <- app_assoc; exact Hall).
      assert (Hh : Forall nb_wf (c_handled c ++ frames)) by (apply Forall_app; auto).
      destruct code; [| |congruence].
      * assert (frames = []) by (destruct frames; auto; specialize (F7 Hcode); discriminate).
        subst frames. rewrite app_nil_r in *. cbn [bind].
        apply (IH (mk_conn rest (c_handled c) false) (s ++ concat r) fs); auto.
      * apply (IH (mk_conn rest (c_handled c ++ frames) false) (s ++ concat r) fs); auto.
Qed.

Lemma chunk_independent mx frames tail reads :
  Forall (good_frame (Some mx)) frames -> partial_frame (Some mx) tail ->
  concat (map (@concat byte) reads) = concat frames ++ tail ->
  Forall (Forall (fun l : block => l <> [])) reads ->
  Forall (fun r => Z.max 15 mx + Z.of_nat (length (concat r)) < 2 ^ 32) reads ->
  exists c', read_events mx conn0 reads = Ok c' /\ c_closed c' = false /\
    map content (c_handled c') = frames /\ content (c_buf c') = tail /\
    byte_size (c_buf c') = length tail.
Proof.
  intros Hg Ht He Hne Hsz.
  destruct (read_events_spec mx reads conn0 [] frames) with (tail := tail)
    as (c' & G1 & G2 & G3 & G4 & G5 & G6); auto.
  - apply wf_empty.
  - constructor.
  - split; [reflexivity|]. split; [constructor|]. left. simpl. lia.
  - simpl. rewrite He. split; auto. split; auto. apply partial_needs_more; auto.
  - exists c'. split; auto. split; auto. split; auto. split; auto.
    destruct G5 as [G5 _]. congruence.
Qed.

(** ** Checked frames decode without undefined behaviour. *)
Lemma checked_frame_decodable maxp H (parse : list byte -> option H) att_size b :
  nb_wf b -> good_frame maxp (content b) ->
  req_decode H parse att_size b <> UB /\ rsp_decode H parse att_size b <> UB /\
  data_decode b <> UB /\
  (exists x, req_decode H parse att_size b = Ok x) /\
  (exists x, rsp_decode H parse att_size b = Ok x) /\ (exists x, data_decode b = Ok (Some x)).
Proof.
  intros Hw (Hl & Hm & Hd & Hp & _).
  destruct (decode_agrees H parse att_size b Hw) as [D1 D2].
  pose proof (fh_parse_wf (content b) ltac:(lia)) as Hfh.
  assert (Hok : forall strict, exists x, dec_bytes H parse att_size strict (content b) = Ok x).
  { intros strict. unfold dec_bytes.
    replace (length (content b) <? 16)%nat with false by (symmetry; apply Nat.ltb_ge; lia).
    rewrite skipn_length.
    change (pb_header_size (fh_parse (content b))) with (declared_pb (content b)).
    replace (Z.of_nat (length (content b) - 16) <? declared_pb (content b)) with false by lia.
    destruct (strict && _); [eexists; reflexivity|].
    destruct (parse _); [|eexists; reflexivity].
    destruct (_ <? _); eexists; reflexivity. }
  assert (Hex : forall s x, dec_agrees H x (dec_bytes H parse att_size s (content b)) -> exists y, x = Ok y).
  { intros s x Ha. destruct (Hok s) as (y & Ey). rewrite Ey in Ha. unfold dec_agrees in Ha.
    destruct y as [[[[fh h] body] att]|]; [destruct Ha as (m & Hx & _)|]; eauto. }
  destruct (Hex _ _ D1) as (x1 & E1). destruct (Hex _ _ D2) as (x2 & E2).
  destruct (data_decode_spec b (fh_parse (content b)) (skipn 16 (content b)) Hw) as (body & E3 & _).
  - assert (E : fh_parse (content b) = fh_parse (firstn 16 (content b))).
    { rewrite <- (firstn_skipn 16 (content b)) at 1. apply fh_parse_app. rewrite firstn_length; lia. }
    rewrite E, fh_encode_parse by (rewrite firstn_length; lia). symmetry. apply firstn_skipn.
  - exact Hfh.
  - change (data_frame_size (fh_parse (content b))) with (declared_size (content b)).
    rewrite skipn_length. lia.
  - rewrite E1, E2, E3. repeat split; try discriminate; eauto.
Qed.

Lemma pick_metadata_spec b :
  nb_wf b ->
  pick_metadata b =
  if (length (content b) <? 16)%nat then Ok None
  else let l := content b in
       Ok (Some (be_dec (bytes_at 2 1 l), be_dec (bytes_at 2 1 l) =? 1, be_dec (bytes_at 3 1 l),
                 be_dec (bytes_at 10 4 l))).
Proof.
  intros Hw. unfold pick_metadata. destruct (Nat.ltb_spec (length (content b)) 16) as [H|H].
  - rewrite fh_decode_short by auto. reflexivity.
  - destruct (fh_decode_long b false Hw H) as (b' & E & _). rewrite E. cbn [bind].
    reflexivity.
Qed.
