(** The lemmas the property file refers to. *)
From Verif.Lib Require Import Base Bytes ListX.
From Verif.Buffer Require Import Model Spec Machine Proofs ProofsStreams ProofsMain.
From Verif.TrpcCodec Require Import Model Spec Machine Instance Proofs ProofsChecker.
Local Open Scope Z_scope.

Lemma t_parse_ser h : t_parse (t_ser h) = Some h.
Proof.
  destruct h as [[[[a b] c] d] r]. unfold t_ser; cbn [t_att t_rest].
  destruct a; try reflexivity; destruct b; try reflexivity; destruct c; try reflexivity;
    destruct d; try reflexivity; destruct r; reflexivity.
Qed.

Lemma t_att_set h z : 0 <= z < 2 ^ 32 -> t_att_size (t_set_att h z) = z.
Proof.
  intros Hz. unfold t_att_size, t_set_att; cbn [t_att].
  change [z2b (z / 256 / 256 / 256); z2b (z / 256 / 256); z2b (z / 256); z2b z] with (be_enc 4 z).
  rewrite be_dec_enc. apply Z.mod_small. exact Hz.
Qed.

(** ** C01 *)
Lemma header_roundtrip h b q :
  fh_wf h -> nb_wf b -> content b = fh_encode h ++ q ->
  length (fh_encode h) = 16%nat /\
  exists b', fh_decode b true = Ok (Some h, b') /\ content b' = q /\ nb_wf b'.
Proof.
  intros Hh Hw Hc. assert (Hl : length (fh_encode h) = 16%nat) by (apply fh_encode_length; apply Hh).
  split; auto. destruct (fh_decode_long b true Hw) as (b' & E1 & E2 & E3).
  { rewrite Hc, app_length. lia. }
  exists b'. rewrite E1, Hc, fh_parse_encode_wf by auto. split; auto. split; auto.
  rewrite E3, Hc, <- Hl, skipn_app, skipn_all, Nat.sub_diag. reflexivity.
Qed.

Lemma header_layout h :
  fh_wf h ->
  let e := fh_encode h in
  be_dec (bytes_at 0 2 e) = magic_value h /\ be_dec (bytes_at 2 1 e) = data_frame_type h /\
  be_dec (bytes_at 3 1 e) = stream_frame_type h /\ be_dec (bytes_at 4 4 e) = data_frame_size h /\
  be_dec (bytes_at 8 2 e) = pb_header_size h /\ be_dec (bytes_at 10 4 e) = stream_id h /\
  bytes_at 14 2 e = reversed h.
Proof.
  intros Hh e. pose proof (fh_parse_encode_wf h [] Hh) as E. rewrite app_nil_r in E. fold e in E.
  unfold fh_parse in E. change slice with bytes_at in E. rewrite <- E. simpl. auto 10.
Qed.

Lemma header_bytes_roundtrip b skip :
  nb_wf b -> (16 <= length (content b))%nat ->
  exists h b', fh_decode b skip = Ok (Some h, b') /\ fh_wf h /\ fh_encode h = firstn 16 (content b) /\
    content b' = if skip then skipn 16 (content b) else content b.
Proof.
  intros Hw Hl. destruct (fh_decode_long b skip Hw Hl) as (b' & E1 & E2 & E3).
  exists (fh_parse (content b)), b'. split; auto. split; [apply fh_parse_wf; lia|]. split; auto.
  assert (E : fh_parse (content b) = fh_parse (firstn 16 (content b))).
  { rewrite <- (firstn_skipn 16 (content b)) at 1. apply fh_parse_app. rewrite firstn_length; lia. }
  rewrite E. apply fh_encode_parse. rewrite firstn_length; lia.
Qed.

(** ** C04 *)
Lemma encoded_good bmax H ser set_att (m : message H) b mx :
  (16 <= bmax)%nat ->
  fh_wf (m_fh _ m) -> magic_value (m_fh _ m) = TRPC_MAGIC -> nb_wf (m_body _ m) -> nb_wf (m_att _ m) ->
  Z.of_nat (length (ser (enc_hdr H set_att m))) < 2 ^ 16 ->
  enc_total H ser set_att m < 2 ^ 32 -> enc_total H ser set_att m <= mx ->
  req_encode bmax H ser set_att m = Ok b -> good_frame (Some mx) (content b).
Proof.
  intros Hbm Hfh Hmag Hb Ha Hpb Htot Hmx He.
  pose proof Hfh as (F1 & F2 & F3 & F4 & F5 & F6 & F7).
  destruct (req_encode_spec bmax Hbm H ser set_att m F7 Hb Ha) as (b' & E1 & E2 & E3).
  assert (b' = b) by congruence. subst b'.
  set (fh' := with_sizes _ _ _) in E3.
  assert (Hfh' : fh_wf fh').
  { unfold fh_wf, fh', u32, u16; simpl. repeat split; auto; try lia;
    try (apply Z.mod_pos_bound; lia); try (apply Z.mod_pos_bound; reflexivity). }
  assert (Hl : length (fh_encode fh') = 16%nat) by (apply fh_encode_length; auto).
  pose proof (header_layout fh' Hfh') as (L1 & _ & _ & L4 & L5 & _).
  assert (Hdfs : data_frame_size fh' = enc_total H ser set_att m).
  { simpl. unfold u32. apply Z.mod_small. unfold enc_total in *. lia. }
  assert (Hphs : pb_header_size fh' = Z.of_nat (length (ser (enc_hdr H set_att m)))).
  { simpl. unfold u16. apply Z.mod_small. lia. }
  rewrite E3. split; [rewrite app_length; lia|]. split.
  { rewrite firstn2_app by lia. apply be_dec_inj.
    - rewrite firstn_length, Hl. reflexivity.
    - change (firstn 2 (fh_encode fh')) with (bytes_at 0 2 (fh_encode fh')). rewrite L1. simpl. exact Hmag. }
  rewrite declared_size_app, declared_pb_app by lia. unfold declared_size, declared_pb.
  rewrite L4, L5, Hdfs, Hphs. destruct Hb as [Hsb _]. destruct Ha as [Hsa _].
  split; [rewrite !app_length, Hl; unfold enc_total; lia|].
  split; [unfold enc_total; lia|]. exact Hmx.
Qed.

Lemma check_good_single maxp b :
  nb_wf b -> good_frame maxp (content b) -> Z.of_nat (length (content b)) < 2 ^ 32 ->
  exists rest frame, check_message maxp b = Ok (PACKET_FULL, rest, [frame]) /\
    content frame = content b /\ content rest = [] /\ nb_wf frame.
Proof.
  intros Hw Hg Hlt.
  destruct (check_message_spec maxp b Hw) as (code & rest & fs & H1 & H2 & H3 & H4 & H5 & H6 & H7 & H8).
  assert (Hfr : framed maxp (content b) [content b] []).
  { split; [simpl; rewrite !app_nil_r; reflexivity|]. split; [constructor; auto|]. left; simpl; lia. }
  assert (Hne : code <> PACKET_ERR).
  { intros ->. assert (Hbad : bad_head maxp (content rest)) by auto. revert Hbad.
    eapply (framed_no_bad maxp (content b) [content b] [] (map content fs) (content rest) []); auto.
    rewrite app_nil_r. exact Hfr. }
  assert (Hfr2 : framed maxp (content b) (map content fs) (content rest)) by (split; auto).
  destruct (framed_unique _ _ _ _ _ _ Hfr Hfr2) as [E1 E2].
  destruct fs as [|f [|g fs]]; try discriminate. simpl in E1. inversion E1 as [E3].
  specialize (H7 Hne). exists rest, f. rewrite H1, H7. inversion H3; subst. auto.
Qed.

Lemma encoded_accepted bmax H ser parse att_size set_att (m : message H) mx :
  (16 <= bmax)%nat ->
  (forall h, parse (ser h) = Some h) ->
  (forall h z, 0 <= z < 2 ^ 32 -> att_size (set_att h z) = z) ->
  fh_wf (m_fh _ m) -> magic_value (m_fh _ m) = TRPC_MAGIC -> nb_wf (m_body _ m) -> nb_wf (m_att _ m) ->
  Z.of_nat (length (ser (enc_hdr H set_att m))) < 2 ^ 16 ->
  enc_total H ser set_att m < 2 ^ 32 -> enc_total H ser set_att m <= mx ->
  exists b rest frame m1, req_encode bmax H ser set_att m = Ok b /\
    check_message (Some mx) b = Ok (PACKET_FULL, rest, [frame]) /\ content rest = [] /\
    req_decode H parse att_size frame = Ok (Some m1) /\
    m_hdr _ m1 = enc_hdr H set_att m /\ content (m_body _ m1) = content (m_body _ m) /\
    content (m_att _ m1) = content (m_att _ m).
Proof.
  intros Hbm Hps Has Hfh Hmag Hb Ha Hpb Htot Hmx.
  destruct (roundtrip bmax Hbm H ser parse att_size set_att Hps Has m Hfh Hb Ha Hpb Htot)
    as (b & E1 & _ & E2 & E3 & E4).
  assert (Hg : good_frame (Some mx) (content b)) by (eapply encoded_good; eauto).
  destruct (check_good_single (Some mx) b E2 Hg ltac:(lia)) as (rest & frame & C1 & C2 & C3 & C4).
  destruct (E4 frame C4 C2) as [(m1 & D1 & D2 & D3 & D4 & _) _].
  exists b, rest, frame, m1. auto 10.
Qed.

Lemma t_ser_len h : t_rest h <> [] -> length (t_ser h) = (4 + length (t_rest h))%nat.
Proof.
  intros Hr. destruct h as [[[[a b] c] d] r]. unfold t_ser; cbn [t_att t_rest] in *.
  destruct r as [|x r]; [congruence|].
  destruct a; try reflexivity; destruct b; try reflexivity; destruct c; try reflexivity;
    destruct d; reflexivity.
Qed.

Lemma big_len r :
  Z.of_nat (length r) = 65532 ->
  Z.of_nat (length (t_ser (enc_hdr thdr t_set_att (big_msg r)))) = 65536.
Proof.
  intros Hr. unfold enc_hdr. cbn [m_hdr m_att big_msg nb_empty byte_size].
  rewrite t_ser_len.
  - unfold t_set_att. cbn [t_rest big_hdr]. lia.
  - unfold t_set_att. cbn [t_rest big_hdr]. intros E. rewrite E in Hr. discriminate.
Qed.

Lemma long_exists z : 0 <= z -> exists r : list byte, Z.of_nat (length r) = z.
Proof. intros Hz. exists (repeat Byte.x00 (Z.to_nat z)). rewrite repeat_length. apply Z2Nat.id; auto. Qed.

Lemma large_header_corrupts_r r :
  Z.of_nat (length r) = 65532 ->
  exists b rest frame m1,
    req_encode 16 thdr t_ser t_set_att (big_msg r) = Ok b /\
    check_message (Some (2 ^ 20)) b = Ok (PACKET_FULL, rest, [frame]) /\ content frame = content b /\
    req_decode thdr t_parse t_att_size frame = Ok (Some m1) /\
    content (m_body _ (big_msg r)) = [] /\ Z.of_nat (length (content (m_body _ m1))) = 65536 /\
    m_hdr _ m1 <> m_hdr _ (big_msg r).
Proof.
  intros Hr. pose proof (big_len r Hr) as big_len.
  destruct (req_encode_spec 16 (le_n 16) thdr t_ser t_set_att (big_msg r) eq_refl wf_empty wf_empty)
    as (b & E1 & E2 & E3).
  assert (Etot : enc_total thdr t_ser t_set_att (big_msg r) = 65552).
  { unfold enc_total. rewrite big_len. reflexivity. }
  rewrite Etot, big_len in E3.
  change (u32 65552) with 65552 in E3. change (u16 65536) with 0 in E3.
  set (fh' := with_sizes (m_fh thdr (big_msg r)) 65552 0) in E3.
  assert (Hfh' : fh_wf fh') by (unfold fh_wf, fh'; simpl; unfold TRPC_MAGIC; lia).
  change (content (m_body thdr (big_msg r))) with (@nil byte) in E3.
  change (content (m_att thdr (big_msg r))) with (@nil byte) in E3. rewrite !app_nil_r in E3.
  set (pb := t_ser (enc_hdr thdr t_set_att (big_msg r))) in *.
  assert (Hl : length (fh_encode fh') = 16%nat) by reflexivity.
  assert (Hpbl : Z.of_nat (length pb) = 65536) by exact big_len.
  clearbody pb.
  assert (Hlen : Z.of_nat (length (content b)) = 65552) by (rewrite E3, app_length, Hl; lia).
  pose proof (header_layout fh' Hfh') as (L1 & _ & _ & L4 & L5 & _).
  assert (Hg : good_frame (Some (2 ^ 20)) (content b)).
  { split; [lia|]. rewrite E3 in *. split.
    - rewrite firstn2_app by lia. reflexivity.
    - rewrite declared_size_app, declared_pb_app by lia. unfold declared_size, declared_pb.
      rewrite L4, L5, Hlen. change (data_frame_size fh') with 65552. change (pb_header_size fh') with 0. lia. }
  destruct (check_good_single (Some (2 ^ 20)) b E2 Hg ltac:(lia)) as (rest & frame & C1 & C2 & C3 & C4).
  destruct (decode_agrees thdr t_parse t_att_size frame C4) as [D _].
  rewrite C2, E3 in D. unfold dec_bytes in D.
  rewrite fh_parse_encode_wf in D by auto.
  rewrite app_length in D. rewrite Hl in D.
  replace (16 + length pb <? 16)%nat with false in D by (symmetry; apply Nat.ltb_ge; lia).
  replace (skipn 16 (fh_encode fh' ++ pb)) with pb in D
    by (rewrite <- Hl, skipn_app, skipn_all, Nat.sub_diag; reflexivity).
  change (pb_header_size fh') with 0 in D. change (data_frame_size fh') with 65552 in D.
  change (Z.to_nat 0) with 0%nat in D.
  replace (Z.of_nat (length pb) <? 0) with false in D by lia.
  replace (65552 =? Z.of_nat (16 + length pb)) with true in D by lia.
  cbn [negb andb firstn skipn t_parse] in D.
  change (t_att_size (mk_thdr (Byte.x00, Byte.x00, Byte.x00, Byte.x00) [])) with 0 in D.
  replace (Z.of_nat (length pb) <? 0) with false in D by lia.
  change (Z.to_nat 0) with 0%nat in D. rewrite Nat.sub_0_r in D. rewrite firstn_all in D.
  cbn [dec_agrees] in D. destruct D as (m1 & D1 & D2 & D3 & D4 & D5 & _).
  exists b, rest, frame, m1. split; auto. split; auto. split; auto. split; auto. split; auto.
  split; [rewrite D4; exact Hpbl|].
  rewrite D3. cbn [m_hdr big_msg]. intros E. apply (f_equal (fun h => length (t_rest h))) in E.
  cbn [t_rest big_hdr length] in E. symmetry in E. rewrite E in Hr. discriminate.
Qed.

Lemma large_header_corrupts :
  exists r b rest frame m1,
    req_encode 16 thdr t_ser t_set_att (big_msg r) = Ok b /\
    check_message (Some (2 ^ 20)) b = Ok (PACKET_FULL, rest, [frame]) /\ content frame = content b /\
    req_decode thdr t_parse t_att_size frame = Ok (Some m1) /\
    content (m_body _ (big_msg r)) = [] /\ Z.of_nat (length (content (m_body _ m1))) = 65536 /\
    m_hdr _ m1 <> m_hdr _ (big_msg r).
Proof.
  destruct (long_exists 65532 ltac:(lia)) as (r & Hr). exists r. exact (large_header_corrupts_r r Hr).
Qed.

(** ** C05/C06 *)
Lemma malformed_chunking :
  exists mx r1 r2 c1 c2,
    concat (map (@concat byte) r1) = concat (map (@concat byte) r2) /\
    read_events mx conn0 r1 = Ok c1 /\ read_events mx conn0 r2 = Ok c2 /\
    map content (c_handled c1) = [tiny_frame] /\ c_handled c2 = [].
Proof.
  exists 100, [[tiny_frame]; [repeat Byte.x00 16]], [[tiny_frame ++ repeat Byte.x00 16]].
  eexists. eexists. split; [reflexivity|]. split; [vm_compute; reflexivity|].
  split; [vm_compute; reflexivity|]. split; reflexivity.
Qed.

Lemma truncated_total maxp b :
  Z.of_nat (byte_size b) mod 2 ^ 32 < 16 -> check_message maxp b = Ok (PACKET_LESS, b, []).
Proof.
  intros H. unfold check_message. cbn [check_loop]. unfold u32.
  replace (Z.of_nat (byte_size b) mod 2 ^ 32 <? 16) with true by lia. reflexivity.
Qed.

Lemma huge_buffer_stalls :
  exists b r, nb_wf b /\ content b = tiny_frame ++ r /\ good_frame None tiny_frame /\
    check_message None b = Ok (PACKET_LESS, b, []).
Proof.
  destruct (long_exists (2 ^ 32 - 17) ltac:(lia)) as (r & Hr).
  exists (nb_append_block (nb_append_block nb_empty tiny_frame) r), r.
  assert (Hne : r <> []) by (intros E; rewrite E in Hr; discriminate).
  destruct (nb_append_block_spec nb_empty tiny_frame wf_empty ltac:(discriminate)) as [E1 E2].
  destruct (nb_append_block_spec _ _ E2 Hne) as [E3 E4].
  split; auto. split; [rewrite E3, E1; reflexivity|]. split.
  { unfold good_frame. split; [simpl; lia|]. split; [reflexivity|]. split; [reflexivity|].
    split; [vm_compute; discriminate|auto]. }
  apply truncated_total. destruct E4 as [E4 _]. rewrite E4, E3, E1, !app_length.
  change (length (content nb_empty)) with 0%nat. change (length tiny_frame) with 17%nat.
  rewrite !Nat2Z.inj_add, Hr. reflexivity.
Qed.

Lemma unchecked_decode_ub :
  exists b, nb_wf b /\ length (content b) = 16%nat /\
    req_decode thdr t_parse t_att_size b = UB /\ rsp_decode thdr t_parse t_att_size b = UB /\
    data_decode b = UB.
Proof.
  exists (nb_append_block nb_empty (firstn 9 tiny_frame ++ Byte.x01 :: skipn 10 (firstn 16 tiny_frame))).
  split; [|split; [reflexivity|split; [|split]; vm_compute; reflexivity]].
  split; [reflexivity|]. constructor; [discriminate|constructor].
Qed.

(** ** C07 *)
Lemma meta_roundtrip bmax M ser parse k fh (m : M) :
  (16 <= bmax)%nat -> (forall x, parse (ser x) = Some x) ->
  fh_wf fh -> data_frame_type fh = 1 -> stream_frame_type fh = sframe_type k ->
  16 + Z.of_nat (length (ser m)) < 2 ^ 32 ->
  exists b, meta_encode bmax M ser k fh m = Ok (Some b) /\
    forall b', nb_wf b' -> content b' = content b ->
    exists fh', meta_decode M parse k b' = Ok (Some (fh', m)) /\ stream_id fh' = stream_id fh /\
      data_frame_size fh' = Z.of_nat (length (content b)).
Proof.
  intros Hbm Hps Hfh Hd Hs Hlen. pose proof Hfh as (F1 & F2 & F3 & F4 & F5 & F6 & F7).
  assert (Hc : check_types fh (sframe_type k) = true).
  { unfold check_types, STREAM_FRAME. rewrite Hd, Hs, !Z.eqb_refl. reflexivity. }
  destruct (meta_encode_spec bmax Hbm M ser k fh m F7 Hc) as (b & E1 & E2 & E3).
  exists b. split; auto. intros b' Hw' Hc'.
  assert (Hu : u32 (16 + Z.of_nat (length (ser m))) = 16 + Z.of_nat (length (ser m)))
    by (unfold u32; apply Z.mod_small; lia).
  rewrite Hu in E3. set (fh' := with_sizes fh _ _) in E3.
  assert (Hfh' : fh_wf fh').
  { unfold fh_wf, fh', with_sizes; cbn [magic_value data_frame_type stream_frame_type data_frame_size
      pb_header_size stream_id reversed]. repeat (split; [lia|]). exact F7. }
  rewrite E3 in Hc'.
  rewrite (meta_decode_spec M parse k b' fh' (ser m) Hw' Hc' Hfh' eq_refl).
  rewrite Hps. change (check_types fh' (sframe_type k)) with (check_types fh (sframe_type k)).
  rewrite Hc. exists fh'. split; auto. split; auto.
  rewrite E3, app_length, fh_encode_length by exact F7. rewrite Nat2Z.inj_add. reflexivity.
Qed.

Lemma data_roundtrip bmax fh body :
  (16 <= bmax)%nat -> fh_wf fh -> data_frame_type fh = 1 -> stream_frame_type fh = 2 ->
  nb_wf body -> 16 + Z.of_nat (length (content body)) < 2 ^ 32 ->
  exists b, data_encode bmax fh body = Ok (Some b) /\
    forall b', nb_wf b' -> content b' = content b ->
    exists fh' body', data_decode b' = Ok (Some (fh', body')) /\ content body' = content body /\
      stream_id fh' = stream_id fh /\ stream_frame_type fh' = 2 /\ data_frame_type fh' = 1.
Proof.
  intros Hbm Hfh Hd Hs Hw Hlen. pose proof Hfh as (F1 & F2 & F3 & F4 & F5 & F6 & F7).
  assert (Hc : check_types fh DATA_TYPE = true).
  { unfold check_types, STREAM_FRAME, DATA_TYPE. rewrite Hd, Hs. reflexivity. }
  destruct (data_encode_spec bmax Hbm fh body F7 Hw Hc) as (b & E1 & E2 & E3).
  exists b. split; auto. intros b' Hw' Hc'. pose proof Hw as [Hsz _].
  assert (Hu : u32 (16 + Z.of_nat (byte_size body)) = 16 + Z.of_nat (length (content body)))
    by (rewrite Hsz; unfold u32; apply Z.mod_small; lia).
  rewrite Hu in E3. set (fh' := with_sizes fh _ _) in E3.
  assert (Hfh' : fh_wf fh').
  { unfold fh_wf, fh', with_sizes; cbn [magic_value data_frame_type stream_frame_type data_frame_size
      pb_header_size stream_id reversed]. repeat (split; [lia|]). exact F7. }
  rewrite E3 in Hc'.
  destruct (data_decode_spec b' fh' (content body) Hw' Hc' Hfh' eq_refl) as (body' & D1 & D2 & D3).
  exists fh', body'. auto 10.
Qed.

Lemma encode_wrong_types bmax M (ser : M -> list byte) k fh m body :
  (data_frame_type fh <> 1 \/ stream_frame_type fh <> sframe_type k ->
     meta_encode bmax M ser k fh m = Ok None) /\
  (data_frame_type fh <> 1 \/ stream_frame_type fh <> 2 -> data_encode bmax fh body = Ok None).
Proof.
  unfold meta_encode, data_encode, check_types, STREAM_FRAME, DATA_TYPE. split; intros H.
  - replace ((1 =? data_frame_type fh) && (sframe_type k =? stream_frame_type fh)) with false; auto.
    symmetry. apply andb_false_iff. lia.
  - replace ((1 =? data_frame_type fh) && (2 =? stream_frame_type fh)) with false; auto.
    symmetry. apply andb_false_iff. lia.
Qed.

Lemma meta_decode_total M (parse : list byte -> option M) k b :
  nb_wf b -> Z.of_nat (length (content b)) < 2 ^ 63 ->
  exists r, meta_decode M parse k b = Ok r /\
    match r with
    | Some (fh, _) => be_dec (bytes_at 2 1 (content b)) = 1 /\
                      be_dec (bytes_at 3 1 (content b)) = sframe_type k /\
                      stream_id fh = be_dec (bytes_at 10 4 (content b)) /\
                      16 <= declared_size (content b) <= Z.of_nat (length (content b))
    | None => True
    end.
Proof.
  intros Hw H63. unfold meta_decode. destruct (Nat.lt_ge_cases (length (content b)) 16) as [Hl|Hl].
  - rewrite fh_decode_short by auto. exists None. auto.
  - destruct (fh_decode_long b true Hw Hl) as (b1 & E1 & E2 & E3). rewrite E1. cbn [bind].
    pose proof (fh_parse_wf (content b) Hl) as (_ & _ & _ & F4 & _).
    set (fh := fh_parse (content b)) in *.
    pose proof E2 as [Hs1 _].
    set (ms := (data_frame_size fh - 16) mod 2 ^ 64).
    assert (Hms : 0 <= ms) by (apply Z.mod_pos_bound; lia).
    destruct (Z.ltb_spec (Z.of_nat (byte_size b1)) ms) as [Hlt|Hge]; [exists None; auto|].
    destruct (nb_cut_spec b1 (Z.to_nat ms) E2 ltac:(lia)) as (meta & b2 & C1 & C2 & C3 & C4 & C5).
    rewrite C1. cbn [bind]. rewrite (pb_parse_spec M parse meta C4). cbn [bind].
    destruct (parse (content meta)) as [m|]; [|exists None; auto].
    destruct (check_types fh (sframe_type k)) eqn:Ec; [|exists None; auto].
    eexists; split; [reflexivity|]. cbn beta iota.
    unfold check_types, STREAM_FRAME in Ec. apply andb_true_iff in Ec. destruct Ec as [Ec1 Ec2].
    split; [change (data_frame_type fh = 1); lia|]. split; [change (stream_frame_type fh = sframe_type k); lia|].
    split; [reflexivity|]. change (declared_size (content b)) with (data_frame_size fh).
    rewrite Hs1, E3, skipn_length in Hge. subst ms. clear Hms.
    destruct (Z.lt_ge_cases (data_frame_size fh) 16) as [Hx|Hx].
    + exfalso. replace (data_frame_size fh - 16) with (data_frame_size fh - 16 + 2 ^ 64 + (-1) * 2 ^ 64) in Hge by lia.
      rewrite Z_mod_plus_full, Z.mod_small in Hge by lia. lia.
    + rewrite Z.mod_small in Hge by lia. lia.
Qed.

(** ** C02, C03 *)
Section Unary.
  Variable bmax : nat.
  Variable H : Type.
  Variable ser : H -> list byte.
  Variable parse : list byte -> option H.
  Variable att_size : H -> Z.
  Variable set_att : H -> Z -> H.
  Variable m : message H.
  Hypothesis Hbm : (16 <= bmax)%nat.
  Hypothesis Hps : forall h, parse (ser h) = Some h.
  Hypothesis Has : forall h z, 0 <= z < 2 ^ 32 -> att_size (set_att h z) = z.
  Hypothesis Hfh : fh_wf (m_fh _ m).
  Hypothesis Hb : nb_wf (m_body _ m).
  Hypothesis Ha : nb_wf (m_att _ m).
  Hypothesis Hpb : Z.of_nat (length (ser (enc_hdr H set_att m))) < 2 ^ 16.
  Hypothesis Htot : enc_total H ser set_att m < 2 ^ 32.

  Lemma request_roundtrip :
    exists b, req_encode bmax H ser set_att m = Ok b /\ nb_wf b /\
      Z.of_nat (length (content b)) = enc_total H ser set_att m /\
      forall b', nb_wf b' -> content b' = content b ->
      exists m1, req_decode H parse att_size b' = Ok (Some m1) /\
        m_hdr _ m1 = enc_hdr H set_att m /\ content (m_body _ m1) = content (m_body _ m) /\
        content (m_att _ m1) = content (m_att _ m) /\ stream_id (m_fh _ m1) = stream_id (m_fh _ m).
  Proof.
    destruct (roundtrip bmax Hbm H ser parse att_size set_att Hps Has m Hfh Hb Ha Hpb Htot)
      as (b & E1 & E2 & E3 & E4 & E5).
    exists b. repeat (split; [assumption|]). intros b' Hw Hc. apply (E5 b' Hw Hc).
  Qed.

  Lemma response_roundtrip :
    exists b, rsp_encode bmax H ser set_att m = Ok b /\ nb_wf b /\
      Z.of_nat (length (content b)) = enc_total H ser set_att m /\
      forall b', nb_wf b' -> content b' = content b ->
      exists m1, rsp_decode H parse att_size b' = Ok (Some m1) /\
        m_hdr _ m1 = enc_hdr H set_att m /\ content (m_body _ m1) = content (m_body _ m) /\
        content (m_att _ m1) = content (m_att _ m) /\ stream_id (m_fh _ m1) = stream_id (m_fh _ m).
  Proof.
    destruct (roundtrip bmax Hbm H ser parse att_size set_att Hps Has m Hfh Hb Ha Hpb Htot)
      as (b & E1 & E2 & E3 & E4 & E5).
    exists b. repeat (split; [assumption|]). intros b' Hw Hc. apply (E5 b' Hw Hc).
  Qed.
End Unary.

Lemma bad_head_rejected maxp b :
  nb_wf b -> Z.of_nat (length (content b)) < 2 ^ 32 -> bad_head maxp (content b) ->
  exists rest, check_message maxp b = Ok (PACKET_ERR, rest, []) /\ content rest = content b.
Proof.
  intros Hw Hl Hb. destruct (check_message_bad maxp b Hw Hb Hl) as [E|E]; [|exact E].
  exists b; auto.
Qed.
