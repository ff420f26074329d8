(** Properties C01-C07: tRPC fixed header, unary messages, framing, stream frames. *)
From Verif.Lib Require Import Base Bytes.
From Verif.Buffer Require Import Model Machine.
From Verif.TrpcCodec Require Import Model Spec Machine Instance ProofsChecker ProofsMain Proofs ProofsExact.
Local Open Scope Z_scope.

(** * C01 *)

(** Decoding what was encoded, in any block layout and whatever follows it, gives the header
    back and consumes exactly 16 bytes. *)
Theorem C01_header_roundtrip h b q :
  fh_wf h -> nb_wf b -> content b = fh_encode h ++ q ->
  length (fh_encode h) = 16%nat /\
  exists b', fh_decode b true = Ok (Some h, b') /\ content b' = q /\ nb_wf b'.
Proof. exact (header_roundtrip h b q). Qed.
Print Assumptions C01_header_roundtrip.

(** Where each field is on the wire, big endian. *)
Theorem C01_wire_layout h :
  fh_wf h ->
  let e := fh_encode h in
  be_dec (bytes_at 0 2 e) = magic_value h /\ be_dec (bytes_at 2 1 e) = data_frame_type h /\
  be_dec (bytes_at 3 1 e) = stream_frame_type h /\ be_dec (bytes_at 4 4 e) = data_frame_size h /\
  be_dec (bytes_at 8 2 e) = pb_header_size h /\ be_dec (bytes_at 10 4 e) = stream_id h /\
  bytes_at 14 2 e = reversed h.
Proof. exact (header_layout h). Qed.
Print Assumptions C01_wire_layout.

Theorem C01_bytes_roundtrip b skip :
  nb_wf b -> (16 <= length (content b))%nat ->
  exists h b', fh_decode b skip = Ok (Some h, b') /\ fh_wf h /\ fh_encode h = firstn 16 (content b) /\
    content b' = if skip then skipn 16 (content b) else content b.
Proof. exact (header_bytes_roundtrip b skip). Qed.
Print Assumptions C01_bytes_roundtrip.

Theorem C01_short_fails b skip :
  nb_wf b -> (length (content b) < 16)%nat -> fh_decode b skip = Ok (None, b).
Proof. exact (fh_decode_short b skip). Qed.
Print Assumptions C01_short_fails.

Example C01_case :
  let b := mk_nbuf [firstn 3 tiny_frame; skipn 3 tiny_frame] 17 in
  nb_wf b /\ fh_decode b true =
    Ok (Some (mk_fh 2352 0 0 17 0 5 [Byte.x00; Byte.x00]), mk_nbuf [[Byte.xff]] 1).
Proof. split; [repeat split; repeat constructor; discriminate|reflexivity]. Qed.

(** * C02, C03 *)

(** For every pb codec whose parser inverts its serializer and whose attachment-size field can
    be read back. Decoding works for every block layout of the produced bytes. *)
Theorem C02_request_roundtrip bmax H ser parse att_size set_att (m : message H) :
  (16 <= bmax)%nat ->
  (forall h, parse (ser h) = Some h) ->
  (forall h z, 0 <= z < 2 ^ 32 -> att_size (set_att h z) = z) ->
  fh_wf (m_fh _ m) -> nb_wf (m_body _ m) -> nb_wf (m_att _ m) ->
  Z.of_nat (length (ser (enc_hdr H set_att m))) < 2 ^ 16 ->
  enc_total H ser set_att m < 2 ^ 32 ->
  exists b, req_encode bmax H ser set_att m = Ok b /\ nb_wf b /\
    Z.of_nat (length (content b)) = enc_total H ser set_att m /\
    forall b', nb_wf b' -> content b' = content b ->
    exists m1, req_decode H parse att_size b' = Ok (Some m1) /\
      m_hdr _ m1 = enc_hdr H set_att m /\ content (m_body _ m1) = content (m_body _ m) /\
      content (m_att _ m1) = content (m_att _ m) /\ stream_id (m_fh _ m1) = stream_id (m_fh _ m).
Proof. exact (request_roundtrip bmax H ser parse att_size set_att m). Qed.
Print Assumptions C02_request_roundtrip.

Theorem C03_response_roundtrip bmax H ser parse att_size set_att (m : message H) :
  (16 <= bmax)%nat ->
  (forall h, parse (ser h) = Some h) ->
  (forall h z, 0 <= z < 2 ^ 32 -> att_size (set_att h z) = z) ->
  fh_wf (m_fh _ m) -> nb_wf (m_body _ m) -> nb_wf (m_att _ m) ->
  Z.of_nat (length (ser (enc_hdr H set_att m))) < 2 ^ 16 ->
  enc_total H ser set_att m < 2 ^ 32 ->
  exists b, rsp_encode bmax H ser set_att m = Ok b /\ nb_wf b /\
    Z.of_nat (length (content b)) = enc_total H ser set_att m /\
    forall b', nb_wf b' -> content b' = content b ->
    exists m1, rsp_decode H parse att_size b' = Ok (Some m1) /\
      m_hdr _ m1 = enc_hdr H set_att m /\ content (m_body _ m1) = content (m_body _ m) /\
      content (m_att _ m1) = content (m_att _ m) /\ stream_id (m_fh _ m1) = stream_id (m_fh _ m).
Proof. exact (response_roundtrip bmax H ser parse att_size set_att m). Qed.
Print Assumptions C03_response_roundtrip.

(** The hypotheses about the pb codec can be met. *)
Theorem C02_codec_exists :
  (forall h, t_parse (t_ser h) = Some h) /\
  (forall h z, 0 <= z < 2 ^ 32 -> t_att_size (t_set_att h z) = z).
Proof. exact (conj t_parse_ser t_att_set). Qed.
Print Assumptions C02_codec_exists.

Example C02_case :
  let m := mk_msg thdr fh0 (mk_thdr (Byte.x00, Byte.x00, Byte.x00, Byte.x00) [Byte.x41])
             (mk_nbuf [[Byte.x01; Byte.x02]; [Byte.x03]] 3) (mk_nbuf [[Byte.xff; Byte.xfe]] 2) in
  exists b m1 m2, req_encode 16 thdr t_ser t_set_att m = Ok b /\
    length (content b) = 26%nat /\
    req_decode thdr t_parse t_att_size b = Ok (Some m1) /\
    rsp_decode thdr t_parse t_att_size b = Ok (Some m2) /\
    content (m_body _ m1) = [Byte.x01; Byte.x02; Byte.x03] /\
    content (m_att _ m2) = [Byte.xff; Byte.xfe].
Proof.
  eexists; eexists; eexists. split; [vm_compute; reflexivity|]. split; [reflexivity|].
  split; [vm_compute; reflexivity|]. split; [vm_compute; reflexivity|]. split; reflexivity.
Qed.

(** * C04 *)

(** What is missing: the size bounds, which the encoder does not check (see the refutation). *)
Theorem C04_encoded_accepted_partial bmax H ser parse att_size set_att (m : message H) mx :
  (16 <= bmax)%nat ->
  (forall h, parse (ser h) = Some h) ->
  (forall h z, 0 <= z < 2 ^ 32 -> att_size (set_att h z) = z) ->
  fh_wf (m_fh _ m) -> magic_value (m_fh _ m) = TRPC_MAGIC -> nb_wf (m_body _ m) -> nb_wf (m_att _ m) ->
  Z.of_nat (length (ser (enc_hdr H set_att m))) < 2 ^ 16 ->
  enc_total H ser set_att m < 2 ^ 32 -> enc_total H ser set_att m <= mx ->
  exists b rest frame m1, req_encode bmax H ser set_att m = Ok b /\
    check_message (Some mx) b = Ok (PACKET_FULL, rest, [frame]) /\ content rest = [] /\
    req_decode H parse att_size frame = Ok (Some m1) /\
    m_hdr _ m1 = enc_hdr H set_att m /\ content (m_body _ m1) = content (m_body _ m) /\
    content (m_att _ m1) = content (m_att _ m).
Proof. exact (encoded_accepted bmax H ser parse att_size set_att m mx). Qed.
Print Assumptions C04_encoded_accepted_partial.

(** The sizes are all that is missing: a request arrives exactly when its header fits 16 bits, its
    frame 32 bits and the receiver's limit. *)
Theorem C04_exact bmax H ser parse att_size set_att (m : message H) mx :
  (16 <= bmax)%nat ->
  fh_wf (m_fh _ m) -> nb_wf (m_body _ m) -> nb_wf (m_att _ m) ->
  (forall h, parse (ser h) = Some h) ->
  (forall h z, 0 <= z < 2 ^ 32 -> att_size (set_att h z) = z) ->
  magic_value (m_fh _ m) = TRPC_MAGIC ->
  exists b, req_encode bmax H ser set_att m = Ok b /\
  ((exists rest frame m1, check_message (Some mx) b = Ok (PACKET_FULL, rest, [frame]) /\ content rest = [] /\
      req_decode H parse att_size frame = Ok (Some m1) /\ m_hdr _ m1 = enc_hdr H set_att m /\
      content (m_body _ m1) = content (m_body _ m) /\ content (m_att _ m1) = content (m_att _ m)) <->
   Z.of_nat (length (ser (enc_hdr H set_att m))) < 2 ^ 16 /\ enc_total H ser set_att m < 2 ^ 32 /\ enc_total H ser set_att m <= mx).
Proof. exact (fun A B C D E F => transfer_exact bmax A H ser parse att_size set_att m B C D E F mx). Qed.
Print Assumptions C04_exact.

(** A response whose header does not fit never decodes to what was sent, either. *)
Theorem C04_response_sizes bmax H ser parse att_size set_att (m : message H) :
  (16 <= bmax)%nat -> fh_wf (m_fh _ m) -> nb_wf (m_body _ m) -> nb_wf (m_att _ m) ->
  exists b, rsp_encode bmax H ser set_att m = Ok b /\ nb_wf b /\
    forall b' m1, nb_wf b' -> content b' = content b -> rsp_decode H parse att_size b' = Ok (Some m1) ->
      content (m_body _ m1) = content (m_body _ m) -> content (m_att _ m1) = content (m_att _ m) ->
      Z.of_nat (length (ser (enc_hdr H set_att m))) < 2 ^ 16.
Proof. exact (fun A B C D => response_sizes bmax A H ser parse att_size set_att m B C D). Qed.
Print Assumptions C04_response_sizes.

(** Finding: with a 65536-byte pb header the 16-bit size wraps to 0, encode reports success, the
    receiver's check accepts the frame and decode succeeds with a different header and body. *)
Theorem C04_large_header_refuted :
  exists r b rest frame m1,
    req_encode 16 thdr t_ser t_set_att (big_msg r) = Ok b /\
    check_message (Some (2 ^ 20)) b = Ok (PACKET_FULL, rest, [frame]) /\ content frame = content b /\
    req_decode thdr t_parse t_att_size frame = Ok (Some m1) /\
    content (m_body _ (big_msg r)) = [] /\ Z.of_nat (length (content (m_body _ m1))) = 65536 /\
    m_hdr _ m1 <> m_hdr _ (big_msg r).
Proof. exact large_header_corrupts. Qed.
Print Assumptions C04_large_header_refuted.

(** * C05 *)

(** [reads] are the read events, each delivering some blocks; together they deliver the frames
    and the beginning of one more. *)
Theorem C05_chunk_independent mx frames tail reads :
  Forall (good_frame (Some mx)) frames -> partial_frame (Some mx) tail ->
  concat (map (@concat byte) reads) = concat frames ++ tail ->
  Forall (Forall (fun l : block => l <> [])) reads ->
  Forall (fun r => Z.max 15 mx + Z.of_nat (length (concat r)) < 2 ^ 32) reads ->
  exists c', read_events mx conn0 reads = Ok c' /\ c_closed c' = false /\
    map content (c_handled c') = frames /\ content (c_buf c') = tail /\
    byte_size (c_buf c') = length tail.
Proof. exact (chunk_independent mx frames tail reads). Qed.
Print Assumptions C05_chunk_independent.

Example C05_case :
  good_frame (Some 100) tiny_frame /\
  exists c, read_events 100 conn0
      [[firstn 3 tiny_frame]; [skipn 3 tiny_frame; firstn 2 tiny_frame]; [skipn 2 tiny_frame; [Byte.x09]]]
    = Ok c /\ map content (c_handled c) = [tiny_frame; tiny_frame] /\ content (c_buf c) = [Byte.x09].
Proof.
  split; [unfold good_frame; vm_compute; repeat split; try discriminate; lia|].
  eexists; split; [vm_compute; reflexivity|split; reflexivity].
Qed.

(** Finding: with malformed bytes after a good frame, whether the good frame is handled depends
    on the chunking. *)
Theorem C05_malformed_chunking_refuted :
  exists mx r1 r2 c1 c2,
    concat (map (@concat byte) r1) = concat (map (@concat byte) r2) /\
    read_events mx conn0 r1 = Ok c1 /\ read_events mx conn0 r2 = Ok c2 /\
    map content (c_handled c1) = [tiny_frame] /\ c_handled c2 = [].
Proof. exact malformed_chunking. Qed.
Print Assumptions C05_malformed_chunking_refuted.

(** * C06 *)

Theorem C06_check_conserves maxp b :
  nb_wf b ->
  exists code rest frames, check_message maxp b = Ok (code, rest, frames) /\
    nb_wf rest /\ Forall nb_wf frames /\
    content b = concat (map content frames) ++ content rest /\
    Forall (good_frame maxp) (map content frames) /\
    (code = PACKET_ERR -> bad_head maxp (content rest)) /\
    (code <> PACKET_ERR -> code = match frames with [] => PACKET_LESS | _ => PACKET_FULL end) /\
    (code <> PACKET_ERR -> Z.of_nat (length (content b)) < 2 ^ 32 -> needs_more maxp (content rest)).
Proof. exact (check_message_spec maxp b). Qed.
Print Assumptions C06_check_conserves.

Theorem C06_bad_head_rejected maxp b :
  nb_wf b -> Z.of_nat (length (content b)) < 2 ^ 32 -> bad_head maxp (content b) ->
  exists rest, check_message maxp b = Ok (PACKET_ERR, rest, []) /\ content rest = content b.
Proof. exact (bad_head_rejected maxp b). Qed.
Print Assumptions C06_bad_head_rejected.

(** A frame the check accepted can be decoded without undefined behaviour, by every decoder. *)
Theorem C06_checked_frame_decodable maxp H (parse : list byte -> option H) att_size b :
  nb_wf b -> good_frame maxp (content b) ->
  req_decode H parse att_size b <> UB /\ rsp_decode H parse att_size b <> UB /\
  data_decode b <> UB /\
  (exists x, req_decode H parse att_size b = Ok x) /\
  (exists x, rsp_decode H parse att_size b = Ok x) /\ (exists x, data_decode b = Ok (Some x)).
Proof. exact (checked_frame_decodable maxp H parse att_size b). Qed.
Print Assumptions C06_checked_frame_decodable.

Example C06_case :
  let b := mk_nbuf [tiny_frame; [Byte.x09; Byte.x31]; repeat Byte.x00 14] 33 in
  nb_wf b /\ exists rest fs, check_message (Some 100) b = Ok (PACKET_ERR, rest, fs) /\
    map content fs = [tiny_frame] /\ length (content rest) = 16%nat.
Proof.
  split; [repeat split; repeat constructor; discriminate|].
  eexists; eexists; split; [vm_compute; reflexivity|split; reflexivity].
Qed.

(** Finding: the size of the buffer is truncated to 32 bits, so a complete frame at the head of
    a buffer of exactly 4 GiB is not extracted. *)
Theorem C06_huge_buffer_refuted :
  exists b r, nb_wf b /\ content b = tiny_frame ++ r /\ good_frame None tiny_frame /\
    check_message None b = Ok (PACKET_LESS, b, []).
Proof. exact huge_buffer_stalls. Qed.
Print Assumptions C06_huge_buffer_refuted.

(** The message metadata used for dispatch is what bytes 2, 3 and 10-13 of the frame say; less than
    a fixed header is refused. *)
Theorem C06_metadata_from_header b :
  nb_wf b ->
  pick_metadata b =
  if (length (content b) <? 16)%nat then Ok None
  else let l := content b in
       Ok (Some (be_dec (bytes_at 2 1 l), be_dec (bytes_at 2 1 l) =? 1, be_dec (bytes_at 3 1 l),
                 be_dec (bytes_at 10 4 l))).
Proof. exact (pick_metadata_spec b). Qed.
Print Assumptions C06_metadata_from_header.

(** Finding: decoding 16 bytes that did not pass the check is undefined. *)
Theorem C06_decode_unchecked_refuted :
  exists b, nb_wf b /\ length (content b) = 16%nat /\
    req_decode thdr t_parse t_att_size b = UB /\ rsp_decode thdr t_parse t_att_size b = UB /\
    data_decode b = UB.
Proof. exact unchecked_decode_ub. Qed.
Print Assumptions C06_decode_unchecked_refuted.

(** * C07 *)

Theorem C07_meta_roundtrip bmax M ser parse k fh (m : M) :
  (16 <= bmax)%nat -> (forall x, parse (ser x) = Some x) ->
  fh_wf fh -> data_frame_type fh = 1 -> stream_frame_type fh = sframe_type k ->
  16 + Z.of_nat (length (ser m)) < 2 ^ 32 ->
  exists b, meta_encode bmax M ser k fh m = Ok (Some b) /\
    forall b', nb_wf b' -> content b' = content b ->
    exists fh', meta_decode M parse k b' = Ok (Some (fh', m)) /\ stream_id fh' = stream_id fh /\
      data_frame_size fh' = Z.of_nat (length (content b)).
Proof. exact (meta_roundtrip bmax M ser parse k fh m). Qed.
Print Assumptions C07_meta_roundtrip.

Theorem C07_data_roundtrip bmax fh body :
  (16 <= bmax)%nat -> fh_wf fh -> data_frame_type fh = 1 -> stream_frame_type fh = 2 ->
  nb_wf body -> 16 + Z.of_nat (length (content body)) < 2 ^ 32 ->
  exists b, data_encode bmax fh body = Ok (Some b) /\
    forall b', nb_wf b' -> content b' = content b ->
    exists fh' body', data_decode b' = Ok (Some (fh', body')) /\ content body' = content body /\
      stream_id fh' = stream_id fh /\ stream_frame_type fh' = 2 /\ data_frame_type fh' = 1.
Proof. exact (data_roundtrip bmax fh body). Qed.
Print Assumptions C07_data_roundtrip.

Theorem C07_encode_wrong_types_refused bmax M (ser : M -> list byte) k fh m body :
  (data_frame_type fh <> 1 \/ stream_frame_type fh <> sframe_type k ->
     meta_encode bmax M ser k fh m = Ok None) /\
  (data_frame_type fh <> 1 \/ stream_frame_type fh <> 2 -> data_encode bmax fh body = Ok None).
Proof. exact (encode_wrong_types bmax M ser k fh m body). Qed.
Print Assumptions C07_encode_wrong_types_refused.

(** INIT, FEEDBACK and CLOSE decoding is defined on all bytes and accepts only its own type. *)
Theorem C07_meta_decode_total M (parse : list byte -> option M) k b :
  nb_wf b -> Z.of_nat (length (content b)) < 2 ^ 63 ->
  exists r, meta_decode M parse k b = Ok r /\
    match r with
    | Some (fh, _) => be_dec (bytes_at 2 1 (content b)) = 1 /\
                      be_dec (bytes_at 3 1 (content b)) = sframe_type k /\
                      stream_id fh = be_dec (bytes_at 10 4 (content b)) /\
                      16 <= declared_size (content b) <= Z.of_nat (length (content b))
    | None => True
    end.
Proof. exact (meta_decode_total M parse k b). Qed.
Print Assumptions C07_meta_decode_total.

(** The numeric frame types on the wire. *)
Theorem C07_types_distinct :
  sframe_type SInit = 1 /\ DATA_TYPE = 2 /\ sframe_type SFeedback = 3 /\ sframe_type SClose = 4.
Proof. exact (conj eq_refl (conj eq_refl (conj eq_refl eq_refl))). Qed.
Print Assumptions C07_types_distinct.

Example C07_case :
  let fh := mk_fh 2352 1 3 0 0 9 [Byte.x00; Byte.x00] in
  exists b fh', meta_encode 16 (list byte) (fun l => l) SFeedback fh [Byte.x08; Byte.x01] = Ok (Some b) /\
    meta_decode (list byte) Some SFeedback b = Ok (Some (fh', [Byte.x08; Byte.x01])) /\
    stream_id fh' = 9 /\ meta_decode (list byte) Some SClose b = Ok None.
Proof.
  eexists; eexists. split; [vm_compute; reflexivity|]. split; [vm_compute; reflexivity|].
  split; vm_compute; reflexivity.
Qed.
