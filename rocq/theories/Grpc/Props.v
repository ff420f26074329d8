(** C53: gRPC message framing, time-outs and content types. *)
From Verif.Lib Require Import Base Bytes Decimal.
From Verif.Buffer Require Import Model Machine.
From Verif.Grpc Require Import Model Spec Proofs ProofsNum ProofsReq.
From Coq Require Import Strings.Byte Lists.List.
Import ListNotations.
Local Open Scope Z_scope.
Local Open Scope out_scope.
Local Open Scope list_scope.

(** ** Framing *)

(** The byte order conversion and the copies give network byte order, in both directions. *)
Theorem C53_network_order v a b c d :
  (0 <= v < 2 ^ 32 -> le_store (be_conv v) = be_enc 4 v) /\ be_conv (le_load [a; b; c; d]) = be_dec [a; b; c; d].
Proof. exact (conj (store_conv v) (conv_load a b c d)). Qed.
Print Assumptions C53_network_order.

Example C53_network_order_case : le_store (be_conv 66051) = [x00; x01; x02; x03] /\ be_conv (le_load [x00; x01; x02; x03]) = 66051.
Proof. split; reflexivity. Qed.

(** Encode writes one frame, for every layout of the payload in blocks and every size of a block. *)
Theorem C53_encode bmax c b : (5 <= bmax)%nat -> nb_wf b -> Z.of_nat (length (content b)) < 2 ^ 32 ->
  exists o, encode bmax (mk_message c (Z.of_nat (length (content b))) b) = Ok (Some o) /\ content o = frame c (content b) /\ nb_wf o /\
    byte_size o = byte_size_long (mk_message c (Z.of_nat (length (content b))) b).
Proof. exact (encode_ok bmax c b). Qed.
Print Assumptions C53_encode.

(** A length field that is not the length of the payload is refused. *)
Theorem C53_encode_mismatch bmax c n b : nb_wf b -> n <> Z.of_nat (length (content b)) -> encode bmax (mk_message c n b) = Ok None.
Proof. exact (encode_mismatch bmax c n b). Qed.
Print Assumptions C53_encode_mismatch.

Example C53_encode_case : encode 16 (mk_message x01 3 (mk_nbuf [[x61]; [x62; x63]] 3)) =
  Ok (Some (mk_nbuf [[x01; x00; x00; x00; x03]; [x61]; [x62; x63]] 8)) /\
  encode 16 (mk_message x01 4 (mk_nbuf [[x61]; [x62; x63]] 3)) = Ok None.
Proof. split; reflexivity. Qed.

(** Decode takes exactly the frame at the front, whatever the blocks. *)
Theorem C53_decode c p t b : nb_wf b -> content b = frame c p ++ t -> Z.of_nat (length p) < 2 ^ 32 - 5 ->
  exists m b', decode b = Ok (Some (m, b')) /\ compressed m = c /\ len m = Z.of_nat (length p) /\ content (body m) = p /\
    content b' = t /\ nb_wf (body m) /\ nb_wf b'.
Proof. exact (decode_frame c p t b). Qed.
Print Assumptions C53_decode.

Theorem C53_decode_incomplete b : nb_wf b -> incomplete (content b) -> announced (content b) < 2 ^ 32 - 5 -> decode b = Ok None.
Proof. exact (decode_incomplete b). Qed.
Print Assumptions C53_decode_incomplete.

Example C53_decode_case :
  decode (mk_nbuf [[x01; x00]; [x00; x00]; [x02; x61]; [x62; x63]] 8) =
    Ok (Some (mk_message x01 2 (mk_nbuf [[x61]; [x62]] 2), mk_nbuf [[x63]] 1)) /\
  decode (mk_nbuf [[x01; x00]; [x00; x00]; [x02; x61]] 6) = Ok None.
Proof. split; reflexivity. Qed.

(** Check hands out exactly the frame at the front, and only a complete one. *)
Theorem C53_check c p t b : nb_wf b -> content b = frame c p ++ t -> Z.of_nat (length p) < 2 ^ 32 - 5 ->
  exists o b', check b = Ok (Some (o, b')) /\ content o = frame c p /\ content b' = t /\ nb_wf o /\ nb_wf b'.
Proof. exact (check_frame c p t b). Qed.
Print Assumptions C53_check.

Theorem C53_check_incomplete b : nb_wf b -> incomplete (content b) -> announced (content b) < 2 ^ 32 - 5 -> check b = Ok None.
Proof. exact (check_incomplete b). Qed.
Print Assumptions C53_check_incomplete.

Theorem C53_check_sound b o b' : nb_wf b -> announced (content b) < 2 ^ 32 - 5 -> check b = Ok (Some (o, b')) ->
  exists c p, content b = frame c p ++ content b' /\ content o = frame c p /\ nb_wf o /\ nb_wf b'.
Proof. exact (check_some_inv b o b'). Qed.
Print Assumptions C53_check_sound.

(** The server's loop splits the data of a stream into its frames, in order, and keeps the unfinished rest. *)
Theorem C53_stream l b t : nb_wf b -> content b = frames l ++ t ->
  Forall (fun x : byte * list byte => Z.of_nat (length (snd x)) < 2 ^ 32 - 5) l -> incomplete t -> announced t < 2 ^ 32 - 5 ->
  exists os b', (forall extra, check_loop (S (length l) + extra) b [] = Ok ([] ++ os, b')) /\ content b' = t /\ nb_wf b' /\
    map content os = map (fun x => frame (fst x) (snd x)) l /\ Forall nb_wf os.
Proof. exact (loop_frames l b t []). Qed.
Print Assumptions C53_stream.

Example C53_stream_case :
  check_loop 3 (mk_nbuf [[x00; x00; x00; x00]; [x01; x61; x01; x00]; [x00; x00; x00; x00]] 12) [] =
    Ok ([mk_nbuf [[x00; x00; x00; x00]; [x01; x61]] 6; mk_nbuf [[x01; x00]; [x00; x00; x00]] 5], mk_nbuf [[x00]] 1) /\
  incomplete [x00].
Proof. split; [reflexivity|left; cbn; lia]. Qed.

(** Finding: expect_bytes is computed in 32 bits.  Five bytes from the peer that announce 2^32 - 5 bytes make
    Check hand out an empty frame and leave the input as it is, so the server's loop never ends and
    appends a frame in every round. *)
Theorem C53_loop_forever_refuted :
  exists b, nb_wf b /\ length (content b) = 5%nat /\ incomplete (content b) /\ forall fuel acc, check_loop fuel b acc = NoFuel.
Proof. exact loop_forever. Qed.
Print Assumptions C53_loop_forever_refuted.

(** Finding: for the same reason Decode cuts past the end of the buffer; every announced length from
    2^32 - 5 on does, in every buffer shorter than 4 GiB. *)
Theorem C53_decode_past_end_refuted :
  exists b, nb_wf b /\ length (content b) = 5%nat /\ incomplete (content b) /\ decode b = UB.
Proof. exact decode_ub. Qed.
Print Assumptions C53_decode_past_end_refuted.

Theorem C53_decode_wrap b : nb_wf b -> (5 <= length (content b))%nat -> Z.of_nat (length (content b)) < 2 ^ 32 ->
  2 ^ 32 - 5 <= announced (content b) -> decode b = UB.
Proof. exact (decode_wrap b). Qed.
Print Assumptions C53_decode_wrap.

Example C53_decode_wrap_case : announced [x01; xff; xff; xff; xff; x00] = 2 ^ 32 - 1.
Proof. reflexivity. Qed.

(** ** Time-outs *)

(** Every time-out of the protocol is read as its duration in microseconds, without overflow. *)
Theorem C53_timeout t ns : timeout_ns t ns -> exists us, timeout_text_to_us t = Ok us /\ to_us ns us /\ 0 <= us <= 360000000000000000.
Proof. exact (proto_timeout t ns). Qed.
Print Assumptions C53_timeout.

(** What the code does with all other texts: signs, white space and more digits are taken. *)
Theorem C53_timeout_loose t v u k : loose t v u -> fits64 v -> unit_ns u k -> k <> 1 ->
  (fits64 (v * (k / 1000)) -> timeout_text_to_us t = Ok (v * (k / 1000))) /\ (~ fits64 (v * (k / 1000)) -> timeout_text_to_us t = UB).
Proof. exact (timeout_exact t v u k). Qed.
Print Assumptions C53_timeout_loose.

Theorem C53_timeout_nano t v : loose t v x6e -> fits64 v ->
  (0 <= v -> v + 500 < 2 ^ 63 -> timeout_text_to_us t = Ok (Z.max 1 ((v + 500) / 1000))) /\
  (2 ^ 63 <= v + 500 -> timeout_text_to_us t = UB) /\
  (-1500 < v < 0 -> timeout_text_to_us t = Ok 1) /\
  (v <= -1500 -> timeout_text_to_us t = Ok (- ((- v - 500) / 1000))).
Proof. exact (timeout_nano t v). Qed.
Print Assumptions C53_timeout_nano.

Theorem C53_timeout_none t : (forall v u k, loose t v u -> unit_ns u k -> ~ fits64 v) -> timeout_text_to_us t = Ok (-1).
Proof. exact (timeout_none t). Qed.
Print Assumptions C53_timeout_none.

Example C53_timeout_case :
  timeout_text_to_us [x35; x48] = Ok 18000000000 /\ timeout_text_to_us [x31; x32; x4d] = Ok 720000000 /\
  timeout_text_to_us [x33; x53] = Ok 3000000 /\ timeout_text_to_us [x33; x6d] = Ok 3000 /\ timeout_text_to_us [x33; x75] = Ok 3 /\
  timeout_text_to_us [x31; x35; x30; x30; x6e] = Ok 2 /\ timeout_text_to_us [x31; x6e] = Ok 1 /\
  timeout_text_to_us [x31; x53; x53] = Ok (-1) /\ timeout_text_to_us [x53] = Ok (-1) /\ timeout_text_to_us [x31; x41] = Ok (-1) /\
  timeout_text_to_us [x31; x32] = Ok (-1).
Proof. repeat split. Qed.

(** The server's time-out is the one of the client, for every value. *)
Theorem C53_timeout_transfer ms : 0 <= ms < 2 ^ 32 -> server_timeout (timeout_text ms) = Ok (Some ms).
Proof. exact (client_server ms). Qed.
Print Assumptions C53_timeout_transfer.

(** A peer's time-out arrives modulo 2^32 milliseconds. *)
Theorem C53_timeout_server t ns : timeout_ns t ns -> exists us, to_us ns us /\ server_timeout t = Ok (Some ((us / 1000) mod 2 ^ 32)).
Proof. exact (server_proto t ns). Qed.
Print Assumptions C53_timeout_server.

(** Finding: "1194H" (49.75 days) becomes 57 minutes. *)
Theorem C53_timeout_cut_refuted : exists t ns, timeout_ns t ns /\ ns = 4298400 * 10 ^ 9 /\ server_timeout t = Ok (Some 3432704).
Proof. exact timeout_cut. Qed.
Print Assumptions C53_timeout_cut_refuted.

(** Finding: "-2S" is accepted and becomes 49 days; "-1u" is the code's own mark for no time-out. *)
Theorem C53_timeout_negative_refuted :
  server_timeout t_minus_2S = Ok (Some 4294965296) /\ loose t_minus_2S (-2) x53 /\ server_timeout t_minus_1u = Ok None.
Proof. exact timeout_negative. Qed.
Print Assumptions C53_timeout_negative_refuted.

(** Finding: a header can make the multiplication overflow (undefined behaviour). *)
Theorem C53_timeout_overflow_refuted : exists t v u, loose t v u /\ fits64 v /\ timeout_text_to_us t = UB.
Proof. exact timeout_overflow. Qed.
Print Assumptions C53_timeout_overflow_refuted.

(** Finding: the client's text leaves the protocol from 10^8 ms on (nine digits). *)
Theorem C53_timeout_too_long_refuted : exists ms, 0 <= ms < 2 ^ 32 /\ forall ns, ~ timeout_ns (timeout_text ms) ns.
Proof. exact timeout_too_long. Qed.
Print Assumptions C53_timeout_too_long_refuted.

(** ** Status *)

(** A status written by the server is read back, for every int. *)
Theorem C53_status x : - 2 ^ 31 <= x < 2 ^ 31 -> header_integer (dec_int x) = Ok (Some x).
Proof. exact (header_decimal x). Qed.
Print Assumptions C53_status.

(** Finding: any other text that does not start with a number ends the client process (uncaught exception). *)
Theorem C53_status_abort v : v <> [] ->
  (forall x rest, ~ (exists ws sg k ds, v = ws ++ sg ++ ds ++ rest /\ white ws /\ signed sg k /\ ds <> [] /\ digits ds /\ x = k * number ds)) ->
  header_integer v = Abort.
Proof. exact (header_abort v). Qed.
Print Assumptions C53_status_abort.

Theorem C53_status_abort_refuted :
  header_integer [x61; x62; x63] = Abort /\ header_integer [x39; x39; x39; x39; x39; x39; x39; x39; x39; x39] = Abort /\
  header_integer [x31; x32; x61] = Ok (Some 12).
Proof. exact status_abort. Qed.
Print Assumptions C53_status_abort_refuted.

(** The table of status texts is never left. *)
Theorem C53_status_text s : exists i, status_index s = Ok i /\ 0 <= i <= 17 /\ (0 <= s <= 16 -> i = s) /\ (s < 0 \/ 16 < s -> i = 17).
Proof. exact (status_ok s). Qed.
Print Assumptions C53_status_text.

(** ** Content types *)

Theorem C53_types t : (content_type_in t = EJson <-> map lower t = text_json) /\ (content_type_in t = EProto <-> map lower t <> text_json).
Proof. exact (conj (type_json t) (type_proto t)). Qed.
Print Assumptions C53_types.

Theorem C53_encodings t : (map lower t = text_gzip /\ encoding_in t = CGzip) \/ (map lower t = text_snappy /\ encoding_in t = CSnappy) \/
  (map lower t = text_zlib /\ encoding_in t = CZlib) \/
  (map lower t <> text_gzip /\ map lower t <> text_snappy /\ map lower t <> text_zlib /\ encoding_in t = CNone).
Proof. exact (enc_cases t). Qed.
Print Assumptions C53_encodings.

(** The names on the wire. *)
Theorem C53_names : content_type_out EProto = text_default /\ content_type_out EJson = text_json /\
  map encoding_out [CNone; CGzip; CSnappy; CZlib] = [[]; text_gzip; text_snappy; text_zlib] /\ content_type_in text_proto = EProto.
Proof. exact names. Qed.
Print Assumptions C53_names.

(** A unary request arrives as it was sent, for the types the headers can name. *)
Theorem C53_unary bmax comp e c ms data d : (5 <= bmax)%nat -> nb_wf d -> Z.of_nat (length (content d)) < 2 ^ 32 - 5 -> 0 <= ms < 2 ^ 32 ->
  (c = CNone -> d = data) -> (c <> CNone -> comp c data = Some d) ->
  (e = EProto \/ e = EJson) -> In c [CNone; CGzip; CSnappy; CZlib] ->
  exists r b, client_request bmax comp e c ms data = Ok (Some r) /\ server_request r = Ok (Some (mk_received e c (Some ms) b)) /\
    content b = content d.
Proof. exact (unary_ok bmax comp e c ms data d). Qed.
Print Assumptions C53_unary.

Example C53_unary_case : exists r b, client_request 16 (fun _ x => Some x) EJson CGzip 250 (mk_nbuf [[x61]; [x62]] 2) = Ok (Some r) /\
  server_request r = Ok (Some (mk_received EJson CGzip (Some 250) b)) /\ content b = [x61; x62] /\
  rq_type r = text_json /\ rq_encoding r = text_gzip.
Proof. eexists. eexists. split; [reflexivity|]. split; [reflexivity|]. repeat split. Qed.

(** Finding: with any other compression (lz4, snappy block) the header is left out although the body is
    compressed; the server takes the compressed bytes for the message. *)
Theorem C53_unary_compress_refuted : exists bmax comp data d r b, nb_wf data /\ comp (COther 5) data = Some d /\ content d <> content data /\
  client_request bmax comp EProto (COther 5) 1000 data = Ok (Some r) /\
  server_request r = Ok (Some (mk_received EProto CNone (Some 1000) b)) /\ content b = content d.
Proof. exact unknown_lost. Qed.
Print Assumptions C53_unary_compress_refuted.

(** Finding: any other serialisation is announced as protobuf. *)
Theorem C53_unary_type_refuted n : content_type_in (content_type_out (EOther n)) = EProto.
Proof. exact (type_lost n). Qed.
Print Assumptions C53_unary_type_refuted.
