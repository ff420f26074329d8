(** Model of the gRPC message framing and header conversions: trpc/codec/grpc/grpc_protocol.{h,cc},
    grpc_client_codec.cc, grpc_server_codec.cc and the loop of trpc/stream/grpc/grpc_server_stream_handler.cc.

    Simplifications:
    - buffers and the builder are those of Verif.Buffer; [bmax] is the size of a memory-pool block;
    - the host is little endian (memcpy between uint32_t and bytes);
    - the destination of Check is a fresh buffer, as in all callers, and so is the one of Encode;
    - std::stoll, std::stoi and std::to_string are library code, written with the strtoll of Verif.Strings;
    - TrpcContentEncodeType and TrpcCompressType come from a protobuf file that is not in /repo: the
      values the code names are constructors, all others are numbered;
    - HTTP/2, HPACK, serialisation and compression are not represented; a compressor is any function;
    - the maps between header names and values (HttpFields) are left out: a header is its value, and an
      absent header is the empty text. *)
From Verif.Lib Require Import Base Bytes Decimal.
From Verif.Buffer Require Import Model.
From Verif.Strings Require Import Model.
From Verif.HttpCodec Require Model.
From Coq Require Import Strings.Byte Lists.List.
Import ListNotations.
Local Open Scope Z_scope.
Local Open Scope out_scope.
Local Open Scope list_scope.

(** ** Message framing *)

(** uint32_t arithmetic. *)
Definition u32 (z : Z) : Z := z mod 2 ^ 32.

(** memcpy of a uint32_t to and from memory, little endian. *)
Definition le_store (v : Z) : list byte := [z2b v; z2b (Z.shiftr v 8); z2b (Z.shiftr v 16); z2b (Z.shiftr v 24)].
Definition le_load (l : list byte) : Z := fold_right (fun b n => b2z b + 256 * n) 0 l.

(** Uint32BigEndianConvertor, grpc_protocol.cc:165-168. *)
Definition be_conv (v : Z) : Z :=
  Z.lor (Z.lor (Z.lor (u32 (Z.shiftl (Z.land v 255) 24)) (u32 (Z.shiftl (Z.land v 65280) 8)))
    (Z.shiftr (Z.land v 16711680) 8)) (Z.shiftr (Z.land v 4278190080) 24).

(** kPrefixByteSize, kCompressedFieldByteSize, kLengthFieldByteSize, grpc_protocol.h:177-179. *)
Definition prefix_size : nat := 5.
Definition flag_size : nat := 1.
Definition length_size : nat := 4.

(** The prefix as Check and Decode get at it, grpc_protocol.cc:177-187 and 212-222. *)
Definition load_prefix (b : nbuf) : out (list byte) :=
  let! fc := nb_first_contiguous b in
  if (prefix_size <=? length fc)%nat then Ok fc else flatten_to_slow b prefix_size.

(** The length field, grpc_protocol.cc:189-191 and 227-229. *)
Definition load_length (p : list byte) : Z := be_conv (le_load (firstn length_size (skipn flag_size p))).

(** GrpcMessageContent::Check, grpc_protocol.cc:172-202.  [Some (out, in)]: true. *)
Definition check (b : nbuf) : out (option (nbuf * nbuf)) :=
  if (byte_size b <? prefix_size)%nat then Ok None
  else
    let! p := load_prefix b in
    let expect := Z.to_nat (u32 (load_length p + Z.of_nat prefix_size)) in
    if (byte_size b <? expect)%nat then Ok None
    else let! r := nb_cut b expect in Ok (Some r).

(** GrpcMessageContent, grpc_protocol.h:176-196. *)
Record message := mk_message { compressed : byte; len : Z; body : nbuf }.

(** GrpcMessageContent::Decode, grpc_protocol.cc:204-244.  [Some (message, buffer)]: true. *)
Definition decode (b : nbuf) : out (option (message * nbuf)) :=
  if (byte_size b <? prefix_size)%nat then Ok None
  else
    let! p := load_prefix b in
    let flag := hd x00 p in
    let length := load_length p in
    let expect := Z.to_nat (u32 (length + Z.of_nat prefix_size)) in
    if (byte_size b <? expect)%nat then Ok None
    else
      let! b1 := nb_skip b prefix_size in
      let! (c, b2) := nb_cut b1 (Z.to_nat length) in
      Ok (Some (mk_message flag length c, b2)).

(** GrpcMessageContent::Encode, grpc_protocol.cc:246-267.  [None]: false. *)
Definition encode (bmax : nat) (m : message) : out (option nbuf) :=
  if negb (Z.of_nat (byte_size (body m)) =? len m) then Ok None
  else
    let! bd := bd_new bmax in
    let! bd := bd_reserve bmax bd (compressed m :: le_store (be_conv (len m))) in
    let! bd := bd_append_nb bmax bd (body m) in
    Ok (Some (fst (bd_destructive_get bd))).

(** ByteSizeLong, grpc_protocol.cc:269. *)
Definition byte_size_long (m : message) : nat := prefix_size + byte_size (body m).

(** The loop over the DATA of a stream, grpc_server_stream_handler.cc:73-88: the frames taken and what
    stays in the buffer.  [NoFuel]: still running after [fuel] rounds. *)
Fixpoint check_loop (fuel : nat) (b : nbuf) (acc : list nbuf) : out (list nbuf * nbuf) :=
  match fuel with
  | O => NoFuel
  | S f =>
      let! r := check b in
      match r with
      | None => Ok (acc, b)
      | Some (o, b') => check_loop f b' (acc ++ [o])
      end
  end.

(** ** Numbers in headers *)

(** std::stoll(s, &end_pos, 10): the value and end_pos; [None]: an exception. *)
Definition stoll (s : list byte) : option (Z * nat) :=
  let cs := c_str s in
  match scan cs with
  | None => None
  | Some (neg, v, rest) =>
      let '(x, range) := strtoll neg v in
      if range : bool then None else Some (x, (length cs - length rest)%nat)
  end.

(** Signed 64-bit arithmetic: overflow is undefined. *)
Definition i64 (z : Z) : out Z := if (- 2 ^ 63 <=? z) && (z <? 2 ^ 63) then Ok z else UB.

(** GrpcTimeoutTextToUS, grpc_protocol.cc:114-158. *)
Definition timeout_text_to_us (t : list byte) : out Z :=
  match t with
  | [] => Ok (-1)
  | _ =>
      match stoll t with
      | None => Ok (-1)
      | Some (v, end_pos) =>
          if negb (end_pos =? length t - 1)%nat then Ok (-1)
          else
            let u := nth end_pos t x00 in
            if Byte.eqb u x48 then let! a := i64 (v * 3600) in i64 (a * 1000000)           (* 'H' *)
            else if Byte.eqb u x4d then let! a := i64 (v * 60) in i64 (a * 1000000)        (* 'M' *)
            else if Byte.eqb u x53 then i64 (v * 1000000)                                  (* 'S' *)
            else if Byte.eqb u x6d then i64 (v * 1000)                                     (* 'm' *)
            else if Byte.eqb u x75 then Ok v                                               (* 'u' *)
            else if Byte.eqb u x6e then                                                    (* 'n' *)
              let! a := i64 (v + 500) in
              let a := Z.quot a 1000 in
              Ok (if a =? 0 then 1 else a)
            else Ok (-1)
      end
  end.

(** The time-out of a request at the server, grpc_server_codec.cc:44-51, in milliseconds; [None]: not set. *)
Definition server_timeout (t : list byte) : out (option Z) :=
  let! us := timeout_text_to_us t in
  Ok (if us =? -1 then None else Some (u32 (Z.quot us 1000))).

(** GrpcClientCodec::GetTimeoutText, grpc_client_codec.cc:247-250. *)
Definition timeout_text (ms : Z) : list byte := dec_nat ms ++ [x6d].

(** internal::GetHeaderInteger, grpc_protocol.cc:284-291, for the value of a header: std::stoi throws on
    texts that are no number or out of range, nothing catches it.  [None]: false. *)
Definition header_integer (v : list byte) : out (option Z) :=
  match v with
  | [] => Ok None
  | _ =>
      match stoll v with
      | None => Abort
      | Some (x, _) => if (- 2 ^ 31 <=? x) && (x <? 2 ^ 31) then Ok (Some x) else Abort
      end
  end.

(** GrpcStatusToString, grpc_protocol.cc:54-60: the index into the 18 texts; [UB] past the end. *)
Definition grpc_max : Z := 17.
Definition status_index (s : Z) : out Z :=
  let s := if (s <? 0) || (grpc_max <? s) then grpc_max else s in
  if (0 <=? s) && (s <? 18) then Ok s else UB.

(** ** Content types and encodings *)

Inductive encode_type := EProto | EJson | EOther (n : Z).
Inductive compress_type := CNone | CGzip | CSnappy | CZlib | COther (n : Z).

(** kGrpcContentType.., kGrpcContentEncoding.., grpc_protocol.h:37-44. *)
Definition s_grpc : list byte := [x61; x70; x70; x6c; x69; x63; x61; x74; x69; x6f; x6e; x2f; x67; x72; x70; x63].
Definition s_grpc_proto : list byte := s_grpc ++ [x2b; x70; x72; x6f; x74; x6f].
Definition s_grpc_json : list byte := s_grpc ++ [x2b; x6a; x73; x6f; x6e].
Definition s_gzip : list byte := [x67; x7a; x69; x70].
Definition s_snappy : list byte := [x73; x6e; x61; x70; x70; x79].
Definition s_zlib : list byte := [x7a; x6c; x69; x62].

(** GrpcContentTypeToTrpcContentType, grpc_protocol.cc:62-72. *)
Definition content_type_in (t : list byte) : encode_type :=
  if HttpCodec.Model.equals_ignore_case s_grpc t || HttpCodec.Model.equals_ignore_case s_grpc_proto t then EProto
  else if HttpCodec.Model.equals_ignore_case s_grpc_json t then EJson
  else EProto.

(** TrpcContentTypeToGrpcContentType, grpc_protocol.cc:74-84. *)
Definition content_type_out (e : encode_type) : list byte :=
  match e with EProto => s_grpc | EJson => s_grpc_json | EOther _ => s_grpc end.

(** GrpcContentEncodingToTrpcContentEncoding, grpc_protocol.cc:86-96. *)
Definition encoding_in (t : list byte) : compress_type :=
  if HttpCodec.Model.equals_ignore_case s_gzip t then CGzip
  else if HttpCodec.Model.equals_ignore_case s_snappy t then CSnappy
  else if HttpCodec.Model.equals_ignore_case s_zlib t then CZlib
  else CNone.

(** TrpcContentEncodingToGrpcContentEncoding, grpc_protocol.cc:98-110. *)
Definition encoding_out (c : compress_type) : list byte :=
  match c with CGzip => s_gzip | CSnappy => s_snappy | CZlib => s_zlib | _ => [] end.

(** ** A unary request from the client to the server *)

Record request := mk_request { rq_type : list byte; rq_encoding : list byte; rq_timeout : list byte; rq_content : nbuf }.

Definition is_none (c : compress_type) : bool := match c with CNone => true | _ => false end.

(** GrpcClientCodec::FillRequest and the headers set by ZeroCopyEncode, grpc_client_codec.cc:110-137 and
    43-48.  [data]: the serialised body; [comp]: CompressIfNeeded, [None] on failure. *)
Definition client_request (bmax : nat) (comp : compress_type -> nbuf -> option nbuf) (e : encode_type)
  (c : compress_type) (timeout : Z) (data : nbuf) : out (option request) :=
  match (if is_none c then Some data else comp c data) with
  | None => Ok None
  | Some d =>
      let m := mk_message (if is_none c then x00 else x01) (u32 (Z.of_nat (byte_size d))) d in
      let! r := encode bmax m in
      Ok match r with
         | None => None
         | Some b => Some (mk_request (content_type_out e) (encoding_out c) (timeout_text timeout) b)
         end
  end.

(** What the server knows of a request after GrpcServerCodec::ZeroCopyDecode, grpc_server_codec.cc:39-78:
    serialisation type, compression type (kNone before), time-out and body. *)
Record received := mk_received { rc_type : encode_type; rc_compress : compress_type; rc_timeout : option Z; rc_body : nbuf }.
Definition server_request (r : request) : out (option received) :=
  let! ms := server_timeout (rq_timeout r) in
  let! d := decode (rq_content r) in
  Ok match d with
     | None => None
     | Some (m, _) =>
         Some (mk_received (content_type_in (rq_type r))
                 (if b2z (compressed m) =? 0 then CNone else encoding_in (rq_encoding r)) ms (body m))
     end.
