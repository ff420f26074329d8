(** Model of trpc/codec/trpc/trpc_protocol.{h,cc} and trpc_proto_checker.cc, and of the read
    path of trpc/runtime/iomodel/reactor/default/tcp_connection.cc.

    Simplifications:
    - logging is left out; likely/unlikely hints are ignored;
    - the protobuf messages (RequestProtocol, ResponseProtocol, TrpcStream*Meta) and their
      serializer/parser are the protobuf library's: they are parameters ([ser], [parse],
      accessors), which the theorems quantify over;
    - [buff = builder.DestructiveGet()] assigns to an empty buffer. *)
From Verif.Lib Require Import Base Bytes.
From Verif.Buffer Require Import Model Machine.
Local Open Scope Z_scope.
Local Open Scope out_scope.

(** TrpcFixedHeader, trpc_protocol.h:27-78. *)
Record fixed_header := mk_fh {
  magic_value : Z; data_frame_type : Z; stream_frame_type : Z; data_frame_size : Z;
  pb_header_size : Z; stream_id : Z; reversed : list byte }.

(** TRPC_PROTO_PREFIX_SPACE, trpc_protocol.h:28; TRPC_MAGIC_VALUE is an enumerator of the
    external trpc-protocol repository (trpc.proto), 2352 = 0x930. *)
Definition prefix_space : nat := 16.
Definition TRPC_MAGIC : Z := 2352.

Definition u16 (z : Z) : Z := z mod 2 ^ 16.
Definition u32 (z : Z) : Z := z mod 2 ^ 32.

Definition slice (off n : nat) (l : list byte) : list byte := firstn n (skipn off l).

(** The field reads of Decode, trpc_protocol.cc:41-65. *)
Definition fh_parse (p : list byte) : fixed_header :=
  mk_fh (be_dec (slice 0 2 p)) (be_dec (slice 2 1 p)) (be_dec (slice 3 1 p))
        (be_dec (slice 4 4 p)) (be_dec (slice 8 2 p)) (be_dec (slice 10 4 p)) (slice 14 2 p).

(** TrpcFixedHeader::Decode, trpc_protocol.cc:24-72.  Returns (header or failure, buffer). *)
Definition fh_decode (b : nbuf) (skip : bool) : out (option fixed_header * nbuf) :=
  if (byte_size b <? prefix_space)%nat then Ok (None, b)
  else
    let! fc := nb_first_contiguous b in
    let! p := (if (prefix_space <=? length fc)%nat then Ok fc else flatten_to_slow b prefix_space) in
    let h := fh_parse p in
    if skip then let! b' := nb_skip b prefix_space in Ok (Some h, b') else Ok (Some h, b).

(** TrpcFixedHeader::Encode, trpc_protocol.cc:74-104: the 16 bytes stored. *)
Definition fh_encode (h : fixed_header) : list byte :=
  be_enc 2 (magic_value h) ++ be_enc 1 (data_frame_type h) ++ be_enc 1 (stream_frame_type h) ++
  be_enc 4 (data_frame_size h) ++ be_enc 2 (pb_header_size h) ++ be_enc 4 (stream_id h) ++
  reversed h.

(** ParseFromZeroCopyStream over NoncontiguousBufferInputStream: the library reads every chunk
    and parses the concatenation. *)
Definition pb_parse {H} (parse : list byte -> option H) (meta : nbuf) : out (option H) :=
  let! (_, l) := is_read_all (S (byte_size meta)) (is_new meta) in Ok (parse l).

Section Codec.
  (** GetBlockMaxAvailableSize() of the memory pool. *)
  Variable bmax : nat.

  (** Reserve(16) + Encode + serialize through NoncontiguousBufferOutputStream + Flush:
      trpc_protocol.cc:146-159 (request), 222-236 (response), 294-311 (EncodeStreamFrame). *)
  Definition put_header_and_pb (fh : fixed_header) (pb : list byte) : out builder :=
    let! bd := bd_new bmax in
    let! bd1 := bd_reserve bmax bd (fh_encode fh) in
    let! o := os_write_string bmax (length pb) (mk_os bd1 []) pb in
    let! o1 := os_flush bmax o in
    Ok (os_bd o1).

  Section Unary.
    Variable H : Type.
    Variable ser : H -> list byte.
    Variable parse : list byte -> option H.
    Variable att_size : H -> Z.
    Variable set_att_size : H -> Z -> H.

    (** TrpcRequestProtocol / TrpcResponseProtocol members, trpc_protocol.h:137-149, 192-204. *)
    Record message := mk_msg { m_fh : fixed_header; m_hdr : H; m_body : nbuf; m_att : nbuf }.

    (** TrpcRequestProtocol::ZeroCopyDecode, trpc_protocol.cc:106-137; [None] = false. *)
    Definition req_decode (b : nbuf) : out (option message) :=
      let! (oh, b1) := fh_decode b true in
      match oh with
      | None => Ok None
      | Some fh =>
          let! (meta, b2) := nb_cut b1 (Z.to_nat (pb_header_size fh)) in
          let dfs := 16 + pb_header_size fh + Z.of_nat (byte_size b2) in
          if negb (data_frame_size fh =? dfs) then Ok None
          else
            let! oh := pb_parse parse meta in
            match oh with
            | None => Ok None
            | Some h =>
                if Z.of_nat (byte_size b2) <? att_size h then Ok None
                else
                  let! (body, att) := nb_cut b2 (byte_size b2 - Z.to_nat (att_size h)) in
                  Ok (Some (mk_msg fh h body att))
            end
      end.

    (** TrpcResponseProtocol::ZeroCopyDecode, trpc_protocol.cc:186-211. *)
    Definition rsp_decode (b : nbuf) : out (option message) :=
      let! (oh, b1) := fh_decode b true in
      match oh with
      | None => Ok None
      | Some fh =>
          let! (meta, b2) := nb_cut b1 (Z.to_nat (pb_header_size fh)) in
          let! oh := pb_parse parse meta in
          match oh with
          | None => Ok None
          | Some h =>
              if Z.of_nat (byte_size b2) <? att_size h then Ok None
              else
                let! (body, att) := nb_cut b2 (byte_size b2 - Z.to_nat (att_size h)) in
                Ok (Some (mk_msg fh h body att))
          end
      end.

    (** The size fields are the only ones set by the encoders. *)
    Definition with_sizes (fh : fixed_header) (dfs phs : Z) : fixed_header :=
      mk_fh (magic_value fh) (data_frame_type fh) (stream_frame_type fh) dfs phs
            (stream_id fh) (reversed fh).

    (** Body and attachment, trpc_protocol.cc:160-166, 238-243. *)
    Definition put_body_att (bd : builder) (body att : nbuf) : out nbuf :=
      let! bd1 := bd_append_nb bmax bd body in
      let! bd2 := (if nb_is_empty att then Ok bd1 else bd_append_nb bmax bd1 att) in
      Ok (fst (bd_destructive_get bd2)).

    (** TrpcRequestProtocol::ZeroCopyEncode, trpc_protocol.cc:139-167; it always returns true.
        [pb_header_size] is a size_t assigned to a uint16_t field; the frame size is a size_t
        sum assigned to a uint32_t field. *)
    Definition req_encode (m : message) : out nbuf :=
      let h := set_att_size (m_hdr m) (Z.of_nat (byte_size (m_att m))) in
      let pbs := Z.of_nat (length (ser h)) in
      let dfs := 16 + pbs + Z.of_nat (byte_size (m_body m)) + Z.of_nat (byte_size (m_att m)) in
      let fh := with_sizes (m_fh m) (u32 dfs) (u16 pbs) in
      let! bd := put_header_and_pb fh (ser h) in
      put_body_att bd (m_body m) (m_att m).

    (** TrpcResponseProtocol::ZeroCopyEncode, trpc_protocol.cc:213-244; the header size goes
        through a uint32_t first. *)
    Definition rsp_encode (m : message) : out nbuf :=
      let h := set_att_size (m_hdr m) (Z.of_nat (byte_size (m_att m))) in
      let pbs := u32 (Z.of_nat (length (ser h))) in
      let dfs := u32 (16 + pbs + Z.of_nat (byte_size (m_body m)) + Z.of_nat (byte_size (m_att m))) in
      let fh := with_sizes (m_fh m) dfs (u16 pbs) in
      let! bd := put_header_and_pb fh (ser h) in
      put_body_att bd (m_body m) (m_att m).
  End Unary.

  (** Frame types, trpc_protocol.h:40-51 (enumerators of trpc.proto): TRPC_STREAM_FRAME = 1; INIT = 1, DATA = 2, FEEDBACK = 3, CLOSE = 4. *)
  Definition STREAM_FRAME : Z := 1.
  Inductive sframe := SInit | SFeedback | SClose.
  Definition sframe_type (k : sframe) : Z := match k with SInit => 1 | SFeedback => 3 | SClose => 4 end.
  Definition DATA_TYPE : Z := 2.

  (** Check(), trpc_protocol.cc:361-367, 394-400, 425-431, 456-462. *)
  Definition check_types (fh : fixed_header) (t : Z) : bool :=
    (STREAM_FRAME =? data_frame_type fh) && (t =? stream_frame_type fh).

  Section Stream.
    Variable M : Type.
    Variable ser : M -> list byte.
    Variable parse : list byte -> option M.

    (** {Init,Feedback,Close}FrameProtocol::ZeroCopyEncode, trpc_protocol.cc:348-359, 412-423,
        443-454; ByteSizeLong() (size_t) is assigned to the uint32_t field. *)
    Definition meta_encode (k : sframe) (fh : fixed_header) (m : M) : out (option nbuf) :=
      if check_types fh (sframe_type k) then
        let fh' := with_sizes fh (u32 (16 + Z.of_nat (length (ser m)))) (pb_header_size fh) in
        let! bd := put_header_and_pb fh' (ser m) in
        Ok (Some (fst (bd_destructive_get bd)))
      else Ok None.

    (** DecodeStreamFrame, trpc_protocol.cc:316-335, followed by Check() (338-346, 402-410,
        433-441).  [data_frame_size - ByteSizeLong()] is a size_t subtraction. *)
    Definition meta_decode (k : sframe) (b : nbuf) : out (option (fixed_header * M)) :=
      let! (oh, b1) := fh_decode b true in
      match oh with
      | None => Ok None
      | Some fh =>
          let msize := (data_frame_size fh - 16) mod 2 ^ 64 in
          if Z.of_nat (byte_size b1) <? msize then Ok None
          else
            let! (meta, _) := nb_cut b1 (Z.to_nat msize) in
            let! om := pb_parse parse meta in
            match om with
            | None => Ok None
            | Some m => if check_types fh (sframe_type k) then Ok (Some (fh, m)) else Ok None
            end
      end.
  End Stream.

  (** TrpcStreamDataFrameProtocol::ZeroCopyEncode, trpc_protocol.cc:378-392. *)
  Definition data_encode (fh : fixed_header) (body : nbuf) : out (option nbuf) :=
    if check_types fh DATA_TYPE then
      let fh' := with_sizes fh (u32 (16 + Z.of_nat (byte_size body))) (pb_header_size fh) in
      let! bd := bd_new bmax in
      let! bd1 := bd_reserve bmax bd (fh_encode fh') in
      let! bd2 := bd_append_nb bmax bd1 body in
      Ok (Some (fst (bd_destructive_get bd2)))
    else Ok None.
End Codec.

(** Cut with a 64-bit amount: an amount beyond the size runs off the block list. *)
Definition nb_cut_z (b : nbuf) (n : Z) : out (nbuf * nbuf) :=
  if n <=? Z.of_nat (byte_size b) then nb_cut b (Z.to_nat n) else UB.

(** TrpcStreamDataFrameProtocol::ZeroCopyDecode, trpc_protocol.cc:369-376: no type check, no
    check of the amount cut.  Returns (header, body). *)
Definition data_decode (b : nbuf) : out (option (fixed_header * nbuf)) :=
  let! (oh, b1) := fh_decode b true in
  match oh with
  | None => Ok None
  | Some fh =>
      let! (body, _) := nb_cut_z b1 ((data_frame_size fh - 16) mod 2 ^ 64) in
      Ok (Some (fh, body))
  end.

(* ------------------------------------------------------------------------- *)
(** * CheckTrpcProtocolMessage, trpc_proto_checker.cc:24-63 *)

(** PacketChecker, connection_handler.h:36-40. *)
Inductive packet_checker := PACKET_LESS | PACKET_FULL | PACKET_ERR.

(** [maxp = None]: conn.Get() == nullptr.  Returns (code, in, out). *)
Fixpoint check_loop (fuel : nat) (maxp : option Z) (inb : nbuf) (outq : list nbuf)
  : out (packet_checker * nbuf * list nbuf) :=
  match fuel with
  | O => NoFuel
  | S f =>
      let fin := match outq with [] => PACKET_LESS | _ => PACKET_FULL end in
      let total := u32 (Z.of_nat (byte_size inb)) in
      if total <? 16 then Ok (fin, inb, outq)
      else
        let! (oh, inb1) := fh_decode inb false in
        match oh with
        | None => Ok (PACKET_ERR, inb1, outq)    (* "only return success": not reached *)
        | Some h =>
            if negb (magic_value h =? TRPC_MAGIC) then Ok (PACKET_ERR, inb1, outq)
            else if data_frame_size h <? u32 (16 + pb_header_size h) then Ok (PACKET_ERR, inb1, outq)
            else if match maxp with Some mx => mx <? data_frame_size h | None => false end
            then Ok (PACKET_ERR, inb1, outq)
            else if total <? data_frame_size h then Ok (fin, inb1, outq)
            else
              let! (frame, inb2) := nb_cut inb1 (Z.to_nat (data_frame_size h)) in
              check_loop f maxp inb2 (outq ++ [frame])
        end
  end.

Definition check_message (maxp : option Z) (inb : nbuf) : out (packet_checker * nbuf * list nbuf) :=
  check_loop (S (byte_size inb)) maxp inb [].

(** PickTrpcProtocolMessageMetadata, trpc_proto_checker.cc:65-82:
    (data_frame_type, enable_stream, stream_frame_type, stream_id). *)
Definition pick_metadata (b : nbuf) : out (option (Z * bool * Z * Z)) :=
  let! (oh, _) := fh_decode b false in
  match oh with
  | None => Ok None
  | Some h => Ok (Some (data_frame_type h, data_frame_type h =? 1, stream_frame_type h, stream_id h))
  end.

(* ------------------------------------------------------------------------- *)
(** * Read path of a connection, tcp_connection.cc:171-218 (HandleReadEvent) *)

(** read_buffer_, the messages passed to HandleMessage so far, and whether the connection was
    closed because of a packet error. *)
Record conn := mk_conn { c_buf : nbuf; c_handled : list nbuf; c_closed : bool }.

(** One read event delivering the bytes of [blks] (the blocks ReadIoData appends); an empty
    read (ret == 0) does not call the checker.  HandleMessage is assumed to succeed. *)
Definition read_event (maxp : Z) (c : conn) (blks : list block) : out conn :=
  if c_closed c then Ok c
  else match concat blks with
  | [] => Ok c
  | _ =>
      let buf := fold_left nb_append_block blks (c_buf c) in
      let! (code, rest, frames) := check_message (Some maxp) buf in
      match code with
      | PACKET_FULL => Ok (mk_conn rest (c_handled c ++ frames) false)
      | PACKET_LESS => Ok (mk_conn rest (c_handled c) false)
      | PACKET_ERR => Ok (mk_conn rest (c_handled c) true)       (* HandleClose *)
      end
  end.

Fixpoint read_events (maxp : Z) (c : conn) (reads : list (list block)) : out conn :=
  match reads with
  | [] => Ok c
  | r :: rs => let! c1 := read_event maxp c r in read_events maxp c1 rs
  end.
