(** The framing of HTTP requests on a server connection (/repo/trpc/codec/http/http_server_proto_checker_impl.cc)
    and of responses on a client connection (/repo/trpc/codec/http/http_client_proto_checker_impl.cc).

    Simplifications.
    - picohttpparser is a library outside the repository: its functions are the fields of the record [lib].
      What is assumed of them is stated in Spec.v; nothing is assumed here.
    - The buffer is its bytes; FlattenSlowUntil on it is [until] (C11 has it on blocks).
    - strtoll gets the value of the field only: the character behind it is no digit.
    - The stream of a request accepts all data (state_ is kGoodBit); a connection is blocking or not.  The
      client is not in the streaming mode.
    - Sizes are unbounded numbers; size_t matters in the default of the limit only. *)
From Verif Require Import Lib.Base Lib.Bytes Lib.ListX HttpCodec.Model.
From Coq Require Import Strings.Byte.
Open Scope Z_scope.

(** A field of a head: name and value. *)
Definition field : Type := list byte * list byte.

(** phr_parse_request and phr_parse_response: an error, an incomplete head, or the length of the head and its
    fields. *)
Inductive hres : Type := HErr | HMore | HOk (n : nat) (f : list field).
(** One byte of phr_decode_chunked (it is a loop over the bytes with a state): an error, more data wanted,
    the end of the body. *)
Inductive dres (D : Type) : Type := DErr | DMore (d : D) (o : list byte) | DDone (o : list byte).
Arguments DErr {D}. Arguments DMore {D}. Arguments DDone {D}.

Record lib := { dec : Type; p_head : list byte -> hres; p_rhead : list byte -> hres; d_init : dec;
                d_step : dec -> byte -> dres dec }.

Definition blen (l : list byte) : Z := Z.of_nat (length l).

(** kMinRequestBytes, kMinResponseBytes, kEndOfHeaderMarker, util/http/common.h:35-41. *)
Definition min_request : Z := 16.
Definition min_response : Z := 17.
Definition marker : list byte := [x0d; x0a; x0d; x0a].

Fixpoint starts (p l : list byte) : bool :=
  match p, l with
  | [], _ => true
  | a :: p', b :: l' => Byte.eqb a b && starts p' l'
  | _ :: _, [] => false
  end.
(** std::string_view::find: the end of the first marker. *)
Fixpoint find_end (l : list byte) : option nat :=
  if starts marker l then Some 4%nat
  else match l with [] => None | _ :: r => option_map S (find_end r) end.
(** FlattenSlowUntil(in, kEndOfHeaderMarker, max), noncontiguous_buffer.cc:305-332. *)
Definition until (l : list byte) (max : Z) : list byte :=
  firstn (Z.to_nat (Z.min max (blen l))) match find_end l with Some n => firstn n l | None => l end.

(** max_packet_size, http_server_proto_checker_impl.cc:52-53 and http_client_proto_checker_impl.cc:68-69. *)
Definition limit (mp : Z) : Z := if mp >? 0 then mp else 2 ^ 64 - 2.

(** The names, util/http/common.h:44-51; strncasecmp of names of equal length is [equals_ignore_case] (C18). *)
Definition n_te : list byte :=
  [x54; x72; x61; x6e; x73; x66; x65; x72; x2d; x45; x6e; x63; x6f; x64; x69; x6e; x67].
Definition n_cl : list byte := [x43; x6f; x6e; x74; x65; x6e; x74; x2d; x4c; x65; x6e; x67; x74; x68].

(** The loop over the fields, http_server_proto_checker_impl.cc:81-96 and, with [checked = false] (no check
    against the capacity), http_client_proto_checker_impl.cc:89-107. *)
Fixpoint scan (checked : bool) (cap : Z) (f : list field) (te : bool) (cl : option Z) : option (bool * option Z) :=
  match f with
  | [] => Some (te, cl)
  | (k, v) :: r =>
      if negb te && equals_ignore_case k n_te then scan checked cap r true cl
      else if match cl with None => equals_ignore_case k n_cl | Some _ => false end then
        match parse_content_length v with
        | None => None
        | Some n => if checked && (n >? cap) then None else scan checked cap r te (Some n)
        end
      else scan checked cap r te cl
  end.

(** A request: its fields, the content of its stream, whether WriteEof was called, how often it was pushed
    into [out]. *)
Record req := { flds : list field; cont : list byte; eof : bool; pushes : nat }.

Section M.
Variable L : lib.

(** phr_decode_chunked: the loop over the bytes. *)
Inductive dout : Type := OErr | OMore (d : dec L) (o : list byte) | ODone (o : list byte) (lf : list byte).
Fixpoint decode (d : dec L) (l : list byte) : dout :=
  match l with
  | [] => OMore d []
  | b :: r =>
      match d_step L d b with
      | DErr => OErr
      | DDone o => ODone o r
      | DMore d1 o =>
          match decode d1 r with
          | OErr => OErr
          | OMore d2 o2 => OMore d2 (o ++ o2)
          | ODone o2 l2 => ODone (o ++ o2) l2
          end
      end
  end.

(** What of the input belongs to the body, http_server_proto_checker_impl.cc:157-177 and
    http_client_proto_checker_impl.cc:160-178: the data, whether the body is complete, the state, the rest.
    (The state of the decoder after the end is not looked at: ParseHeader sets a new one.) *)
Definition take_body (ch : bool) (ex : Z) (d : dec L) (l : list byte)
  : option (list byte * bool * Z * dec L * list byte) :=
  if negb ch then
    let n := Z.min ex (blen l) in
    Some (firstn (Z.to_nat n) l, ex - n =? 0, ex - n, d, skipn (Z.to_nat n) l)
  else
    match decode d l with
    | OErr => None
    | OMore d1 o => Some (o, false, ex, d1, [])
    | ODone o lf => Some (o, true, ex, d_init L, lf)
    end.

(** * The server *)

(** InternalInflightHttpRequest, http_server_proto_checker_impl.cc:29-37, the buffer of the connection and
    the requests: [fin] complete ones, [cur] the one under way. *)
Record st := { buf : list byte; newr : bool; chk : bool; expect : Z; maxb : Z; dst : dec L; cur : option req;
               fin : list req }.
Definition st_init : st :=
  {| buf := []; newr := true; chk := false; expect := 0; maxb := 0; dst := d_init L; cur := None; fin := [] |}.
Definition set_buf (s : st) (l : list byte) : st :=
  {| buf := l; newr := newr s; chk := chk s; expect := expect s; maxb := maxb s; dst := dst s; cur := cur s;
     fin := fin s |}.

(** ParseHeader, http_server_proto_checker_impl.cc:47-120. *)
Inductive hout : Type := PErr | PMore | POk (s : st).
Definition parse_header (mp : Z) (blk : bool) (s : st) : hout :=
  if blen (buf s) <? min_request then PMore else
  let b := until (buf s) (limit mp + 1) in
  if blen b >? limit mp then PErr else
  match p_head L b with
  | HErr => PErr
  | HMore => PMore
  | HOk n f =>
      let cap := limit mp - Z.of_nat n in
      match scan (negb blk) cap f false None with
      | None => PErr
      | Some (true, Some _) => PErr
      | Some (te, cl) =>
          let ex := match cl with Some c => c | None => 0 end in
          POk {| buf := skipn n (buf s); newr := true; chk := te; expect := ex;
                 maxb := if te then cap else Z.min cap ex; dst := d_init L;
                 cur := Some {| flds := f; cont := []; eof := false; pushes := 0 |}; fin := fin s |}
      end
  end.

(** ParseContent with AppendBuffer, CheckBufferSize and ShouldEnqueue, 122-185, and the reset of
    request in ParseHttpRequest, 245-247. *)
Definition parse_content (blk : bool) (s : st) : option st :=
  match take_body (chk s) (expect s) (dst s) (buf s) with
  | None => None
  | Some (o, full, ex, d, rest) =>
      match cur s with
      | None => None
      | Some q =>
          if blk || (blen (cont q) + blen o <=? maxb s) then
            let q1 := {| flds := flds q; cont := cont q ++ o; eof := full;
                         pushes := pushes q + (if (blk && newr s) || (negb blk && full) then 1 else 0) |} in
            Some {| buf := rest; newr := full; chk := chk s; expect := ex; maxb := maxb s; dst := d;
                    cur := if full then None else Some q1; fin := if full then fin s ++ [q1] else fin s |}
          else None
      end
  end.

(** A round of the loop of ParseHttpRequest, 228-248. *)
Inductive sres : Type := Fail | Stop | Cont (s : st).
Definition round (mp : Z) (blk : bool) (s : st) : sres :=
  match buf s with
  | [] => Stop
  | _ =>
      let go (s1 : st) := match parse_content blk s1 with None => Fail | Some s2 => Cont s2 end in
      if newr s then
        match parse_header mp blk s with PErr => Fail | PMore => Stop | POk s1 => go s1 end
      else go s
  end.
Fixpoint loop (fuel : nat) (mp : Z) (blk : bool) (s : st) : out (option st) :=
  match fuel with
  | O => NoFuel
  | S f =>
      match round mp blk s with
      | Fail => Ok None
      | Stop => Ok (Some s)
      | Cont s1 => loop f mp blk s1
      end
  end.

(** HttpZeroCopyCheckRequest, 255-260, called with what has arrived; [None]: kPacketError, the connection is
    closed. *)
Definition feed (mp : Z) (blk : bool) (s : st) (w : list byte) : out (option st) :=
  loop (S (length (buf s ++ w))) mp blk (set_buf s (buf s ++ w)).
Fixpoint serve (mp : Z) (blk : bool) (s : st) (ws : list (list byte)) : out (option st) :=
  match ws with
  | [] => Ok (Some s)
  | w :: l =>
      match feed mp blk s w with
      | Ok (Some s1) => serve mp blk s1 l
      | r => r
      end
  end.

(** * The client *)

(** InflightHttpResponse, http_client_proto_checker_impl.cc:30-38, and the buffer. *)
Record cst := { cbuf : list byte; cnew : bool; cchk : bool; cexpect : Z; chead : Z; cdst : dec L;
                crsp : list field * list byte }.
Definition cst_init : cst :=
  {| cbuf := []; cnew := true; cchk := false; cexpect := 0; chead := 0; cdst := d_init L; crsp := ([], []) |}.
Definition set_cbuf (s : cst) (l : list byte) : cst :=
  {| cbuf := l; cnew := cnew s; cchk := cchk s; cexpect := cexpect s; chead := chead s; cdst := cdst s;
     crsp := crsp s |}.

Inductive chout : Type := CErr | CMore | COk (s : cst).
(** ParseHeader, http_client_proto_checker_impl.cc:56-130, and the case HEAD of ParseHttpResponse, 224-229. *)
Definition cparse_header (mp : Z) (ishead : bool) (s : cst) : chout :=
  if blen (cbuf s) <? min_response then CMore else
  let b := until (cbuf s) (limit mp + 1) in
  if blen b >? limit mp then CErr else
  match p_rhead L b with
  | HErr => CErr
  | HMore => CMore
  | HOk n f =>
      match scan false 0 f false None with
      | None => CErr
      | Some (true, Some _) => CErr
      | Some (te, cl) =>
          COk {| cbuf := skipn n (cbuf s); cnew := true; cchk := if ishead then false else te;
                 cexpect := if ishead then 0 else match cl with Some c => c | None => 0 end;
                 chead := Z.of_nat n; cdst := d_init L; crsp := (f, []) |}
      end
  end.

(** ParseContent without streaming, 155-201.  PACKET_ERR, PACKET_LESS with the state, PACKET_FULL with the
    state and the response. *)
Inductive cres : Type := RErr | RLess (s : cst) | RFull (s : cst) (r : list field * list byte).
Definition cparse_content (mp : Z) (s : cst) : cres :=
  match take_body (cchk s) (cexpect s) (cdst s) (cbuf s) with
  | None => RErr
  | Some (o, full, ex, d, rest) =>
      if chead s + blen (snd (crsp s)) + blen o <=? limit mp then
        let r := (fst (crsp s), snd (crsp s) ++ o) in
        let s1 := {| cbuf := rest; cnew := full; cchk := cchk s; cexpect := ex; chead := chead s; cdst := d;
                     crsp := r |} in
        if full then RFull s1 r else RLess s1
      else RErr
  end.

(** ParseHttpResponse, 204-242. *)
Definition check (mp : Z) (ishead : bool) (s : cst) : cres :=
  if cnew s then
    match cparse_header mp ishead s with
    | CErr => RErr
    | CMore => RLess s
    | COk s1 => cparse_content mp s1
    end
  else cparse_content mp s.
Definition cfeed (mp : Z) (ishead : bool) (s : cst) (w : list byte) : cres :=
  check mp ishead (set_cbuf s (cbuf s ++ w)).
(** Reads one after the other; what came out, [None]: the connection is closed. *)
Fixpoint receive (mp : Z) (ishead : bool) (s : cst) (ws : list (list byte))
  : option (cst * list (list field * list byte)) :=
  match ws with
  | [] => Some (s, [])
  | w :: l =>
      match cfeed mp ishead s w with
      | RErr => None
      | RLess s1 => receive mp ishead s1 l
      | RFull s1 r => option_map (fun x => (fst x, r :: snd x)) (receive mp ishead s1 l)
      end
  end.
End M.
