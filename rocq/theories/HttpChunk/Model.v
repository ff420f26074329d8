(** Model of the three writers of HTTP bodies: the stream of a response on the server
    (/repo/trpc/stream/http/http_stream.cc:69-149 and http_stream.h:140-208), the stream of a request on the
    client (/repo/trpc/stream/http/http_client_stream.cc:21-170) and the frames of the asynchronous streams
    (/repo/trpc/stream/http/common/stream.cc:86-147 and 264-452, async/stream.cc:24-57,
    async/client/stream.cc:134-166, async/server/stream.cc:139-174), with the size line of a chunk
    (/repo/trpc/stream/http/common.cc:18-46).

    Simplifications.
    - A buffer is its bytes.  What a transport accepts for sending is on the wire, what it refuses (a return
      code other than 0) is not (see C56 for the queue in between).
    - The bytes of the head of a message are an event here that tells what the head says about the body;
      only the asynchronous streams, that send the head piece by piece, have its bytes.
    - size_t and ssize_t are 64 bits wide.
    - Filters, logs, timers and the reading half of the streams are left out. *)
From Coq Require Import Strings.String.
From Verif Require Import Lib.Base Lib.Bytes Lib.ListX Lib.Decimal HttpCodec.Model.
From Coq Require Import Strings.Byte.
Open Scope Z_scope.
Open Scope out_scope.

Definition u64 (z : Z) : Z := z mod 2 ^ 64.
Definition blen (l : list byte) : Z := Z.of_nat (length l).

(** * The size line of a chunk *)

(** lut, common.cc:19-35. *)
Definition lut : list byte := list_byte_of_string
  ("000102030405060708090a0b0c0d0e0f"
   ++ "101112131415161718191a1b1c1d1e1f"
   ++ "202122232425262728292a2b2c2d2e2f"
   ++ "303132333435363738393a3b3c3d3e3f"
   ++ "404142434445464748494a4b4c4d4e4f"
   ++ "505152535455565758595a5b5c5d5e5f"
   ++ "606162636465666768696a6b6c6d6e6f"
   ++ "707172737475767778797a7b7c7d7e7f"
   ++ "808182838485868788898a8b8c8d8e8f"
   ++ "909192939495969798999a9b9c9d9e9f"
   ++ "a0a1a2a3a4a5a6a7a8a9aaabacadaeaf"
   ++ "b0b1b2b3b4b5b6b7b8b9babbbcbdbebf"
   ++ "c0c1c2c3c4c5c6c7c8c9cacbcccdcecf"
   ++ "d0d1d2d3d4d5d6d7d8d9dadbdcdddedf"
   ++ "e0e1e2e3e4e5e6e7e8e9eaebecedeeef"
   ++ "f0f1f2f3f4f5f6f7f8f9fafbfcfdfeff")%string.

(** hex[i] = x. *)
Definition put (s : list byte) (i : nat) (x : byte) : out (list byte) :=
  if (i <? length s)%nat then Ok (lset s i x) else UB.
(** --idx of an unsigned index. *)
Definition dec_idx (i : nat) : out nat := match i with O => UB | S j => Ok j end.

(** The loop of common.cc:39-43. *)
Fixpoint chunk_loop (fuel : nat) (n : Z) (idx : nat) (hex : list byte) : out (list byte) :=
  match fuel with
  | O => NoFuel
  | S f =>
      let pos := Z.to_nat (Z.land n 255 * 2) in
      let! i1 := dec_idx idx in
      let! d1 := rd lut (pos + 1) in
      let! h1 := put hex i1 d1 in
      let! i2 := dec_idx i1 in
      let! d0 := rd lut pos in
      let! h2 := put h1 i2 d0 in
      let n' := Z.shiftr n 8 in
      if n' =? 0 then Ok h2 else chunk_loop f n' i2 h2
  end.

(** std::string::find_first_not_of('0'). *)
Fixpoint first_not_zero (s : list byte) : option nat :=
  match s with
  | [] => None
  | b :: r => if Byte.eqb b x30 then option_map S (first_not_zero r) else Some O
  end.

(** HttpChunkHeader, common.cc:18-46. *)
Definition chunk_header (n : Z) : out (list byte) :=
  let idx := 16%nat in
  let! hex := chunk_loop 9 n idx (repeat x30 idx ++ [x0d; x0a]) in
  let last := (length hex - 3)%nat in
  let begin := match first_not_zero hex with Some i => Nat.min i last | None => last end in
  Ok (skipn begin hex).

(** kEndOfChunkMarker and kEmptyLine, kEndOfChunkedResponseMarker, kEndOfChunkTransferingMarker,
    util/http/common.h:42, 70-72. *)
Definition s_crlf : list byte := [x0d; x0a].
Definition s_end_chunked : list byte := [x30; x0d; x0a; x0d; x0a].
Definition s_end_transfer : list byte := [x30; x0d; x0a].

(** A chunk as all three writers build it, http_stream.cc:119-125, http_client_stream.cc:34-40,
    common/stream.cc:349-354. *)
Definition chunk (item : list byte) : out (list byte) :=
  let! h := chunk_header (u64 (blen item)) in Ok (h ++ item ++ s_crlf).

(** * The wire *)
(** What the transport accepted: a status line 1xx with its empty line, the head of a message with what it
    says (Transfer-Encoding: chunked, the text of Content-Length - empty if absent - and whether the
    message has no body by its nature), bytes of a body. *)
Inductive wev : Type :=
| Info
| Head (te : bool) (cl : list byte) (nobody : bool)
| Body (b : list byte).

(** Stream statuses: kSuccStatus/kDefaultStatus, kStreamStatus*NetworkError, *WriteTimeout,
    *WriteContentLengthError, any other return code. *)
Inductive stat : Type := SOk | SNet | STime | SLen | SRaw (z : Z).

Definition kChunked : Z := -1.

(** * The response of a server *)

Inductive wop : Type := OHeader | OWrite (item : list byte) | ODone | OClose.

(** HttpWriteStream, http_stream.h:194-208, with what it uses of the response ([status], [te], [clh],
    [honly]: GetStatus(), the header fields Transfer-Encoding and Content-Length, IsHeaderOnly()) and of
    the context ([isrsp]: IsResponse(), [shut]: CloseConnection() was called). *)
Record sw := { hdr : bool; don : bool; cl : Z; wrt : Z; status : Z; te : bool; clh : list byte; honly : bool;
               isrsp : bool; shut : bool; wire : list wev }.

Definition sw_init (st : Z) (te0 : bool) (clh0 : list byte) (ho : bool) : sw :=
  {| hdr := false; don := false; cl := 0; wrt := 0; status := st; te := te0; clh := clh0; honly := ho;
     isrsp := true; shut := false; wire := [] |}.

Definition set_hdr (s : sw) : sw :=
  {| hdr := true; don := don s; cl := cl s; wrt := wrt s; status := status s; te := te s; clh := clh s;
     honly := honly s; isrsp := false; shut := shut s; wire := wire s |}.
Definition set_done (s : sw) : sw :=
  {| hdr := hdr s; don := true; cl := cl s; wrt := wrt s; status := status s; te := te s; clh := clh s;
     honly := honly s; isrsp := isrsp s; shut := shut s; wire := wire s |}.
Definition set_cl (s : sw) (c : Z) (t : bool) : sw :=
  {| hdr := hdr s; don := don s; cl := c; wrt := wrt s; status := status s; te := t; clh := clh s;
     honly := honly s; isrsp := isrsp s; shut := shut s; wire := wire s |}.
Definition set_wrt (s : sw) (x : Z) : sw :=
  {| hdr := hdr s; don := don s; cl := cl s; wrt := x; status := status s; te := te s; clh := clh s;
     honly := honly s; isrsp := isrsp s; shut := shut s; wire := wire s |}.
Definition set_status (s : sw) (x : Z) : sw :=
  {| hdr := hdr s; don := don s; cl := cl s; wrt := wrt s; status := x; te := te s; clh := clh s;
     honly := honly s; isrsp := isrsp s; shut := shut s; wire := wire s |}.
Definition set_shut (s : sw) : sw :=
  {| hdr := hdr s; don := don s; cl := cl s; wrt := wrt s; status := status s; te := te s; clh := clh s;
     honly := honly s; isrsp := isrsp s; shut := true; wire := wire s |}.
Definition push (s : sw) (e : wev) : sw :=
  {| hdr := hdr s; don := don s; cl := cl s; wrt := wrt s; status := status s; te := te s; clh := clh s;
     honly := honly s; isrsp := isrsp s; shut := shut s; wire := wire s ++ [e] |}.

(** The answers of the transport are an input: one per SendResponse, 0 when the list is exhausted. *)
Definition answer (rs : list Z) : Z * list Z := match rs with [] => (0, []) | r :: l => (r, l) end.

(** ContextStatusToStreamStatus, http_stream.cc:24-33. *)
Definition to_stat (r : Z) : stat :=
  if r =? 0 then SOk else if r =? -1 then SNet else if r =? -2 then STime else SRaw r.

(** SendResponse and ContextStatusToStreamStatus. *)
Definition send (s : sw) (e : wev) (k : sw -> sw) (rs : list Z) : sw * stat * list Z :=
  let '(r, rs') := answer rs in
  if r =? 0 then (k (push s e), SOk, rs') else (s, to_stat r, rs').

(** HttpWriteStream::WriteHeader, http_stream.cc:82-107. *)
Definition write_header (s : sw) (rs : list Z) : sw * stat * list Z :=
  if negb (hdr s) then
    if status s <? 200 then send s Info (fun t => set_status t 200) rs
    else
      let c := match clh s with
               | [] => kChunked
               | _ => match parse_content_length (clh s) with Some v => v | None => 0 end
               end in
      let s1 := set_cl s c (if c =? kChunked then true else te s) in
      let s2 := if honly s1 then set_cl s1 0 (te s1) else s1 in
      send s2 (Head (te s2) (clh s2) (honly s2)) set_hdr rs
  else (s, SOk, rs).

(** The loop of HttpWriteStream::Write, http_stream.cc:110-114. *)
Fixpoint header_loop (fuel : nat) (s : sw) (rs : list Z) : out (sw * stat * list Z) :=
  match fuel with
  | O => NoFuel
  | S f =>
      if negb (hdr s) then
        let '(s1, st, rs1) := write_header s rs in
        match st with SOk => header_loop f s1 rs1 | _ => Ok (s1, st, rs1) end
      else Ok (s, SOk, rs)
  end.

(** HttpWriteStream::Write, http_stream.cc:109-127. *)
Definition write (s : sw) (item : list byte) (rs : list Z) : out (sw * stat * list Z) :=
  let! (s1, st, rs1) := header_loop 4 s rs in
  match st with
  | SOk =>
      let size := blen item in
      if negb (cl s1 =? kChunked) && (u64 (wrt s1 + size) >? u64 (cl s1)) then Ok (s1, SLen, rs1) else
      let! b := if cl s1 =? kChunked then chunk item else Ok item in
      Ok (send s1 (Body b) (fun t => set_wrt t (u64 (wrt t + size))) rs1)
  | _ => Ok (s1, st, rs1)
  end.

(** HttpWriteStream::WriteDone, http_stream.cc:129-141. *)
Definition write_done (s : sw) (rs : list Z) : sw * stat * list Z :=
  if negb (don s) then
    if cl s =? kChunked then send s (Body s_end_chunked) set_done rs
    else if negb (wrt s =? u64 (cl s)) then (set_shut s, SLen, rs)
    else (set_done s, SOk, rs)
  else (s, SOk, rs).

(** HttpWriteStream::Close, http_stream.h:186-191. *)
Definition close (s : sw) (rs : list Z) : sw * list Z :=
  if negb (isrsp s) then
    let '(s1, _, rs1) := write_header s rs in
    let '(s2, _, rs2) := write_done s1 rs1 in (s2, rs2)
  else (s, rs).

Definition exec (s : sw) (op : wop) (rs : list Z) : out (sw * stat * list Z) :=
  match op with
  | OHeader => Ok (write_header s rs)
  | OWrite item => write s item rs
  | ODone => Ok (write_done s rs)
  | OClose => let '(s1, rs1) := close s rs in Ok (s1, SOk, rs1)
  end.

(** A sequence of calls, with what each returned. *)
Fixpoint run (s : sw) (ops : list wop) (rs : list Z) : out (sw * list stat) :=
  match ops with
  | [] => Ok (s, [])
  | op :: l =>
      let! (s1, st, rs1) := exec s op rs in
      let! (s2, sts) := run s1 l rs1 in Ok (s2, st :: sts)
  end.

(** * The request of a client *)

(** HttpClientStream, http_client_stream.h:211-231: the state bits kWriting, kReading, kClosed, the lengths
    and what it uses of the request ([cte]: a Transfer-Encoding field is present, [cclh]: the text of
    Content-Length). *)
Record cw := { writing : bool; reading : bool; closed : bool; ccl : Z; cwrt : Z; cte : bool; cclh : list byte;
               cwire : list wev }.

Definition cw_init (te0 : bool) (clh0 : list byte) : cw :=
  {| writing := false; reading := false; closed := false; ccl := 0; cwrt := 0; cte := te0; cclh := clh0;
     cwire := [] |}.
Definition cset (s : cw) (w r c : bool) (l n : Z) : cw :=
  {| writing := w; reading := r; closed := c; ccl := l; cwrt := n; cte := cte s; cclh := cclh s;
     cwire := cwire s |}.
Definition cpush (s : cw) (e : wev) : cw :=
  {| writing := writing s; reading := reading s; closed := closed s; ccl := ccl s; cwrt := cwrt s;
     cte := cte s; cclh := cclh s; cwire := cwire s ++ [e] |}.

(** ConvertConnSendError, http_client_stream.cc:21-29. *)
Definition conn_err (r : Z) : stat := if r =? -2 then STime else SNet.

(** HttpClientStream::SendMessage, http_client_stream.cc:160-170. *)
Definition csend (s : cw) (e : wev) (rs : list Z) : cw * stat * list Z :=
  if closed s then (s, SNet, rs) else
  let '(r, rs') := answer rs in
  if negb (r =? 0) then (s, conn_err r, rs') else (cpush s e, SOk, rs').

(** HttpClientStream::SendRequestHeader, http_client_stream.cc:111-151. *)
Definition csend_header (s : cw) (rs : list Z) : cw * stat * list Z :=
  let s1 := if cte s then cset s true (reading s) (closed s) kChunked (cwrt s) else s in
  let cont (s2 : cw) :=
    let s3 := cset s2 (writing s2) true (closed s2) (ccl s2) (cwrt s2) in
    let '(s4, st, rs') := csend s3 (Head (cte s3) (cclh s3) false) rs in
    match st with SOk => (s4, SOk, rs') | _ => (s4, SNet, rs') end in
  match cclh s1 with
  | [] => cont s1
  | _ =>
      if ccl s1 =? kChunked then (cset s1 false (reading s1) (closed s1) (ccl s1) (cwrt s1), SLen, rs)
      else cont (cset s1 true (reading s1) (closed s1)
                   match parse_content_length (cclh s1) with Some v => v | None => 0 end (cwrt s1))
  end.

(** HttpClientStream::Write, http_client_stream.cc:31-51. *)
Definition cwrite (s : cw) (item : list byte) (rs : list Z) : out (cw * stat * list Z) :=
  let size := blen item in
  let go (b : list byte) :=
    let s1 := cset s true (reading s) (closed s) (ccl s) (cwrt s) in
    let '(s2, st, rs') := csend s1 (Body b) rs in
    match st with
    | SOk => Ok (cset s2 (writing s2) (reading s2) (closed s2) (ccl s2) (u64 (cwrt s2 + size)), SOk, rs')
    | _ => Ok (s2, st, rs')
    end in
  if ccl s =? kChunked then let! b := chunk item in go b
  else if u64 (cwrt s + size) <=? u64 (ccl s) then go item
  else Ok (s, SLen, rs).

(** HttpClientStream::WriteDone, http_client_stream.cc:53-79. *)
Definition cwrite_done (s : cw) (rs : list Z) : cw * stat * list Z :=
  if negb (ccl s =? kChunked) && negb (cwrt s =? u64 (ccl s)) then (s, SLen, rs)
  else if negb (writing s) then (s, SOk, rs)
  else if closed s then (s, SNet, rs)
  else
    let stop (t : cw) := cset t false (reading t) (closed t) (ccl t) (cwrt t) in
    if ccl s =? kChunked then
      let '(s1, st, rs') := csend s (Body s_end_chunked) rs in
      match st with SOk => (stop s1, SOk, rs') | _ => (s1, st, rs') end
    else (stop s, SOk, rs).

(** HttpClientStream::Close, http_client_stream.cc:81-87. *)
Definition cclose (s : cw) (rs : list Z) : cw * list Z :=
  let '(s1, _, rs') := cwrite_done s rs in
  (cset s1 (writing s1) (reading s1) true (ccl s1) (cwrt s1), rs').

Definition cexec (s : cw) (op : wop) (rs : list Z) : out (cw * stat * list Z) :=
  match op with
  | OHeader => Ok (csend_header s rs)
  | OWrite item => cwrite s item rs
  | ODone => Ok (cwrite_done s rs)
  | OClose => let '(s1, rs1) := cclose s rs in Ok (s1, SOk, rs1)
  end.
Fixpoint crun (s : cw) (ops : list wop) (rs : list Z) : out (cw * list stat) :=
  match ops with
  | [] => Ok (s, [])
  | op :: l =>
      let! (s1, st, rs1) := cexec s op rs in
      let! (s2, sts) := crun s1 l rs1 in Ok (s2, st :: sts)
  end.

(** * The asynchronous streams *)

(** State and DataMode, common/stream.h:55-96. *)
Inductive wstate : Type := Idle | Init | Open | Closed | HalfClosed.
Inductive dmode : Type := NoData | Chunked | ContentLength | Unknown.

(** A header: its pairs in order; HttpHeader::ToString writes a line for each (see C18). *)
Definition header : Type := list (list byte * list byte).
Definition hline (p : list byte * list byte) : list byte := fst p ++ [x3a; x20] ++ snd p ++ s_crlf.
Definition hstring (h : header) : list byte := concat (map hline h).

(** The frames a user sends: a start line (its text without the line end and, for a status line, its code),
    a header (with what the code looks up in it: whether Transfer-Encoding says chunked, the values of
    Trailer, the parsed Content-Length: [None] absent, [Some None] not a number), data, eof, trailer. *)
Inductive frame : Type :=
| FLine (line : list byte) (code : Z)
| FHeader (h : header) (chunked : bool) (trailers : list (list byte)) (clen : option (option Z))
| FData (d : list byte)
| FEof
| FTrailer (h : header).

(** HttpCommonStream: write_state_, write_mode_, write_bytes_, write_trailers_, write_content_length_,
    the read state being closed, is_stop_, and whether the stream has had an error (status_). *)
Record aw := { aws : wstate; amode : dmode; abytes : Z; atr : list (list byte); acl : Z; aread : bool;
               astop : bool; abad : bool; awire : list byte }.
Definition aw_init (rd : bool) : aw :=
  {| aws := Idle; amode := Unknown; abytes := 0; atr := []; acl := 0; aread := rd; astop := false;
     abad := false; awire := [] |}.

Definition bytes_dec : forall a b : list byte, {a = b} + {a <> b} := list_eq_dec Byte.byte_eq_dec.
Definition aset (s : aw) (w : wstate) (m : dmode) (n : Z) (t : list (list byte)) (c : Z) : aw :=
  {| aws := w; amode := m; abytes := n; atr := t; acl := c; aread := aread s; astop := astop s;
     abad := abad s; awire := awire s |}.
Definition ast (s : aw) (w : wstate) : aw := aset s w (amode s) (abytes s) (atr s) (acl s).

Definition wst_eqb (a b : wstate) : bool :=
  match a, b with
  | Idle, Idle | Init, Init | Open, Open | Closed, Closed | HalfClosed, HalfClosed => true
  | _, _ => false
  end.
Definition is_cl (m : dmode) : bool := match m with ContentLength => true | _ => false end.

(** The Pre* functions: the new state and the bytes to send, or [None] (kError). *)
(** PreSendRequestLine, async/client/stream.cc:134-166; PreSendStatusLine, async/server/stream.cc:139-174. *)
Definition pre_line (s : aw) (line : list byte) (code : Z) : aw * option (list byte) :=
  if negb (wst_eqb (aws s) Idle) then (s, None)
  else (if negb (code =? 100) then ast s Init else s, Some (line ++ s_crlf)).

(** PreSendHeader, common/stream.cc:287-340. *)
Definition pre_header (s : aw) (h : header) (ch : bool) (trs : list (list byte)) (cle : option (option Z))
  : aw * option (list byte) :=
  if negb (wst_eqb (aws s) Init) then (s, None) else
  let bytes := (if (length h =? 0)%nat then s_crlf else hstring h) ++ s_crlf in
  if ch then (aset s Open Chunked (abytes s) (nodup bytes_dec (atr s ++ trs)) (acl s), Some bytes)
  else match cle with
       | Some None => (s, None)
       | Some (Some n) =>
           if n >? 0 then (aset s Open ContentLength (abytes s) (atr s) n, Some bytes)
           else (aset s Closed NoData (abytes s) (atr s) n, Some bytes)
       | None => (aset s Closed NoData (abytes s) (atr s) (acl s), Some bytes)
       end.

(** PreSendData, common/stream.cc:342-374. *)
Definition pre_data (s : aw) (d : list byte) : out (aw * option (list byte)) :=
  if negb (wst_eqb (aws s) Open) then Ok (s, None) else
  match amode s with
  | Chunked => let! b := chunk d in Ok (s, Some b)
  | ContentLength =>
      let n := u64 (abytes s + blen d) in
      if n >? acl s then Ok (aset s (aws s) (amode s) n (atr s) (acl s), None)
      else Ok (aset s (if n =? acl s then Closed else aws s) (amode s) n (atr s) (acl s), Some d)
  | _ => Ok (s, Some [])
  end.

(** PreSendEof, common/stream.cc:376-410 and the case kSendEof of CheckState, 107-116. *)
Definition pre_eof (s : aw) : aw * option (list byte) :=
  let expect := if is_cl (amode s) then Closed else Open in
  if negb (wst_eqb (aws s) expect) then (s, None) else
  match amode s with
  | Chunked =>
      if (length (atr s) =? 0)%nat then (ast s Closed, Some (s_end_transfer ++ s_crlf))
      else (ast s HalfClosed, Some s_end_transfer)
  | ContentLength => if negb (abytes s =? acl s) then (s, None) else (s, Some [])
  | _ => (s, Some [])
  end.

(** PreSendTrailer, common/stream.cc:412-452. *)
Definition pre_trailer (s : aw) (h : header) : aw * option (list byte) :=
  if negb (wst_eqb (aws s) HalfClosed) then (s, None)
  else if negb (length h =? length (atr s))%nat then (s, None)
  else if negb (forallb (fun p => if in_dec bytes_dec (fst p) (atr s) then true else false) h) then (s, None)
  else (ast s Closed, Some ((if (length h =? 0)%nat then s_crlf else hstring h) ++ s_crlf)).

(** HandleSendMessage, common/stream.cc:264-285, async/client/stream.cc:122-132,
    async/server/stream.cc:127-137. *)
Definition handle_send (s : aw) (f : frame) : out (aw * option (list byte)) :=
  match f with
  | FLine l c => Ok (pre_line s l c)
  | FHeader h ch trs cle => Ok (pre_header s h ch trs cle)
  | FData d => pre_data s d
  | FEof => Ok (pre_eof s)
  | FTrailer h => Ok (pre_trailer s h)
  end.

(** Stop, common/stream.cc:141-147 (RemoveStream left out). *)
Definition stop (s : aw) : aw :=
  if negb (astop s) then
    {| aws := Closed; amode := amode s; abytes := abytes s; atr := atr s; acl := acl s; aread := true;
       astop := true; abad := abad s; awire := awire s |}
  else s.
Definition bad (s : aw) : aw :=
  {| aws := aws s; amode := amode s; abytes := abytes s; atr := atr s; acl := acl s; aread := aread s;
     astop := astop s; abad := true; awire := awire s |}.
Definition apush (s : aw) (b : list byte) : aw :=
  {| aws := aws s; amode := amode s; abytes := abytes s; atr := atr s; acl := acl s; aread := aread s;
     astop := astop s; abad := abad s; awire := awire s ++ b |}.

(** PushSendMessage and AsyncWrite, async/stream.cc:24-57; Reset of the streams, async/client/stream.cc:36-43
    and async/server/stream.cc:56-61 (callbacks left out); [true]: the future is ready, [false]: it failed. *)
Definition push_send (s : aw) (f : frame) (r : Z) : out (aw * bool) :=
  let! (s1, o) := handle_send s f in
  match o with
  | None => Ok (stop (bad s1), false)
  | Some b =>
      let s2 := if aread s1 && wst_eqb (aws s1) Closed then stop s1 else s1 in
      if (length b =? 0)%nat then Ok (s2, true)
      else if r =? 0 then Ok (apush s2 b, true)
      else Ok (bad s2, false)
  end.

(** A sequence of frames; [EvRead]: the reading half closes meanwhile (HandleEof and friends). *)
Inductive aev : Type := Send (f : frame) (r : Z) | EvRead.
Definition close_read (s : aw) : aw :=
  {| aws := aws s; amode := amode s; abytes := abytes s; atr := atr s; acl := acl s; aread := true;
     astop := astop s; abad := abad s; awire := awire s |}.
Fixpoint arun (s : aw) (evs : list aev) : out (aw * list bool) :=
  match evs with
  | [] => Ok (s, [])
  | EvRead :: l => arun (close_read s) l
  | Send f r :: l =>
      let! (s1, ok) := push_send s f r in
      let! (s2, oks) := arun s1 l in Ok (s2, ok :: oks)
  end.
