(** C61: the bodies that HTTP streams write. *)
From Verif Require Import Lib.Base Lib.Bytes HttpChunk.Model HttpChunk.Spec.
From Verif Require Import HttpChunk.ProofsHex HttpChunk.ProofsServer HttpChunk.ProofsClient HttpChunk.ProofsAsync.
From Verif Require Import HttpChunk.ProofsBad.
From Coq Require Import Strings.Byte.
Open Scope Z_scope.

(** The size line of a chunk is the number in hexadecimal, without zeros in front, and a line end. *)
Theorem C61_header n : 0 <= n < 2 ^ 64 ->
  exists ds, chunk_header n = Ok (ds ++ crlf) /\ hexnum ds n /\
             (forall d r, ds = d :: r -> r <> [] -> d <> x30).
Proof. exact (chunk_header_ok n). Qed.
Print Assumptions C61_header.

Example C61_header_case :
  map chunk_header [0; 16; 4095; 2 ^ 64 - 1] =
  [Ok [x30; x0d; x0a]; Ok [x31; x30; x0d; x0a]; Ok [x66; x66; x66; x0d; x0a]; Ok (repeat x66 16 ++ [x0d; x0a])].
Proof. vm_compute. reflexivity. Qed.

(** A chunked body can be read in one way only, whatever follows it. *)
Theorem C61_unambiguous e1 p1 r1 e2 p2 r2 :
  chunked e1 p1 -> chunked e2 p2 -> e1 ++ r1 = e2 ++ r2 -> e1 = e2 /\ p1 = p2 /\ r1 = r2.
Proof. exact (unambiguous e1 p1 r1 e2 p2 r2). Qed.
Print Assumptions C61_unambiguous.

Example C61_unambiguous_case :
  chunked [x31; x0d; x0a; x61; x0d; x0a; x30; x0d; x0a; x0d; x0a] [x61].
Proof. exact chunked_a. Qed.

(** No sequence of calls runs out of bounds, whatever the transport answers. *)
Theorem C61_total :
  (forall ops s rs, Forall small_op ops -> exists s1 sts, run s ops rs = Ok (s1, sts) /\ length sts = length ops) /\
  (forall ops s rs, Forall small_op ops -> exists s1 sts, crun s ops rs = Ok (s1, sts) /\ length sts = length ops) /\
  (forall evs s, Forall (fun f => match f with FData d => size d < 2 ^ 64 | _ => True end) (frames evs) ->
     exists s1 oks, arun s evs = Ok (s1, oks)).
Proof. exact (conj run_total (conj crun_total arun_total)). Qed.
Print Assumptions C61_total.

Example C61_total_case : exists s,
  run (sw_init 100 false [x35] false) [OWrite [x61; x62]; OWrite [x63; x64; x65; x66]; ODone] [0; 0; 0] =
    Ok (s, [SOk; SLen; SLen]) /\
  wire s = [Info; Head false [x35] false; Body [x61; x62]] /\ shut s = true.
Proof. eexists. split; [vm_compute; reflexivity|]. split; reflexivity. Qed.

(** The server: after a successful WriteDone the wire holds one message that carries exactly what the
    successful writes were given; before, it holds the first part of such a message. *)
Theorem C61_server st c ho ops rs s sts :
  good_length c -> Forall small_op ops ->
  run (sw_init st false c ho) ops rs = Ok (s, sts) ->
  careful (if st <? 200 then 2 else 1) false (combine ops sts) ->
  let tr := combine ops sts in
  (finished tr -> message (wire s) (accepted tr)) /\ (~ finished tr -> under_way (wire s) (accepted tr)).
Proof. exact (server_l st c ho ops rs s sts). Qed.
Print Assumptions C61_server.

Example C61_server_case :
  let ops := [OHeader; OHeader; OWrite [x61]; OWrite [x62; x63]; OWrite [x64]; ODone; ODone] in
  let rs := [0; 0; 0; -2; 0; -1; 0] in
  let sts := [SOk; SOk; SOk; STime; SOk; SNet; SOk] in
  exists s, run (sw_init 100 false [] false) ops rs = Ok (s, sts) /\
  careful 2 false (combine ops sts) /\ finished (combine ops sts) /\ accepted (combine ops sts) = [x61; x64] /\
  wire s = [Info; Head true [] false; Body [x31; x0d; x0a; x61; x0d; x0a]; Body [x31; x0d; x0a; x64; x0d; x0a];
            Body [x30; x0d; x0a; x0d; x0a]].
Proof.
  eexists. split; [vm_compute; reflexivity|]. split; [|split; [|split; reflexivity]].
  - simpl. repeat split; discriminate.
  - unfold finished. simpl. auto 12.
Qed.

(** Close, the end of a handler that forgot WriteDone: a chunked message that has its head is completed. *)
Theorem C61_close st ops rs s sts s1 rs1 :
  Forall small_op ops -> run (sw_init st false [] false) ops rs = Ok (s, sts) ->
  careful (if st <? 200 then 2 else 1) false (combine ops sts) ->
  close s [] = (s1, rs1) ->
  if hdr s then message (wire s1) (accepted (combine ops sts)) else wire s1 = wire s.
Proof. exact (close_l st ops rs s sts s1 rs1). Qed.
Print Assumptions C61_close.

Example C61_close_case : exists s,
  run (sw_init 200 false [] false) [OWrite [x61]; OClose; OClose] [] = Ok (s, [SOk; SOk; SOk]) /\
  wire s = [Head true [] false; Body [x31; x0d; x0a; x61; x0d; x0a]; Body [x30; x0d; x0a; x0d; x0a]].
Proof. eexists. split; [vm_compute; reflexivity|]. reflexivity. Qed.

(** The client: the same once SendRequestHeader has succeeded. *)
Theorem C61_client t c ops rs s sts :
  good_length c -> (t = true -> c = []) -> Forall small_op ops -> Forall (fun o => o <> OHeader) ops ->
  crun (cw_init t c) (OHeader :: ops) rs = Ok (s, SOk :: sts) ->
  careful 0 false (combine ops sts) ->
  let tr := combine ops sts in
  (finished tr -> message (cwire s) (accepted tr)) /\ (~ finished tr -> under_way (cwire s) (accepted tr)).
Proof. exact (client_l t c ops rs s sts). Qed.
Print Assumptions C61_client.

Example C61_client_case :
  let ops := [OWrite [x61; x62]; OWrite [x63; x64]; OWrite [x63]; ODone] in
  let sts := [SOk; SLen; SOk; SOk] in
  exists s, crun (cw_init false [x33]) (OHeader :: ops) [] = Ok (s, SOk :: sts) /\
  careful 0 false (combine ops sts) /\ finished (combine ops sts) /\
  cwire s = [Head false [x33] false; Body [x61; x62]; Body [x63]].
Proof.
  eexists. split; [vm_compute; reflexivity|]. split; [|split; [|reflexivity]].
  - simpl. repeat split; discriminate.
  - unfold finished. simpl. auto 12.
Qed.

(** The asynchronous streams: when every frame was accepted and the writing half is closed, the bytes are
    the message the frames describe. *)
Theorem C61_async rd evs s oks : arun (aw_init rd) evs = Ok (s, oks) -> Forall (fun o => o = true) oks ->
  Forall careful_frame (frames evs) -> aws s = Closed -> exists p, sent (frames evs) (awire s) p.
Proof. exact (async_l rd evs s oks). Qed.
Print Assumptions C61_async.

Example C61_async_case :
  let h := [([x61], [x62])] in
  let evs := [Send (FLine [x6c] 200) 0; Send (FHeader h true [[x74]] None) 0; EvRead; Send (FData [x64]) 0;
              Send FEof 0; Send (FTrailer [([x74], [x75])]) 0] in
  exists s, arun (aw_init false) evs = Ok (s, [true; true; true; true; true]) /\
    Forall careful_frame (frames evs) /\ aws s = Closed /\
    awire s = [x6c] ++ [x0d; x0a] ++ [x61; x3a; x20; x62; x0d; x0a] ++ [x0d; x0a] ++ [x31; x0d; x0a; x64; x0d; x0a] ++
              [x30; x0d; x0a] ++ [x74; x3a; x20; x75; x0d; x0a] ++ [x0d; x0a].
Proof.
  eexists. split; [vm_compute; reflexivity|]. split; [|split; reflexivity].
  repeat constructor; simpl; unfold size; simpl; try discriminate; lia.
Qed.

(** What careful users avoid.  An empty piece ends the body: all calls succeed, the reader sees the data
    before it only. *)
Theorem C61_empty_refuted :
  let ops := [OHeader; OWrite [x61]; OWrite []; OWrite [x62]; ODone] in
  exists s bs, run (sw_init 200 false [] false) ops [] = Ok (s, [SOk; SOk; SOk; SOk; SOk]) /\
    wire s = Head true [] false :: map Body bs /\
    exists e r, concat bs = e ++ r /\ chunked e [x61] /\
    forall e1 p1 r1, concat bs = e1 ++ r1 -> chunked e1 p1 -> p1 = [x61].
Proof. exact empty_l. Qed.
Print Assumptions C61_empty_refuted.

(** Writes after WriteDone are accepted and sent behind the end of the body. *)
Theorem C61_after_done_refuted :
  exists s bs, run (sw_init 200 false [] false) [OWrite [x61]; ODone; OWrite [x62]] [] = Ok (s, [SOk; SOk; SOk]) /\
    wire s = Head true [] false :: map Body bs /\ forall p, ~ chunked (concat bs) p.
Proof. exact after_done_l. Qed.
Print Assumptions C61_after_done_refuted.

(** WriteDone before the head succeeds without effect, and takes away the end of what is written later. *)
Theorem C61_done_first_refuted :
  exists s bs, run (sw_init 200 false [] false) [ODone; OWrite [x61]; ODone] [] = Ok (s, [SOk; SOk; SOk]) /\
    wire s = Head true [] false :: map Body bs /\ forall p, ~ chunked (concat bs) p.
Proof. exact done_first_l. Qed.
Print Assumptions C61_done_first_refuted.

(** WriteDone after a WriteHeader that failed sends the end of a body that has no head. *)
Theorem C61_header_fail_refuted :
  exists s, run (sw_init 200 false [] false) [OHeader; ODone] [-1; 0] = Ok (s, [SNet; SOk]) /\
    wire s = [Body [x30; x0d; x0a; x0d; x0a]] /\ forall p, ~ message (wire s) p.
Proof. exact header_fail_l. Qed.
Print Assumptions C61_header_fail_refuted.

(** A client whose head was refused (chunked and with a length) sends chunks without a head. *)
Theorem C61_headless_refuted :
  exists s, crun (cw_init true [x35]) [OHeader; OWrite [x61]; ODone] [] = Ok (s, [SLen; SOk; SOk]) /\
    cwire s = [Body [x31; x0d; x0a; x61; x0d; x0a]; Body [x30; x0d; x0a; x0d; x0a]] /\
    forall p, ~ message (cwire s) p.
Proof. exact headless_l. Qed.
Print Assumptions C61_headless_refuted.

(** A header without fields gets one empty line too many, that the peer reads as the start of a body or of
    the next message. *)
Theorem C61_empty_header_refuted line :
  let evs := [Send (FLine line 200) 0; Send (FHeader [] false [] None) 0] in
  exists s, arun (aw_init false) evs = Ok (s, [true; true]) /\
    awire s = line ++ crlf ++ crlf ++ crlf /\ forall p, ~ sent (frames evs) (awire s) p.
Proof. exact (empty_header_l line). Qed.
Print Assumptions C61_empty_header_refuted.

(** The status line 100 is not followed by the empty line that ends an interim response. *)
Theorem C61_continue_refuted line :
  exists s, arun (aw_init false) [Send (FLine line 100) 0; Send (FLine line 200) 0] = Ok (s, [true; true]) /\
    awire s = line ++ crlf ++ line ++ crlf.
Proof. exact (continue_l line). Qed.
Print Assumptions C61_continue_refuted.

(** WriteDone of an asynchronous stream fails after Content-Length: 0 and succeeds after Content-Length: 1. *)
Theorem C61_zero_length_refuted line :
  let hd n := [Send (FLine line 200) 0; Send (FHeader [([x61], [x62])] false [] (Some (Some n))) 0] in
  (exists s, arun (aw_init false) (hd 0 ++ [Send FEof 0]) = Ok (s, [true; true; false])) /\
  (exists s, arun (aw_init false) (hd 1 ++ [Send (FData [x61]) 0; Send FEof 0]) = Ok (s, [true; true; true; true])).
Proof. exact (zero_length_l line). Qed.
Print Assumptions C61_zero_length_refuted.
