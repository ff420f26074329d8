(** C62: the framing of HTTP messages. *)
From Coq Require Import Strings.String.
From Verif Require Import Lib.Base Lib.Bytes HttpFrame.Model HttpFrame.Spec HttpFrame.Toy.
From Verif Require Import HttpFrame.ProofsServer HttpFrame.ProofsMsg HttpFrame.ProofsClient HttpFrame.ProofsBad HttpFrame.ProofsClientBad.
From Verif Require Import HttpFrame.ProofsToy HttpFrame.ProofsCases.
From Coq Require Import Strings.Byte.
Open Scope Z_scope.

(** What a server connection does depends on the bytes that arrived, not on the reads they came in, and a
    read terminates. *)
Theorem C62_split : forall (L : lib), lawful L -> forall mp blk ws1 ws2,
  concat ws1 = concat ws2 -> regular (p_head L) mp (concat ws1) ->
  serve L mp blk (st_init L) ws1 = serve L mp blk (st_init L) ws2 /\
  exists r, serve L mp blk (st_init L) ws1 = Ok r.
Proof. exact split_l. Qed.
Print Assumptions C62_split.

(** Well-formed requests one after the other, in whatever reads they come, are delivered once each, in order,
    with their fields and their content, and nothing is left over. *)
Theorem C62_requests : forall (L : lib), lawful L -> forall mp blk ms ws,
  Forall (well_formed (p_head L)) ms -> Forall (fits mp blk) ms ->
  concat ws = concat (map bytes_of ms) -> regular (p_head L) mp (concat ws) ->
  exists s, serve L mp blk (st_init L) ws = Ok (Some s) /\
            fin L s = map request_of ms /\ cur L s = None /\ buf L s = [].
Proof. exact requests_l. Qed.
Print Assumptions C62_requests.

(** A bad message behind any number of good ones closes the connection, in whatever reads it comes. *)
Theorem C62_rejected : forall (L : lib), lawful L -> forall mp blk ms input ws,
  Forall (well_formed (p_head L)) ms -> Forall (fits mp blk) ms -> bad (p_head L) mp blk input ->
  concat ws = concat (map bytes_of ms) ++ input -> regular (p_head L) mp (concat ws) ->
  serve L mp blk (st_init L) ws = Ok None.
Proof. exact reject_l. Qed.
Print Assumptions C62_rejected.

(** Whatever arrives on a connection that does not block, no request grows over the limit, and after a read no
    more than the limit waits in the buffer. *)
Theorem C62_bounded : forall (L : lib), lawful L -> forall mp ws s,
  serve L mp false (st_init L) ws = Ok (Some s) ->
  (forall q, In q (fin L s) \/ cur L s = Some q -> size (cont q) < room mp) /\
  size (buf L s) <= Z.max 15 (room mp).
Proof. exact bounded_l. Qed.
Print Assumptions C62_bounded.

(** A client gets a well-formed response, in whatever reads it comes, once and as it was sent; the answer to a
    HEAD request has no body. *)
Theorem C62_response : forall (L : lib), lawful L -> forall mp (ishead : bool) m ws,
  well_formed (p_rhead L) m -> 17 <= size (m_head m) -> size (m_head m) + size (m_load m) <= room mp ->
  concat ws = (if ishead then m_head m else bytes_of m) -> regular (p_rhead L) mp (concat ws) ->
  exists s, receive L mp ishead (cst_init L) ws = Some (s, [(m_flds m, if ishead then [] else m_load m)]) /\
            cbuf L s = [].
Proof. exact response_l. Qed.
Print Assumptions C62_response.

(** A client refuses a bad response and one over the limit, in whatever reads it comes. *)
Theorem C62_refused : forall (L : lib), lawful L -> forall mp (ishead : bool) input ws,
  bad (p_rhead L) mp true input -> 17 <= size input -> concat ws = input -> regular (p_rhead L) mp input ->
  receive L mp ishead (cst_init L) ws = None.
Proof. exact refused_l. Qed.
Print Assumptions C62_refused.

Theorem C62_too_long : forall (L : lib), lawful L -> forall mp m ws,
  well_formed (p_rhead L) m -> 17 <= size (m_head m) -> size (m_head m) <= room mp ->
  room mp < size (m_head m) + size (m_load m) -> concat ws = bytes_of m -> regular (p_rhead L) mp (concat ws) ->
  receive L mp false (cst_init L) ws = None.
Proof. exact too_long_l. Qed.
Print Assumptions C62_too_long.

(** Whatever arrives, no response grows over the limit. *)
Theorem C62_client_bounded : forall (L : lib), lawful L -> forall mp (ishead : bool) ws s rs,
  receive L mp ishead (cst_init L) ws = Some (s, rs) ->
  Forall (fun r => size (snd r) < room mp) rs /\ size (snd (crsp L s)) < room mp.
Proof. exact cbounded_l. Qed.
Print Assumptions C62_client_bounded.

(** There are libraries as the theorems assume them. *)
Theorem C62_library : (forall lf, lawful (toy lf)) /\ strict (toy_head false).
Proof. exact (conj toy_lawful toy_strict). Qed.
Print Assumptions C62_library.

(** "Of two lengths that differ none is believed": the first is. *)
Theorem C62_two_lengths_refuted : exists hb f v1 v2 e q rest,
  toy_head false hb = HOk (length hb) f /\ cl f = [v1; v2] /\
  decnum v1 1 /\ decnum v2 2 /\ e = q ++ rest /\ rest <> [] /\
  delivered _ (serve (toy false) 100 false (st_init (toy false)) [hb ++ e]) =
    Some ([{| flds := f; cont := q; eof := true; pushes := 1 |}], rest).
Proof. exact two_lengths. Qed.
Print Assumptions C62_two_lengths_refuted.

(** "A transfer coding that is not known is refused": whatever it is, the body is read as chunks. *)
Theorem C62_coding_refuted : exists hb f, toy_head false hb = HOk (length hb) f /\ te f = [text "gzip"] /\
  delivered _ (serve (toy false) 100 false (st_init (toy false)) [hb ++ text "1|a|0||"]) =
    Some ([{| flds := f; cont := text "a"; eof := true; pushes := 1 |}], []).
Proof. exact any_coding. Qed.
Print Assumptions C62_coding_refuted.

(** "A length is a decimal number": +1 is accepted. *)
Theorem C62_number_refuted : exists hb f v e,
  toy_head false hb = HOk (length hb) f /\ cl f = [v] /\ (forall n, ~ decnum v n) /\ e <> [] /\
  delivered _ (serve (toy false) 100 false (st_init (toy false)) [hb ++ e]) =
    Some ([{| flds := f; cont := e; eof := true; pushes := 1 |}], []).
Proof. exact plus_one. Qed.
Print Assumptions C62_number_refuted.

(** "C62_split without [regular]": with heads whose lines end with LF alone and more input than the limit, the
    reads decide whether a request is delivered or the connection closed. *)
Theorem C62_split_refuted : exists L ws1 ws2 q rest, lawful L /\ concat ws1 = concat ws2 /\
  delivered L (serve L 24 false (st_init L) ws1) = None /\
  delivered L (serve L 24 false (st_init L) ws2) = Some ([q], rest).
Proof. exact lf_split. Qed.
Print Assumptions C62_split_refuted.

(** "A request that has arrived completely is handled": not if the next one in the same read is bad. *)
Theorem C62_lost_refuted : exists w1 w2 q,
  delivered _ (serve (toy false) 100 false (st_init (toy false)) [w1]) = Some ([q], []) /\
  delivered _ (serve (toy false) 100 false (st_init (toy false)) [w1 ++ w2]) = None.
Proof. exact lost. Qed.
Print Assumptions C62_lost_refuted.

(** "A client gets all responses that have arrived": the second one in a read waits for a further read. *)
Theorem C62_second_refuted : exists m, well_formed (toy_head false) m /\
  answers _ (receive (toy false) 100 false (cst_init (toy false)) [bytes_of m ++ bytes_of m]) =
    Some ([(m_flds m, m_load m)], bytes_of m).
Proof. exact second_waits. Qed.
Print Assumptions C62_second_refuted.

(** "A response without a length goes up to the end of the connection": it is delivered without its body. *)
Theorem C62_until_close_refuted : exists hb f e,
  toy_head false hb = HOk (length hb) f /\ te f = [] /\ cl f = [] /\ e <> [] /\
  answers _ (receive (toy false) 100 false (cst_init (toy false)) [hb; e]) = Some ([(f, [])], e).
Proof. exact until_close. Qed.
Print Assumptions C62_until_close_refuted.

(** "An interim response (100) is not the answer": it is. *)
Theorem C62_interim_refuted : exists m, well_formed (toy_head false) m /\ m_load m <> [] /\
  answers _ (receive (toy false) 100 false (cst_init (toy false)) [text "HTTP/1.1 100 Continue||" ++ bytes_of m]) =
    Some ([([], [])], bytes_of m).
Proof. exact interim. Qed.
Print Assumptions C62_interim_refuted.

(** Concrete cases: two requests, cut in the middle of the head, of a chunk size and of the data. *)
Example C62_two_requests :
  let input := bytes_of r1 ++ bytes_of r2 in
  delivered _ (serve (toy false) 60 false (st_init (toy false))
                 [firstn 20 input; firstn 63 (skipn 20 input); firstn 6 (skipn 83 input); skipn 89 input]) =
  Some ([{| flds := [field_of "content-length" "2"]; cont := text "ab"; eof := true; pushes := 1 |};
         {| flds := [field_of "Transfer-Encoding" "chunked"]; cont := text "cd0123456789"; eof := true; pushes := 1 |}], []).
Proof. vm_compute. reflexivity. Qed.
Example C62_hypotheses : lawful (toy false) /\ Forall (well_formed (toy_head false)) [r1; r2] /\ Forall (fits 60 false) [r1; r2] /\
  forall input, regular (toy_head false) 60 input.
Proof. exact (conj (toy_lawful false) (conj r_ok (conj r_fit r_regular))). Qed.
Example C62_length_refused : delivered _ (serve (toy false) 40 false (st_init (toy false))
  [text "POST / HTTP/1.1|content-length: 9||"]) = None.
Proof. vm_compute. reflexivity. Qed.
Example C62_both : delivered _ (serve (toy false) 100 true (st_init (toy false))
  [text "POST / HTTP/1.1|content-length: 9|transfer-Encoding: chunked||"]) = None.
Proof. vm_compute. reflexivity. Qed.
Example C62_answer : answers _ (receive (toy false) 100 false (cst_init (toy false))
  [text "HTTP/1.1 200 OK|Transfer-"; text "Encoding: chunked||"; text "3|abc"; text "|0||"]) =
  Some ([([field_of "Transfer-Encoding" "chunked"], text "abc")], []).
Proof. vm_compute. reflexivity. Qed.
Example C62_head : answers _ (receive (toy false) 100 true (cst_init (toy false))
  [text "HTTP/1.1 200 OK|Content-Length: 3||"]) = Some ([([field_of "Content-Length" "3"], [])], []).
Proof. vm_compute. reflexivity. Qed.
Example C62_answer_too_long : answers _ (receive (toy false) 40 false (cst_init (toy false))
  [text "HTTP/1.1 200 OK|Content-Length: 9||"; text "012345678"]) = None.
Proof. vm_compute. reflexivity. Qed.
