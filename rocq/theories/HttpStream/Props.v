(** C63: what the handler of an HTTP request reads of its body, who sleeps and
    who is woken. *)
From Coq Require Import List Bool Arith.
From Verif.HttpStream Require Import Model Spec Inv ProofsStep ProofsMain ProofsEnd.
Import ListNotations.

(** Whatever the order of the steps, what the calls of Read() return is one of
    the allowed traces of the body, and every call was answered once the
    handler is done. *)
Theorem C63_trace : forall c ps fin ns re k s, fin <> Some CEof -> runs (start0 c ps fin ns re) k s ->
  exists m b ns', trace fin (concat ps) ns (out s) m b ns' /\ (rp s = RDone -> ns' = []).
Proof. exact traced. Qed.
Print Assumptions C63_trace.

(** The buffer never holds more than its capacity. *)
Theorem C63_bounded : forall c ps fin ns re k s, fin <> Some CEof -> runs (start0 c ps fin ns re) k s -> length (content s) <= c.
Proof. exact bounded. Qed.
Print Assumptions C63_bounded.

(** Nothing is lost, repeated or reordered. *)
Theorem C63_prefix : forall c ps fin ns re k s, fin <> Some CEof -> runs (start0 c ps fin ns re) k s ->
  exists rest, concat ps = bytes (out s) ++ rest.
Proof. exact prefix. Qed.
Print Assumptions C63_prefix.

(** A call returns as many bytes as it asked for; it returns fewer only when the
    whole body arrived and has been read with it. *)
Theorem C63_calls : forall c ps fin ns re k s i x, fin <> Some CEof -> runs (start0 c ps fin ns re) k s -> nth_error (out s) i = Some (Data x) ->
  exists n, nth_error ns i = Some n /\
    (length x = n \/ length x < n /\ fin = Some CEnd /\ bytes (firstn (S i) (out s)) = concat ps).
Proof. exact calls. Qed.
Print Assumptions C63_calls.

(** The end is reported only for a complete body all of which was read, an error
    only when the connection broke. *)
Theorem C63_told : forall c ps fin ns re k s, fin <> Some CEof -> runs (start0 c ps fin ns re) k s ->
  (In Eof (out s) -> fin = Some CEnd /\ bytes (out s) = concat ps) /\ (In Err (out s) -> fin = Some CErr).
Proof. exact told. Qed.
Print Assumptions C63_told.

(** A handler that asks for more than there is, without ever being late, gets
    the whole body. *)
Theorem C63_read_all : forall c ps ns re k s, runs (start0 c ps (Some CEnd) ns re) k s -> rp s = RDone -> ~ In Late (out s) ->
  length (concat ps) < total ns -> bytes (out s) = concat ps.
Proof. exact read_all. Qed.
Print Assumptions C63_read_all.

(** Every call is answered exactly once. *)
Theorem C63_answered : forall c ps fin ns re k s, fin <> Some CEof -> runs (start0 c ps fin ns re) k s -> rp s = RDone -> length (out s) = length ns.
Proof. exact answered. Qed.
Print Assumptions C63_answered.

(** There is no endless run. *)
Theorem C63_finite : forall c ps fin ns re k s, fin <> Some CEof -> runs (start0 c ps fin ns re) k s -> k <= bound ps ns.
Proof. exact finite. Qed.
Print Assumptions C63_finite.

(** Where a run may stop: with everybody done, with a handler that waits for a
    body that is never closed, or with a writer asleep in front of a full
    buffer that nobody reads any more or whose reader asked for more than fits. *)
Theorem C63_stops : forall c ps fin ns re k s, fin <> Some CEof -> runs (start0 c ps fin ns re) k s -> quiet s ->
  returned s /\ (rp s = RDone \/ exists n, rp s = RWait n /\ fin = None /\ length (content s) < n) \/
  (exists l, wp s = WWait l /\ l <> []) /\ length (content s) = c /\ (rp s = RDone \/ exists n, rp s = RWait n /\ c < n).
Proof. exact ends. Qed.
Print Assumptions C63_stops.

(** No wake-up of the handler is lost: for a body that is closed in one way or
    the other and calls that ask for at most the capacity, the handler is done
    without help from its deadlines. *)
Theorem C63_reader_returns : forall c ps fin ns re k s, fin <> Some CEof -> fin <> None -> Forall (fun n => n <= c) ns ->
  runs (start0 c ps fin ns re) k s -> quiet s -> rp s = RDone.
Proof. exact reader_returns. Qed.
Print Assumptions C63_reader_returns.

(** When such calls ask for more than there is and no deadline passes, the whole
    body was read and the connection's fiber returned, too. *)
Theorem C63_writer_returns : forall c ps ns re k s, Forall (fun n => n <= c) ns -> length (concat ps) < total ns ->
  runs (start0 c ps (Some CEnd) ns re) k s -> quiet s -> ~ In Late (out s) -> bytes (out s) = concat ps /\ returned s.
Proof. exact writer_returns. Qed.
Print Assumptions C63_writer_returns.

(** FINDING: the loop of AppendAlways() does not look at stop_token_.  When a
    handler returns without having read a body that does not fit into the
    buffer, Close() wakes the connection's fiber, which finds the buffer full
    and goes to sleep again, for ever. *)
Theorem C63_abandoned_refuted : exists k s, runs (start0 2 [[1; 2; 3]] (Some CEnd) [] (Some CEof)) k s /\
  rp s = RDone /\ stop s = true /\ wp s = WWait [3] /\ forall s', ~ step s s'.
Proof. exact abandoned. Qed.
Print Assumptions C63_abandoned_refuted.

(** No call returns more than the capacity of the buffer. *)
Theorem C63_at_most : forall c ps fin ns re k s x, runs (start0 c ps fin ns re) k s -> In (Data x) (out s) -> length x <= c.
Proof. exact at_most. Qed.
Print Assumptions C63_at_most.

(** FINDING: the capacity is the limit that AppendToRequest() tests by asking
    for one byte more.  A body whose length is not announced is therefore never
    found to be too large ... *)
Theorem C63_limit_refuted : forall c ps fin ns re k s len r, runs (start0 c ps fin ns re) k s -> In r (out s) -> len <= c ->
  append_to_request len c r <> TooLarge.
Proof. exact never_too_large. Qed.
Print Assumptions C63_limit_refuted.

(** ... it runs into the deadline or an error instead ... *)
Theorem C63_too_long : forall c ps fin re k s, fin <> Some CEof -> runs (start0 c ps fin [S c] re) k s -> c < length (concat ps) ->
  out s = [] \/ out s = [Late] \/ out s = [Err].
Proof. exact too_long. Qed.
Print Assumptions C63_too_long.

(** ... and the connection's fiber sleeps on. *)
Theorem C63_too_long_refuted : exists k s, runs (start0 2 [[1; 2; 3]] (Some CEnd) [3] (Some CErr)) k s /\
  out s = [Late] /\ rp s = RDone /\ wp s = WWait [3] /\ forall s', ~ step s s'.
Proof. exact reported_late. Qed.
Print Assumptions C63_too_long_refuted.

(** Three pieces through a buffer of two bytes: both fibers sleep on the way. *)
Example C63_case : exists k s, runs (start0 2 [[1; 2; 3]; []; [4]] (Some CEnd) [2; 1; 2; 5] (Some CEof)) k s /\
  out s = [Data [1; 2]; Data [3]; Data [4]; Eof] /\ rp s = RDone /\ wp s = WDone.
Proof. exact case_ok. Qed.

(** A connection that breaks: the byte that is left is not returned. *)
Example C63_broken_case : exists k s, runs (start0 4 [[1; 2; 3]] (Some CErr) [2; 2; 1] None) k s /\
  out s = [Data [1; 2]; Err; Err] /\ rp s = RDone.
Proof. exact broken_ok. Qed.

(** AppendToRequest() with a limit of two bytes. *)
Example C63_append_case :
  append_to_request 0 2 (Data [7; 8]) = Body [7; 8] /\ append_to_request 3 2 (Data [7]) = TooLarge /\
  append_to_request 0 2 (Data [7; 8; 9]) = TooLarge /\ append_to_request 0 2 Late = Failed Late.
Proof. repeat split. Qed.
