(** Model of a tRPC stream between a client and a server: trpc/stream/trpc/trpc_client_stream.cc, trpc_server_stream.cc, trpc_stream.cc and
    trpc/stream/common_stream.cc in the FIBER thread model.

    Each end has the two queues of its scheduler (C54).  The first message of either queue can be handled at any time, so that every way the
    scheduler groups and orders them is covered; after kError nothing is handled any more.  The connection keeps the order of the frames, each
    way, and does not fail.  Encoding and decoding (C01-C07) succeed, so a frame is what it carries: INIT the result of looking up the method,
    DATA a message (a number), CLOSE a status, RESET an error.  FEEDBACK frames (C42) do not touch the state and are left out, and so are the
    filters, the statistics and the time-outs of Start and Finish. *)
From Verif.Lib Require Import Base.

(** common_stream.h:114-121, 149 *)
Inductive state := Closed | Idle | Init | Open | LocalClosed | RemoteClosed.
Inductive action := HandleInit | SendInit | HandleData | SendData | HandleClose | SendClose.
Inductive simple := NotReady | Ready | Finished | Error.
(** A status: success, a code of the user's function, a code of the framework *)
Inductive code := COk | CFunc | CFw.
Inductive frame := FInit (found : bool) | FData (n : nat) | FClose (c : code) | FReset.
Inductive smsg := MInit | MData (n : nat) | MClose (c : code) | MReset.

(** One end of a stream: state, simple_state, status.OK(), the queues, terminate_; whether a handler has failed; how many frames of the other end
    the connection has handed over.
    [e_sent], [e_seen], [e_acc]: the frames sent, the frames handled and the messages accepted so far; [e_got]: what OnData was given so far;
    [e_eof]: OnFinish was called. *)
Record ep := {
  e_st : state;
  e_simple : simple;
  e_ok : bool;
  e_rq : list frame;
  e_sq : list smsg;
  e_term : bool;
  e_dead : bool;
  e_taken : nat;
  e_sent : list frame;
  e_seen : list frame;
  e_acc : list smsg;
  e_got : list nat;
  e_eof : bool }.

Definition set_st (x : state) (e : ep) : ep :=
  {| e_st := x; e_simple := e_simple e; e_ok := e_ok e; e_rq := e_rq e; e_sq := e_sq e; e_term := e_term e; e_dead := e_dead e;
     e_taken := e_taken e; e_sent := e_sent e; e_seen := e_seen e; e_acc := e_acc e; e_got := e_got e; e_eof := e_eof e |}.
Definition set_simple (x : simple) (e : ep) : ep :=
  {| e_st := e_st e; e_simple := x; e_ok := e_ok e; e_rq := e_rq e; e_sq := e_sq e; e_term := e_term e; e_dead := e_dead e;
     e_taken := e_taken e; e_sent := e_sent e; e_seen := e_seen e; e_acc := e_acc e; e_got := e_got e; e_eof := e_eof e |}.
Definition set_ok (x : bool) (e : ep) : ep :=
  {| e_st := e_st e; e_simple := e_simple e; e_ok := x; e_rq := e_rq e; e_sq := e_sq e; e_term := e_term e; e_dead := e_dead e;
     e_taken := e_taken e; e_sent := e_sent e; e_seen := e_seen e; e_acc := e_acc e; e_got := e_got e; e_eof := e_eof e |}.
Definition set_rq (x : list frame) (e : ep) : ep :=
  {| e_st := e_st e; e_simple := e_simple e; e_ok := e_ok e; e_rq := x; e_sq := e_sq e; e_term := e_term e; e_dead := e_dead e;
     e_taken := e_taken e; e_sent := e_sent e; e_seen := e_seen e; e_acc := e_acc e; e_got := e_got e; e_eof := e_eof e |}.
Definition set_sq (x : list smsg) (e : ep) : ep :=
  {| e_st := e_st e; e_simple := e_simple e; e_ok := e_ok e; e_rq := e_rq e; e_sq := x; e_term := e_term e; e_dead := e_dead e;
     e_taken := e_taken e; e_sent := e_sent e; e_seen := e_seen e; e_acc := e_acc e; e_got := e_got e; e_eof := e_eof e |}.
Definition set_term (x : bool) (e : ep) : ep :=
  {| e_st := e_st e; e_simple := e_simple e; e_ok := e_ok e; e_rq := e_rq e; e_sq := e_sq e; e_term := x; e_dead := e_dead e;
     e_taken := e_taken e; e_sent := e_sent e; e_seen := e_seen e; e_acc := e_acc e; e_got := e_got e; e_eof := e_eof e |}.
Definition set_dead (x : bool) (e : ep) : ep :=
  {| e_st := e_st e; e_simple := e_simple e; e_ok := e_ok e; e_rq := e_rq e; e_sq := e_sq e; e_term := e_term e; e_dead := x;
     e_taken := e_taken e; e_sent := e_sent e; e_seen := e_seen e; e_acc := e_acc e; e_got := e_got e; e_eof := e_eof e |}.
Definition set_taken (x : nat) (e : ep) : ep :=
  {| e_st := e_st e; e_simple := e_simple e; e_ok := e_ok e; e_rq := e_rq e; e_sq := e_sq e; e_term := e_term e; e_dead := e_dead e;
     e_taken := x; e_sent := e_sent e; e_seen := e_seen e; e_acc := e_acc e; e_got := e_got e; e_eof := e_eof e |}.
Definition set_sent (x : list frame) (e : ep) : ep :=
  {| e_st := e_st e; e_simple := e_simple e; e_ok := e_ok e; e_rq := e_rq e; e_sq := e_sq e; e_term := e_term e; e_dead := e_dead e;
     e_taken := e_taken e; e_sent := x; e_seen := e_seen e; e_acc := e_acc e; e_got := e_got e; e_eof := e_eof e |}.
Definition set_seen (x : list frame) (e : ep) : ep :=
  {| e_st := e_st e; e_simple := e_simple e; e_ok := e_ok e; e_rq := e_rq e; e_sq := e_sq e; e_term := e_term e; e_dead := e_dead e;
     e_taken := e_taken e; e_sent := e_sent e; e_seen := x; e_acc := e_acc e; e_got := e_got e; e_eof := e_eof e |}.
Definition set_acc (x : list smsg) (e : ep) : ep :=
  {| e_st := e_st e; e_simple := e_simple e; e_ok := e_ok e; e_rq := e_rq e; e_sq := e_sq e; e_term := e_term e; e_dead := e_dead e;
     e_taken := e_taken e; e_sent := e_sent e; e_seen := e_seen e; e_acc := x; e_got := e_got e; e_eof := e_eof e |}.
Definition set_got (x : list nat) (e : ep) : ep :=
  {| e_st := e_st e; e_simple := e_simple e; e_ok := e_ok e; e_rq := e_rq e; e_sq := e_sq e; e_term := e_term e; e_dead := e_dead e;
     e_taken := e_taken e; e_sent := e_sent e; e_seen := e_seen e; e_acc := e_acc e; e_got := x; e_eof := e_eof e |}.
Definition set_eof (x : bool) (e : ep) : ep :=
  {| e_st := e_st e; e_simple := e_simple e; e_ok := e_ok e; e_rq := e_rq e; e_sq := e_sq e; e_term := e_term e; e_dead := e_dead e;
     e_taken := e_taken e; e_sent := e_sent e; e_seen := e_seen e; e_acc := e_acc e; e_got := e_got e; e_eof := x |}.

Definition state_eqb (a b : state) : bool :=
  match a, b with
  | Closed, Closed | Idle, Idle | Init, Init | Open, Open | LocalClosed, LocalClosed | RemoteClosed, RemoteClosed => true
  | _, _ => false
  end.
Definition simple_eqb (a b : simple) : bool :=
  match a, b with NotReady, NotReady | Ready, Ready | Finished, Finished | Error, Error => true | _, _ => false end.

(** fiber_stream_job_scheduler.cc:25-80, 87-98 *)
Definition push_recv (f : frame) (e : ep) : ep := if e_term e then e else set_rq (e_rq e ++ [f]) e.
Definition push_send (m : smsg) (e : ep) : ep := if e_term e then e else set_acc (e_acc e ++ [m]) (set_sq (e_sq e ++ [m]) e).
Definition stop (e : ep) : ep := set_term true e.

(** common_stream.cc:335-416 *)
Definition on_ready (e : ep) : ep := set_simple Ready e.
Definition on_data (n : nat) (e : ep) : ep := set_got (e_got e ++ [n]) e.
Definition on_finish (c : code) (e : ep) : ep :=
  if simple_eqb (e_simple e) Finished then e
  else set_eof true (set_ok (match c with COk => true | _ => false end) (set_simple Finished e)).
Definition on_error (e : ep) : ep :=
  if simple_eqb (e_simple e) Error then e else set_ok false (set_simple Error e).

(** common_stream.cc:282-287 *)
Definition send (f : frame) (e : ep) : ep := set_sent (e_sent e ++ [f]) e.
(** trpc_stream.cc:96-108 *)
Definition send_reset (e : ep) : ep := send FReset (set_st Closed e).

(** CheckState, trpc_client_stream.cc:21-56 *)
Definition client_ok (s : state) (a : action) : bool :=
  match a with
  | HandleInit => state_eqb s Init
  | SendInit => state_eqb s Idle
  | HandleData => state_eqb s Open || state_eqb s LocalClosed
  | SendData => state_eqb s Open
  | HandleClose => state_eqb s Open || state_eqb s LocalClosed
  | SendClose => state_eqb s Open
  end.
(** CheckState, trpc_server_stream.cc:43-84 *)
Definition server_ok (s : state) (a : action) : bool :=
  match a with
  | HandleInit => state_eqb s Idle
  | SendInit => state_eqb s Init
  | HandleData => state_eqb s Open || state_eqb s LocalClosed
  | SendData => state_eqb s Open || state_eqb s RemoteClosed
  | HandleClose => state_eqb s Open
  | SendClose => state_eqb s Open || state_eqb s RemoteClosed
  end.
(** trpc_client_stream.cc:58-70, trpc_server_stream.cc:86-98: the bad end of CheckState; false is kError *)
Definition bad_state (e : ep) : ep * bool := (on_error (send_reset e), false).

(** TrpcClientStream: HandleInit 262-300, HandleData 302-313, HandleClose 315-368 *)
Definition client_handle (f : frame) (e : ep) : ep * bool :=
  match f with
  | FInit found =>
    if negb (client_ok (e_st e) HandleInit) then bad_state e
    else if negb found then (on_error (set_st Closed e), false)
    else (on_ready (set_st Open e), true)
  | FData n =>
    if negb (client_ok (e_st e) HandleData) then bad_state e
    else (on_data n e, true)
  | FReset =>
    if state_eqb (e_st e) Closed then (e, true)
    else (on_error (set_st Closed e), false)
  | FClose c =>
    if state_eqb (e_st e) Closed then (e, true)
    else if negb (client_ok (e_st e) HandleClose) then bad_state e
    else
      let e := set_st Closed e in
      match c with
      | CFw => (on_error e, false)
      | _ => (stop (on_finish c e), true)
      end
  end.

(** TrpcClientStream: SendInit 163-229, SendData 231-242, SendClose 244-260 *)
Definition client_send (m : smsg) (e : ep) : ep * bool :=
  match m with
  | MInit => if negb (client_ok (e_st e) SendInit) then bad_state e else (set_st Init (send (FInit true) e), true)
  | MData n => if negb (client_ok (e_st e) SendData) then bad_state e else (send (FData n) e, true)
  | MClose c => if negb (client_ok (e_st e) SendClose) then bad_state e else (set_st LocalClosed (send (FClose c) e), true)
  | MReset => if negb (client_ok (e_st e) SendClose) then bad_state e else (set_st LocalClosed (send FReset e), true)
  end.

(** TrpcServerStream: HandleInit 103-143, HandleData 145-156, HandleClose 158-198 *)
Definition server_handle (f : frame) (e : ep) : ep * bool :=
  match f with
  | FInit _ =>
    if negb (server_ok (e_st e) HandleInit) then bad_state e
    else (push_send MInit (set_st Init e), true)
  | FData n =>
    if negb (server_ok (e_st e) HandleData) then bad_state e
    else (on_data n e, true)
  | FReset =>
    if state_eqb (e_st e) Closed then (e, true)
    else (on_error (set_st Closed e), false)
  | FClose c =>
    if state_eqb (e_st e) Closed then (e, true)
    else if negb (server_ok (e_st e) HandleClose) then bad_state e
    else (on_finish c (set_st RemoteClosed e), true)
  end.

(** TrpcServerStream: SendInit 200-260, SendData 262-273, SendClose 275-300; [found]: handle_streaming_rpc_cb knows the method *)
Definition server_send (found : bool) (m : smsg) (e : ep) : ep * bool :=
  match m with
  | MInit =>
    if negb (server_ok (e_st e) SendInit) then bad_state e
    else
      let e := send (FInit found) e in
      if found then (on_ready (set_st Open e), true) else (set_st Closed e, false)
  | MData n => if negb (server_ok (e_st e) SendData) then bad_state e else (send (FData n) e, true)
  | MClose c => if negb (server_ok (e_st e) SendClose) then bad_state e else (stop (set_st Closed (send (FClose c) e)), true)
  | MReset => if negb (server_ok (e_st e) SendClose) then bad_state e else (stop (set_st Closed (send FReset e)), true)
  end.

(** fiber_stream_job_scheduler.cc:134, 142-145, 151, 154-157: the end of the loop after kError.
    (There Stop comes a little later; what is pushed in between is not handled.) *)
Definition settle (r : ep * bool) : ep := let (e, ok) := r in if ok then e else set_dead true (stop e).

(** The interface of the user.  CommonStream::Write, common_stream.cc:194-202; the result says whether the status is OK *)
Definition write (n : nat) (e : ep) : bool * ep :=
  if negb (e_ok e) then (false, e)
  else let e := push_send (MData n) e in (e_ok e, e).
(** TrpcClientStream::WriteDone, trpc_client_stream.cc:75-81, 106 *)
Definition write_done (e : ep) : bool * ep :=
  if simple_eqb (e_simple e) Error then (e_ok e, e)
  else let e := push_send (MClose COk) e in (e_ok e, e).
(** TrpcStream::Close and Reset, trpc_stream.cc:78-94; the server closes with the result of the method, stream_rpc_method_handler.h:124 *)
Definition close (c : code) (e : ep) : ep := push_send (MClose c) e.
Definition reset (e : ep) : ep := push_send MReset e.

Definition ep_new : ep :=
  {| e_st := Idle; e_simple := NotReady; e_ok := true; e_rq := []; e_sq := []; e_term := false; e_dead := false;
     e_taken := 0; e_sent := []; e_seen := []; e_acc := []; e_got := []; e_eof := false |}.

Record world := { cl : ep; sv : ep }.
(** TrpcClientStream::Start, trpc_client_stream.cc:109-115, has pushed INIT *)
Definition world_new : world := {| cl := push_send MInit ep_new; sv := ep_new |}.

(** The connection hands the next frame of the other end over. *)
Definition deliver (other : ep) (e : ep) : option ep :=
  match nth_error (e_sent other) (e_taken e) with
  | Some f => Some (push_recv f (set_taken (S (e_taken e)) e))
  | None => None
  end.
(** One message out of a queue *)
Definition next_recv (handle : frame -> ep -> ep * bool) (e : ep) : option ep :=
  if e_dead e then None
  else match e_rq e with [] => None | f :: r => Some (settle (handle f (set_seen (e_seen e ++ [f]) (set_rq r e)))) end.
Definition next_send (snd_ : smsg -> ep -> ep * bool) (e : ep) : option ep :=
  if e_dead e then None
  else match e_sq e with [] => None | m :: r => Some (settle (snd_ m (set_sq r e))) end.

(** Has the user closed this end? *)
Fixpoint has_close (l : list smsg) : bool :=
  match l with [] => false | MClose _ :: _ => true | _ :: l => has_close l end.

(** What goes on by itself; [polite]: the server knows the method *)
Inductive own_step (polite : bool) (w : world) : world -> Prop :=
| W_deliver_c e : deliver (sv w) (cl w) = Some e -> own_step polite w {| cl := e; sv := sv w |}
| W_deliver_s e : deliver (cl w) (sv w) = Some e -> own_step polite w {| cl := cl w; sv := e |}
| W_recv_c e : next_recv client_handle (cl w) = Some e -> own_step polite w {| cl := e; sv := sv w |}
| W_send_c e : next_send client_send (cl w) = Some e -> own_step polite w {| cl := e; sv := sv w |}
| W_recv_s e : next_recv server_handle (sv w) = Some e -> own_step polite w {| cl := cl w; sv := e |}
| W_send_s found e : (polite = true -> found = true) -> next_send (server_send found) (sv w) = Some e ->
    own_step polite w {| cl := cl w; sv := e |}.

(** The users call after Start has returned.  [polite]: nobody writes or closes after having closed, nobody resets, and the server closes after it
    has seen the end of the client's messages, with no code of the framework. *)
Inductive step (polite : bool) (w : world) : world -> Prop :=
| W_own w' : own_step polite w w' -> step polite w w'
| W_write_c n : e_simple (cl w) <> NotReady -> (polite = true -> has_close (e_acc (cl w)) = false) ->
    step polite w {| cl := snd (write n (cl w)); sv := sv w |}
| W_done_c : e_simple (cl w) <> NotReady -> (polite = true -> has_close (e_acc (cl w)) = false) ->
    step polite w {| cl := snd (write_done (cl w)); sv := sv w |}
| W_write_s n : e_simple (sv w) <> NotReady -> (polite = true -> has_close (e_acc (sv w)) = false) ->
    step polite w {| cl := cl w; sv := snd (write n (sv w)) |}
| W_close_s c : e_simple (sv w) <> NotReady ->
    (polite = true -> has_close (e_acc (sv w)) = false /\ e_eof (sv w) = true /\ c <> CFw) ->
    step polite w {| cl := cl w; sv := close c (sv w) |}
| W_reset_c : polite = false -> step polite w {| cl := reset (cl w); sv := sv w |}
| W_reset_s : polite = false -> step polite w {| cl := cl w; sv := reset (sv w) |}.

Inductive reach (polite : bool) : world -> Prop :=
| reach_new : reach polite world_new
| reach_step w w' : reach polite w -> step polite w w' -> reach polite w'.
