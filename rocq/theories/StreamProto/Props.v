(** C55: a tRPC stream between a client and a server. *)
From Coq Require Import List.
From Verif.Lib Require Import Base.
From Verif.StreamProto Require Import Model Spec Proofs ProofsPolite ProofsRuns.
Import ListNotations.

(** Whatever the users do: the server is given a beginning of what the client wrote, and at the end of the stream all that was written before
    closing. *)
Theorem C55_to_server : forall polite w, reach polite w ->
  beginning (e_got (sv w)) (written (e_acc (cl w))) /\ (e_eof (sv w) = true -> e_got (sv w) = before_close (e_acc (cl w))).
Proof. exact to_server. Qed.
Print Assumptions C55_to_server.

Theorem C55_to_client : forall polite w, reach polite w ->
  beginning (e_got (cl w)) (written (e_acc (sv w))) /\ (e_eof (cl w) = true -> e_got (cl w) = before_close (e_acc (sv w))).
Proof. exact to_client. Qed.
Print Assumptions C55_to_client.

(** With polite users no run ever resets the stream, at no interleaving. *)
Theorem C55_polite : forall w, reach true w -> fine (cl w) /\ fine (sv w).
Proof. exact polite_fine. Qed.
Print Assumptions C55_polite.

(** When nothing goes on any more the handshake is done, all that a closed end wrote is with the other end, and if both have closed both are
    closed. *)
Theorem C55_quiet : forall w, reach true w -> (forall w', ~ own_step true w w') ->
  e_simple (cl w) <> NotReady /\ e_simple (sv w) <> NotReady /\
  (has_close (e_acc (cl w)) = true -> e_eof (sv w) = true /\ e_got (sv w) = before_close (e_acc (cl w))) /\
  (has_close (e_acc (cl w)) = true -> has_close (e_acc (sv w)) = true ->
     e_st (cl w) = Closed /\ e_st (sv w) = Closed /\ e_eof (cl w) = true /\ e_got (cl w) = before_close (e_acc (sv w))).
Proof. exact polite_end. Qed.
Print Assumptions C55_quiet.

(** Between two calls of the users only finitely much goes on. *)
Theorem C55_terminates : forall polite w, Acc (fun after before => own_step polite before after) w.
Proof. exact own_ends. Qed.
Print Assumptions C55_terminates.

(** A frame or a message that does not fit the state ends the stream, with RESET to the other end and an error to the user. *)
Theorem C55_refuse_recv : forall (server : bool) e e' f r,
  e_rq e = f :: r -> next_recv (if server then server_handle else client_handle) e = Some e' -> ~ In (e_st e) (expected server f) -> gave_up e e'.
Proof. exact refuse_recv. Qed.
Print Assumptions C55_refuse_recv.

Theorem C55_refuse_send : forall (server found : bool) e e' m r,
  e_sq e = m :: r -> next_send (if server then server_send found else client_send) e = Some e' -> ~ In (e_st e) (permitted server m) -> gave_up e e'.
Proof. exact refuse_send. Qed.
Print Assumptions C55_refuse_send.

(** A frame that fits the state is not answered by itself; RESET ends the stream with an error; a closed end ignores what comes. *)
Theorem C55_accept_recv : forall (server : bool) e e' f r,
  e_rq e = f :: r -> next_recv (if server then server_handle else client_handle) e = Some e' -> In (e_st e) (expected server f) ->
  e_sent e' = e_sent e /\
  (f = FReset -> e_st e <> Closed -> e_st e' = Closed /\ e_simple e' = Error /\ (e_simple e <> Error -> e_ok e' = false) /\ e_dead e' = true) /\
  (e_st e = Closed -> e_st e' = Closed /\ e_simple e' = e_simple e /\ e_ok e' = e_ok e /\ e_got e' = e_got e /\ e_eof e' = e_eof e /\ e_dead e' = false).
Proof. exact accept_recv. Qed.
Print Assumptions C55_accept_recv.

(** A message that fits the state is sent as it is. *)
Theorem C55_accept_send : forall (server found : bool) e e' m r,
  e_sq e = m :: r -> next_send (if server then server_send found else client_send) e = Some e' -> In (e_st e) (permitted server m) ->
  e_sent e' = e_sent e ++ [match m with MInit => FInit (if server then found else true) | MData n => FData n | MClose c => FClose c | MReset => FReset end] /\
  e_dead e' = (if server then match m with MInit => negb found | _ => false end else false) /\
  e_ok e' = e_ok e /\ e_got e' = e_got e /\ e_eof e' = e_eof e.
Proof. exact accept_send. Qed.
Print Assumptions C55_accept_send.

(** What a frame that fits does *)
Theorem C55_effect : forall (server : bool) e e' f r,
  e_rq e = f :: r -> next_recv (if server then server_handle else client_handle) e = Some e' ->
  In (e_st e) (expected server f) -> e_st e <> Closed -> e_simple e <> Finished -> e_simple e <> Error ->
  match f with
  | FInit found =>
    if server then e_st e' = Init /\ (e_term e = false -> e_sq e' = e_sq e ++ [MInit])
    else if found then e_st e' = Open /\ e_simple e' = Ready else e_st e' = Closed /\ e_simple e' = Error /\ e_ok e' = false /\ e_term e' = true
  | FData n => e_got e' = e_got e ++ [n] /\ e_st e' = e_st e /\ e_simple e' = e_simple e /\ e_ok e' = e_ok e
  | FClose c =>
    if server then e_st e' = RemoteClosed /\ e_simple e' = Finished /\ e_eof e' = true /\ (e_ok e' = true <-> c = COk) /\ e_term e' = e_term e
    else e_st e' = Closed /\ e_simple e' = (match c with CFw => Error | _ => Finished end) /\ (c <> CFw -> e_eof e' = true) /\ (e_ok e' = true <-> c = COk) /\
      e_term e' = true
  | FReset => e_st e' = Closed /\ e_simple e' = Error /\ e_ok e' = false /\ e_term e' = true
  end.
Proof. exact effect_recv. Qed.
Print Assumptions C55_effect.

(** The calls of the users, before and after the end *)
Theorem C55_calls : forall e, e_term e = false ->
  (forall n, e_ok e = true -> fst (write n e) = true /\ e_acc (snd (write n e)) = e_acc e ++ [MData n]) /\
  (e_simple e <> Error -> fst (write_done e) = e_ok e /\ e_acc (snd (write_done e)) = e_acc e ++ [MClose COk]) /\
  (forall c, e_acc (close c e) = e_acc e ++ [MClose c]) /\
  e_acc (reset e) = e_acc e ++ [MReset].
Proof. exact pushes. Qed.
Print Assumptions C55_calls.

Theorem C55_calls_stopped : forall e, e_term e = true ->
  (forall n, snd (write n e) = e) /\ snd (write_done e) = e /\ (forall c, close c e = e) /\ reset e = e.
Proof. exact pushes_not. Qed.
Print Assumptions C55_calls_stopped.

(** "A stream that has ended well for its user stays so": the server may finish first, with success; the WriteDone that the client had called before
    it could know then turns the finished stream into an error and is answered with RESET. *)
Theorem C55_finish_refuted : exists w w', reach false w /\ own_step false w w' /\
  e_acc (cl w) = [MInit; MClose COk] /\ e_acc (sv w) = [MInit; MClose COk] /\ e_sent (sv w) = [FInit true; FClose COk] /\ ~ In FReset (e_sent (cl w)) /\
  e_simple (cl w) = Finished /\ e_ok (cl w) = true /\ e_eof (cl w) = true /\
  e_simple (cl w') = Error /\ e_ok (cl w') = false /\ In FReset (e_sent (cl w')).
Proof. exact finish_lost. Qed.
Print Assumptions C55_finish_refuted.

(** "A Write that succeeds has queued the message": after the server has finished, it says success and drops it. *)
Theorem C55_write_refuted : exists w n, reach false w /\ fine (cl w) /\ fine (sv w) /\ has_close (e_acc (cl w)) = false /\
  fst (write n (cl w)) = true /\ e_acc (snd (write n (cl w))) = e_acc (cl w).
Proof. exact write_lost. Qed.
Print Assumptions C55_write_refuted.

(** Two messages one way, one the other way, and both ends closed *)
Example C55_case : exists w, reach true w /\ e_got (sv w) = [1; 2] /\ e_got (cl w) = [7] /\ e_eof (cl w) = true /\ e_eof (sv w) = true /\
  e_st (cl w) = Closed /\ e_st (sv w) = Closed /\ e_ok (cl w) = true.
Proof. exact good_run. Qed.
