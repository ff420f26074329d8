(** Model of stream flow control: trpc/stream/trpc/trpc_stream_flow_controller.h and the parts of
    trpc/stream/trpc/trpc_stream.cc that use it, as an interleaving of the writers and the two ends.

    Simplified: one direction of one stream; a message is its size; the job queues between Write and the
    network and the network itself are one FIFO; the condition variable has no spurious wake-ups. *)
From Verif.Lib Require Import Base.
Local Open Scope Z_scope.

Definition u32 (x : Z) : Z := x mod 2 ^ 32.

(** GetTrpcStreamWindowSize, trpc_stream_flow_controller.h:26-34. *)
Definition get_window_size (w : Z) : Z := if w =? 0 then w else if w <? 65535 then 65535 else w.

(** TrpcStreamSendController::DecreaseWindow, 45-51: the new window unless it returns false. *)
Definition decrease_window (window decrement : Z) : option Z :=
  if window <? 0 then None else Some (window - u32 decrement).
(** TrpcStreamSendController::IncreaseWindow, 57-60. *)
Definition increase_window (window increment : Z) : Z * bool :=
  let w := window + increment in (w, 0 <? w).
(** TrpcStreamRecvController::UpdateConsumeBytes, 74-82: consumed_ and the returned feedback. *)
Definition update_consume (window consumed bytes : Z) : Z * Z :=
  let c := u32 (consumed + u32 bytes) in
  if window / 4 <? c then (0, c) else (c, 0).

Record st := {
  f_window : Z;             (* send_flow_controller_ of the sender *)
  f_checked : list Z;       (* writers between the status check and the lock, trpc_stream.cc:60-63 *)
  f_waiting : list Z;       (* writers in flow_control_cond_.wait, 65 *)
  f_pushing : list Z;       (* writers before CommonStream::Write pushes, 68 *)
  f_wire : list Z;          (* messages on their way, up to OnData's queue *)
  f_rwindow : Z;            (* recv_flow_controller_ of the receiver *)
  f_consumed : Z;
  f_feedback : list Z;      (* feedback frames on their way *)
  f_failed : bool;          (* the sender's status is not OK *)
  f_closed : bool;          (* the sender's end was stopped: closed normally *)
  f_notify : bool;          (* OnError has not notified yet *)
  f_woken : Z;              (* bookkeeping only: bytes of the writers woken by a feedback or an error *)
  f_dropped : Z }.          (* bookkeeping only: bytes of the writers that found the stream failed or
                               stopped, and of the feedback it no longer handled *)

Definition init (w : Z) : st :=
  {| f_window := w; f_checked := []; f_waiting := []; f_pushing := []; f_wire := []; f_rwindow := w; f_consumed := 0;
     f_feedback := []; f_failed := false; f_closed := false; f_notify := false; f_woken := 0; f_dropped := 0 |}.

Definition sum (l : list Z) : Z := fold_right Z.add 0 l.

(** [step m]: every message has at most [m] bytes. *)
Inductive step (m : Z) : st -> st -> Prop :=
| (* TrpcStream::Write, trpc_stream.cc:56-60: the status is OK *)
  s_check n s : f_failed s = false -> 0 <= n <= m ->
    step m s {| f_window := f_window s; f_checked := f_checked s ++ [n]; f_waiting := f_waiting s; f_pushing := f_pushing s;
                f_wire := f_wire s; f_rwindow := f_rwindow s; f_consumed := f_consumed s; f_feedback := f_feedback s;
                f_failed := f_failed s; f_closed := f_closed s; f_notify := f_notify s; f_woken := f_woken s; f_dropped := f_dropped s |}
| (* 62-64: the lock, DecreaseWindow; enough window *)
  s_decrease a n b w s : f_checked s = a ++ n :: b -> decrease_window (f_window s) n = Some w ->
    step m s {| f_window := w; f_checked := a ++ b; f_waiting := f_waiting s; f_pushing := f_pushing s ++ [n];
                f_wire := f_wire s; f_rwindow := f_rwindow s; f_consumed := f_consumed s; f_feedback := f_feedback s;
                f_failed := f_failed s; f_closed := f_closed s; f_notify := f_notify s; f_woken := f_woken s; f_dropped := f_dropped s |}
| (* 64-65: not enough *)
  s_wait a n b s : f_checked s = a ++ n :: b -> decrease_window (f_window s) n = None ->
    step m s {| f_window := f_window s; f_checked := a ++ b; f_waiting := f_waiting s ++ [n]; f_pushing := f_pushing s;
                f_wire := f_wire s; f_rwindow := f_rwindow s; f_consumed := f_consumed s; f_feedback := f_feedback s;
                f_failed := f_failed s; f_closed := f_closed s; f_notify := f_notify s; f_woken := f_woken s; f_dropped := f_dropped s |}
| (* CommonStream::Write, common_stream.cc:194-202: looks at the status again and pushes; a stopped
     stream takes nothing, fiber_stream_job_scheduler.cc:56-60 *)
  s_push a n b s : f_pushing s = a ++ n :: b ->
    step m s {| f_window := f_window s; f_checked := f_checked s; f_waiting := f_waiting s; f_pushing := a ++ b;
                f_wire := if f_failed s || f_closed s then f_wire s else f_wire s ++ [n];
                f_rwindow := f_rwindow s; f_consumed := f_consumed s; f_feedback := f_feedback s;
                f_failed := f_failed s; f_closed := f_closed s; f_notify := f_notify s; f_woken := f_woken s;
                f_dropped := if f_failed s || f_closed s then f_dropped s + n else f_dropped s |}
| (* TrpcStream::Read, trpc_stream.cc:36-54 *)
  s_read n r s c k : f_wire s = n :: r -> update_consume (f_rwindow s) (f_consumed s) n = (c, k) ->
    step m s {| f_window := f_window s; f_checked := f_checked s; f_waiting := f_waiting s; f_pushing := f_pushing s;
                f_wire := r; f_rwindow := f_rwindow s; f_consumed := c;
                f_feedback := if k =? 0 then f_feedback s else f_feedback s ++ [k];
                f_failed := f_failed s; f_closed := f_closed s; f_notify := f_notify s; f_woken := f_woken s; f_dropped := f_dropped s |}
| (* TrpcStream::HandleFeedback, 176-191 *)
  s_feedback k r s w (wake : bool) : f_closed s = false -> f_feedback s = k :: r -> increase_window (f_window s) k = (w, wake) ->
    step m s {| f_window := w; f_checked := f_checked s;
                f_waiting := if wake then [] else f_waiting s;
                f_pushing := if wake then f_pushing s ++ f_waiting s else f_pushing s;
                f_wire := f_wire s; f_rwindow := f_rwindow s; f_consumed := f_consumed s; f_feedback := r;
                f_failed := f_failed s; f_closed := f_closed s; f_notify := f_notify s;
                f_woken := if wake then f_woken s + sum (f_waiting s) else f_woken s; f_dropped := f_dropped s |}
| (* a stopped stream drops it, fiber_stream_job_scheduler.cc:31-35 *)
  s_stale k r s : f_closed s = true -> f_feedback s = k :: r ->
    step m s {| f_window := f_window s; f_checked := f_checked s; f_waiting := f_waiting s; f_pushing := f_pushing s;
                f_wire := f_wire s; f_rwindow := f_rwindow s; f_consumed := f_consumed s; f_feedback := r;
                f_failed := f_failed s; f_closed := f_closed s; f_notify := f_notify s; f_woken := f_woken s;
                f_dropped := f_dropped s + k |}
| (* The peer closes the stream: TrpcClientStream::HandleClose (trpc_client_stream.cc:349-364) or
     TrpcServerStream::SendClose (trpc_server_stream.cc:292-294) stop it, and nobody is notified *)
  s_close s : f_closed s = false ->
    step m s {| f_window := f_window s; f_checked := f_checked s; f_waiting := f_waiting s; f_pushing := f_pushing s;
                f_wire := f_wire s; f_rwindow := f_rwindow s; f_consumed := f_consumed s; f_feedback := f_feedback s;
                f_failed := f_failed s; f_closed := true; f_notify := f_notify s; f_woken := f_woken s;
                f_dropped := f_dropped s |}
| (* TrpcStream::OnError, 71-72: CommonStream::OnError sets the status *)
  s_fail s : f_failed s = false ->
    step m s {| f_window := f_window s; f_checked := f_checked s; f_waiting := f_waiting s; f_pushing := f_pushing s;
                f_wire := f_wire s; f_rwindow := f_rwindow s; f_consumed := f_consumed s; f_feedback := f_feedback s;
                f_failed := true; f_closed := f_closed s; f_notify := true; f_woken := f_woken s; f_dropped := f_dropped s |}
| (* 73-75: and wakes the writers, without the lock *)
  s_notify s : f_notify s = true ->
    step m s {| f_window := f_window s; f_checked := f_checked s; f_waiting := []; f_pushing := f_pushing s ++ f_waiting s;
                f_wire := f_wire s; f_rwindow := f_rwindow s; f_consumed := f_consumed s; f_feedback := f_feedback s;
                f_failed := f_failed s; f_closed := f_closed s; f_notify := false; f_woken := f_woken s + sum (f_waiting s); f_dropped := f_dropped s |}.

Inductive reach (w m : Z) : st -> Prop :=
| r_init : reach w m (init w)
| r_step s s' : reach w m s -> step m s s' -> reach w m s'.
