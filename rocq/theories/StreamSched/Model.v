(** Model of FiberStreamJobScheduler, trpc/stream/fiber_stream_job_scheduler.cc, of one stream, with TrpcStreamHandler::RemoveStream and
    TrpcStreamHandler::Stop, trpc/stream/trpc/trpc_stream_handler.cc, of the connection it belongs to.

    There are two mutexes: stream_mutex_ of the scheduler and mutex_ of the handler.  What is done under a mutex without taking the other one is
    one step, which needs that mutex to be free.  The two places that take one mutex while they have the other one are split:
    Stop of an idle stream calls RemoveStream (93-97), and TrpcStreamHandler::Stop pushes a RESET into each stream (79-88).  [sm] says that a
    fiber is inside of the first one and has stream_mutex_, [hm] that a fiber is inside of the second one and has mutex_.
    A call of a message handler is one step, which ends well or with kError as it likes.  A handler may push messages and call Stop; these are
    steps of the environment, which can be taken at any time.  A fiber that was started but does not run yet is at RTop.
    The memory is sequentially consistent.  A message is a number; a message to be sent has a mark that says whether it was pushed to the front. *)
From Verif.Lib Require Import Base.

Inductive rpc :=
| RTop                                              (* before lk.lock(), 110 *)
| RRecv (rl : list nat) (sl : list (bool * nat))    (* the loop of 131-135 *)
| RSend (sl : list (bool * nat))                    (* the loop of 148-152 *)
| RErr                                              (* before Stop(), 143 and 155 *)
| RBreak                                            (* before RemoveStream, 161 *)
| RFin.                                             (* before lk.lock(), 162 *)

(** stream_recv_msgs_, stream_send_msgs_, terminate_, done_, running_; the two mutexes; conn_closed_ and whether the stream is in streams_;
    the number of calls of RemoveStream; the fibers in Run.  [in_r], [in_s]: what was accepted so far, in order; [out_r], [out_s]: what was
    given to the handlers so far, in order; [bad]: a handler has failed. *)
Record sched := {
  rq : list nat;
  sq : list (bool * nat);
  term : bool;
  done : bool;
  running : bool;
  sm : bool;
  hm : bool;
  closed : bool;
  inmap : bool;
  removes : nat;
  runs : list rpc;
  in_r : list nat;
  in_s : list (bool * nat);
  out_r : list nat;
  out_s : list (bool * nat);
  bad : bool }.

Definition set_rq (x : list nat) (s : sched) : sched :=
  {| rq := x; sq := sq s; term := term s; done := done s; running := running s; sm := sm s; hm := hm s; closed := closed s; inmap := inmap s;
     removes := removes s; runs := runs s; in_r := in_r s; in_s := in_s s; out_r := out_r s; out_s := out_s s; bad := bad s |}.
Definition set_sq (x : list (bool * nat)) (s : sched) : sched :=
  {| rq := rq s; sq := x; term := term s; done := done s; running := running s; sm := sm s; hm := hm s; closed := closed s; inmap := inmap s;
     removes := removes s; runs := runs s; in_r := in_r s; in_s := in_s s; out_r := out_r s; out_s := out_s s; bad := bad s |}.
Definition set_term (x : bool) (s : sched) : sched :=
  {| rq := rq s; sq := sq s; term := x; done := done s; running := running s; sm := sm s; hm := hm s; closed := closed s; inmap := inmap s;
     removes := removes s; runs := runs s; in_r := in_r s; in_s := in_s s; out_r := out_r s; out_s := out_s s; bad := bad s |}.
Definition set_done (x : bool) (s : sched) : sched :=
  {| rq := rq s; sq := sq s; term := term s; done := x; running := running s; sm := sm s; hm := hm s; closed := closed s; inmap := inmap s;
     removes := removes s; runs := runs s; in_r := in_r s; in_s := in_s s; out_r := out_r s; out_s := out_s s; bad := bad s |}.
Definition set_running (x : bool) (s : sched) : sched :=
  {| rq := rq s; sq := sq s; term := term s; done := done s; running := x; sm := sm s; hm := hm s; closed := closed s; inmap := inmap s;
     removes := removes s; runs := runs s; in_r := in_r s; in_s := in_s s; out_r := out_r s; out_s := out_s s; bad := bad s |}.
Definition set_sm (x : bool) (s : sched) : sched :=
  {| rq := rq s; sq := sq s; term := term s; done := done s; running := running s; sm := x; hm := hm s; closed := closed s; inmap := inmap s;
     removes := removes s; runs := runs s; in_r := in_r s; in_s := in_s s; out_r := out_r s; out_s := out_s s; bad := bad s |}.
Definition set_hm (x : bool) (s : sched) : sched :=
  {| rq := rq s; sq := sq s; term := term s; done := done s; running := running s; sm := sm s; hm := x; closed := closed s; inmap := inmap s;
     removes := removes s; runs := runs s; in_r := in_r s; in_s := in_s s; out_r := out_r s; out_s := out_s s; bad := bad s |}.
Definition set_closed (x : bool) (s : sched) : sched :=
  {| rq := rq s; sq := sq s; term := term s; done := done s; running := running s; sm := sm s; hm := hm s; closed := x; inmap := inmap s;
     removes := removes s; runs := runs s; in_r := in_r s; in_s := in_s s; out_r := out_r s; out_s := out_s s; bad := bad s |}.
Definition set_inmap (x : bool) (s : sched) : sched :=
  {| rq := rq s; sq := sq s; term := term s; done := done s; running := running s; sm := sm s; hm := hm s; closed := closed s; inmap := x;
     removes := removes s; runs := runs s; in_r := in_r s; in_s := in_s s; out_r := out_r s; out_s := out_s s; bad := bad s |}.
Definition set_removes (x : nat) (s : sched) : sched :=
  {| rq := rq s; sq := sq s; term := term s; done := done s; running := running s; sm := sm s; hm := hm s; closed := closed s; inmap := inmap s;
     removes := x; runs := runs s; in_r := in_r s; in_s := in_s s; out_r := out_r s; out_s := out_s s; bad := bad s |}.
Definition set_runs (x : list rpc) (s : sched) : sched :=
  {| rq := rq s; sq := sq s; term := term s; done := done s; running := running s; sm := sm s; hm := hm s; closed := closed s; inmap := inmap s;
     removes := removes s; runs := x; in_r := in_r s; in_s := in_s s; out_r := out_r s; out_s := out_s s; bad := bad s |}.
Definition set_in_r (x : list nat) (s : sched) : sched :=
  {| rq := rq s; sq := sq s; term := term s; done := done s; running := running s; sm := sm s; hm := hm s; closed := closed s; inmap := inmap s;
     removes := removes s; runs := runs s; in_r := x; in_s := in_s s; out_r := out_r s; out_s := out_s s; bad := bad s |}.
Definition set_in_s (x : list (bool * nat)) (s : sched) : sched :=
  {| rq := rq s; sq := sq s; term := term s; done := done s; running := running s; sm := sm s; hm := hm s; closed := closed s; inmap := inmap s;
     removes := removes s; runs := runs s; in_r := in_r s; in_s := x; out_r := out_r s; out_s := out_s s; bad := bad s |}.
Definition set_out_r (x : list nat) (s : sched) : sched :=
  {| rq := rq s; sq := sq s; term := term s; done := done s; running := running s; sm := sm s; hm := hm s; closed := closed s; inmap := inmap s;
     removes := removes s; runs := runs s; in_r := in_r s; in_s := in_s s; out_r := x; out_s := out_s s; bad := bad s |}.
Definition set_out_s (x : list (bool * nat)) (s : sched) : sched :=
  {| rq := rq s; sq := sq s; term := term s; done := done s; running := running s; sm := sm s; hm := hm s; closed := closed s; inmap := inmap s;
     removes := removes s; runs := runs s; in_r := in_r s; in_s := in_s s; out_r := out_r s; out_s := x; bad := bad s |}.
Definition set_bad (x : bool) (s : sched) : sched :=
  {| rq := rq s; sq := sq s; term := term s; done := done s; running := running s; sm := sm s; hm := hm s; closed := closed s; inmap := inmap s;
     removes := removes s; runs := runs s; in_r := in_r s; in_s := in_s s; out_r := out_r s; out_s := out_s s; bad := x |}.

(** A stream that was just created and entered into streams_ (trpc_client_stream_handler.cc:36-48) *)
Definition sched_new : sched :=
  {| rq := []; sq := []; term := false; done := false; running := false; sm := false; hm := false; closed := false; inmap := true;
     removes := 0; runs := []; in_r := []; in_s := []; out_r := []; out_s := []; bad := false |}.

(** 39-48 and 68-77: StartFiberDetached is taken to succeed *)
Definition start (s : sched) : sched :=
  if running s then s else set_runs (runs s ++ [RTop]) (set_running true s).

(** 25-49 *)
Definition push_recv (m : nat) (s : sched) : sched :=
  if term s then s
  else start (set_in_r (in_r s ++ [m]) (set_rq (rq s ++ [m]) s)).

(** 51-80; true is kSuccess *)
Definition push_send (front : bool) (m : nat) (s : sched) : bool * sched :=
  if term s then (false, s)
  else
    let q := if front then (front, m) :: sq s else sq s ++ [(front, m)] in
    (true, start (set_in_s (in_s s ++ [(front, m)]) (set_sq q s))).

(** 87-95: up to the call of RemoveStream if the stream is idle *)
Definition stop (s : sched) : sched :=
  let s := set_term true s in
  if running s then s else set_sm true (set_done true s).

(** TrpcStreamHandler::RemoveStream, trpc_stream_handler.cc:20-43 *)
Definition remove (s : sched) : sched :=
  let s := set_removes (S (removes s)) s in
  if closed s then s else set_inmap false s.

(** 96-98 *)
Definition stop_end (s : sched) : sched := set_sm false (remove s).

(** TrpcStreamHandler::Stop, trpc_stream_handler.cc:73-88: up to PushRecvMessage if the stream is in streams_ *)
Definition close (s : sched) : sched :=
  let s := set_closed true s in
  if inmap s then set_hm true s else s.

(** trpc_stream_handler.cc:85, 100 *)
Definition close_push (m : nat) (s : sched) : sched := set_hm false (push_recv m s).

(** 110-126 *)
Definition top (s : sched) : list rpc * sched :=
  match rq s, sq s with
  | [], [] => if term s then ([RBreak], s) else ([], set_running false s)
  | rl, sl => ([RRecv rl sl], set_rq [] (set_sq [] s))
  end.

(** 131-135, 148-152: a call of a handler *)
Definition handle_recv (m : nat) (ok : bool) (s : sched) : sched := set_bad (bad s || negb ok) (set_out_r (out_r s ++ [m]) s).
Definition handle_send (m : bool * nat) (ok : bool) (s : sched) : sched := set_bad (bad s || negb ok) (set_out_s (out_s s ++ [m]) s).

(** A step of a fiber in Run, 107-165: what it becomes. *)
Inductive rstep : rpc -> sched -> list rpc -> sched -> Prop :=
| R_top s : sm s = false -> rstep RTop s (fst (top s)) (snd (top s))
| R_recv m rl sl (ok : bool) s : rstep (RRecv (m :: rl) sl) s [if ok then RRecv rl sl else RErr] (handle_recv m ok s)
| R_recvd sl s : rstep (RRecv [] sl) s [RSend sl] s
| R_send m sl (ok : bool) s : rstep (RSend (m :: sl)) s [if ok then RSend sl else RErr] (handle_send m ok s)
| R_sent s : rstep (RSend []) s [RTop] s
| R_err s : sm s = false -> rstep RErr s [RBreak] (stop s)
| R_break s : hm s = false -> rstep RBreak s [RFin] (remove s)
| R_fin s : sm s = false -> rstep RFin s [] (set_done true s).

Inductive run_step (s : sched) : sched -> Prop :=
| S_run a p b ps s' : runs s = a ++ p :: b -> rstep p s ps s' -> run_step s (set_runs (a ++ ps ++ b) s').

(** What goes on by itself *)
Inductive own_step (s : sched) : sched -> Prop :=
| O_run s' : run_step s s' -> own_step s s'
| O_stop : sm s = true -> hm s = false -> own_step s (stop_end s)
| O_close m : hm s = true -> sm s = false -> own_step s (close_push m s).

Inductive step (s : sched) : sched -> Prop :=
| S_own s' : own_step s s' -> step s s'
| S_recv m : sm s = false -> step s (push_recv m s)
| S_send front m : sm s = false -> step s (snd (push_send front m s))
| S_stop : sm s = false -> step s (stop s)
| S_close : hm s = false -> step s (close s).

Inductive reach : sched -> Prop :=
| reach_new : reach sched_new
| reach_step s s' : reach s -> step s s' -> reach s'.
