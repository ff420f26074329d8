(** Backup requests: a second request is sent to another node if the first is not
    answered in time, and the first answer counts.
    Source: trpc/transport/client/fiber/fiber_transport.cc lines 80-139
    (SendRecvForBackupRequest), trpc/transport/client/fiber/common/
    fiber_backup_request_retry.cc lines 20-55, and MessageHandleFunction of the five
    connectors.

    Simplified:
    - two fibers handle the two requests and one is the caller; memory is
      sequentially consistent;
    - a request is answered, or fails (at once, by a time-out or with its
      connection), exactly once, as the connectors take its context out of a map
      first.  A failure reported by the caller itself while it sends is a step of
      the fiber of the request;
    - time is not modelled: the wait for the delay ends when it likes, or never if the
      delay is 0 (fiber_backup_request_retry.cc lines 38-42);
    - the mutex and the condition variable of Wait and SetFinished are one step
      each (C40, C52); ret_code and succ_rsp_node_index are written in one step. *)
From Coq Require Import Bool Arith List.
Import ListNotations.

(** TrpcRetCode: 0, TRPC_INVOKE_UNKNOWN_ERR, TRPC_CLIENT_CONNECT_ERR, others. *)
Inductive code := Okay | Unknown | ConnectErr | OtherErr (n : nat).

(** What a connector does with an answer when the other was first. *)
Inductive policy :=
| LateFails      (* fiber_tcp_conn_complex_connector.cc 247-254, fiber_udp_io_complex_connector.cc 160-166,
                    fiber_udp_io_pool_connector.cc 157-164: DispatchException *)
| LateSucceeds.  (* fiber_tcp_conn_pool_connector.cc 257-269, fiber_tcp_pipeline_connector.cc
                    291-303: DispatchResponse *)

(** Where the caller is. *)
Inductive cpc :=
| CIssue0            (* before the first request is sent *)
| CTest0             (* line 125 *)
| CWait0             (* in Wait(delay) *)
| CIssue1            (* before the backup request is sent *)
| CWait1             (* in Wait() *)
| CRet (c : code).   (* returned *)

(** Where the fiber of a request is. *)
Inductive hpc :=
| HNone              (* not sent *)
| HOut               (* sent *)
| HWon               (* IsReplyReady was false: before rsp_msg->msg is stored *)
| HCb (c : code)     (* before the test of IsFinished in the callback, line 98 *)
| HCount (c : code)  (* before IsFailedCountUpToAll, line 107 *)
| HSet (c : code)    (* before ret_code is written, lines 103 and 108 *)
| HFin               (* before SetFinished *)
| HDone.

(** [rep0], [rep1]: the request was answered; [won]: the first to be answered;
    [bad]: the frame of the caller was written after it returned (history). *)
Record st := {
  got : bool; failed : nat; fin : bool; ret : code; idx : option bool; msg : option bool;
  cp : cpc; p0 : hpc; p1 : hpc; rep0 : bool; rep1 : bool; won : option bool; bad : bool }.

(** Lines 81-93; succ_rsp_node_index starts as 0, None is -1. *)
Definition init : st :=
  {| got := false; failed := 0; fin := false; ret := Unknown; idx := Some false; msg := None;
     cp := CIssue0; p0 := HNone; p1 := HNone; rep0 := false; rep1 := false; won := None; bad := false |}.

(** The requests are named false (the first) and true (the backup). *)
Definition pc (s : st) (r : bool) : hpc := if r then p1 s else p0 s.
Definition rep (s : st) (r : bool) : bool := if r then rep1 s else rep0 s.

Definition set_cp (s : st) (c : cpc) : st :=
  {| got := got s; failed := failed s; fin := fin s; ret := ret s; idx := idx s; msg := msg s;
     cp := c; p0 := p0 s; p1 := p1 s; rep0 := rep0 s; rep1 := rep1 s; won := won s; bad := bad s |}.
Definition set_pc (s : st) (r : bool) (p : hpc) : st :=
  {| got := got s; failed := failed s; fin := fin s; ret := ret s; idx := idx s; msg := msg s;
     cp := cp s; p0 := if r then p0 s else p; p1 := if r then p else p1 s;
     rep0 := rep0 s; rep1 := rep1 s; won := won s; bad := bad s |}.
Definition answered (s : st) (r : bool) : st :=
  {| got := true; failed := failed s; fin := fin s; ret := ret s; idx := idx s; msg := msg s;
     cp := cp s; p0 := p0 s; p1 := p1 s;
     rep0 := if r then rep0 s else true; rep1 := if r then true else rep1 s;
     won := if got s then won s else Some r; bad := bad s |}.

Definition returned (s : st) : bool := match cp s with CRet _ => true | _ => false end.

(** The caller: lines 95-138.  [timeout]: the wait for the delay ends though the
    request is not finished. *)
Definition cstep (s : st) (timeout : bool) : option st :=
  match cp s with
  | CIssue0 => Some (set_pc (set_cp s CTest0) false HOut)
  | CTest0 => match ret s with ConnectErr => Some (set_cp s CIssue1) | _ => Some (set_cp s CWait0) end
  | CWait0 =>
      if fin s then match ret s with Okay => Some (set_cp s (CRet Okay)) | _ => Some (set_cp s CIssue1) end
      else if timeout then Some (set_cp s CIssue1) else None
  | CIssue1 => Some (set_pc (set_cp s CWait1) true HOut)
  | CWait1 => if fin s then Some (set_cp s (CRet (ret s))) else None
  | CRet _ => None
  end.

(** The answer to request [r] arrives: MessageHandleFunction, IsReplyReady. *)
Definition reply (p : policy) (s : st) (r : bool) : option st :=
  match pc s r with
  | HOut => Some (set_pc (answered s r) r
                    (if got s then HCb (match p with LateFails => Unknown | LateSucceeds => Okay end) else HWon))
  | _ => None
  end.

(** Request [r] fails: DispatchException. *)
Definition fail (s : st) (r : bool) (c : code) : option st :=
  match pc s r, c with
  | HOut, Okay => None
  | HOut, _ => Some (set_pc s r (HCb c))
  | _, _ => None
  end.

(** The next step of the fiber of [r]: rsp_msg->msg is stored, then the callback,
    fiber_transport.cc lines 97-112. *)
Definition hstep (s : st) (r : bool) : option st :=
  match pc s r with
  | HWon => Some (set_pc {| got := got s; failed := failed s; fin := fin s; ret := ret s; idx := idx s; msg := Some r;
                            cp := cp s; p0 := p0 s; p1 := p1 s; rep0 := rep0 s; rep1 := rep1 s; won := won s;
                            bad := bad s || returned s |} r (HCb Okay))
  | HCb c => Some (set_pc s r (if fin s then HDone else match c with Okay => HSet Okay | _ => HCount c end))
  | HCount c => Some (set_pc {| got := got s; failed := S (failed s); fin := fin s; ret := ret s; idx := idx s;
                                msg := msg s; cp := cp s; p0 := p0 s; p1 := p1 s; rep0 := rep0 s; rep1 := rep1 s;
                                won := won s; bad := bad s |} r (if failed s =? 1 then HSet c else HDone))
  | HSet c => Some (set_pc {| got := got s; failed := failed s; fin := fin s; ret := c;
                              idx := match c with Okay => Some r | _ => None end; msg := msg s;
                              cp := cp s; p0 := p0 s; p1 := p1 s; rep0 := rep0 s; rep1 := rep1 s; won := won s;
                              bad := bad s || returned s |} r HFin)
  | HFin => Some (set_pc {| got := got s; failed := failed s; fin := true; ret := ret s; idx := idx s; msg := msg s;
                            cp := cp s; p0 := p0 s; p1 := p1 s; rep0 := rep0 s; rep1 := rep1 s; won := won s;
                            bad := bad s |} r HDone)
  | _ => None
  end.

Inductive action := AC (timeout : bool) | AReply (r : bool) | AFail (r : bool) (c : code) | AH (r : bool).

Definition exec (p : policy) (s : st) (a : action) : option st :=
  match a with
  | AC t => cstep s t
  | AReply r => reply p s r
  | AFail r c => fail s r c
  | AH r => hstep s r
  end.

Inductive reach (p : policy) : st -> Prop :=
| reach_init : reach p init
| reach_step s a s' : reach p s -> exec p s a = Some s' -> reach p s'.

Fixpoint run (p : policy) (s : st) (l : list action) : option st :=
  match l with [] => Some s | a :: r => match exec p s a with Some s' => run p s' r | None => None end end.
