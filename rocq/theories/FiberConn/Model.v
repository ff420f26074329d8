(** The event machine of a connection that is driven by a fiber reactor: which
    fibers run its callbacks, when its events are enabled, how the handshake,
    the senders and the reactor pass the right to write to each other, and when
    the connection is cleaned up.
    Source: trpc/runtime/iomodel/reactor/fiber/fiber_connection.h lines 95-148,
    fiber_connection.cc lines 24-401, fiber_tcp_connection.cc lines 40-433,
    fiber_reactor.cc lines 40-112 and trpc/runtime/iomodel/reactor/event_handler.cc
    lines 18-60.

    Every atomic access is one step of one thread; the threads interleave in
    any order.  Simplified:
    - memory is sequentially consistent;
    - the queue of messages is a number: what happens inside it is the model
      WriteList.  Its two rules are kept: a flush of an empty queue aborts
      (writing_buffer_list.cc, TRPC_ASSERT(current)), and so does, here, a flush
      that begins while another one is going on;
    - a critical section of handshaking_state_.lock is one step; the handler's
      Handshake() may answer anything at any call;
    - the loads of QueueCleanupCallbackCheck() and the setting of
      conn_unavailable_ are one step, which waits for mutex_; SetEnabled(false)
      and cleanup_pending_ = true are one step (they are adjacent in one task),
      so cleanup_pending_ is "not enabled" here;
    - Kill() is one step up to its compare-and-swap; the task is submitted in a
      step of its own, by nobody in particular;
    - the clean-up callback may run at any time after it was queued: it is a
      task or a fiber depending on the configuration;
    - the model begins after AttachReactor() (fiber_connection.cc line 63);
      DisableRead() and reference counts are left out. *)
From Coq Require Import List Bool Arith.
Import ListNotations.

(** What Handshake() may answer (io_handler.h, enum HandshakeStatus). *)
Inductive hs := HSucc | HFail | HRead | HWrite.

(** How a flush may end (fiber_tcp_connection.cc lines 306-351): everything
    written; some messages left because the socket or the quota is full; or an
    error with some messages left. *)
Inductive fl := FAll | FSat (left : nat) | FErr (left : nat).

(** Tasks of the reactor: fiber_connection.cc lines 103, 142, 218, 260, 280,
    293 and 318. *)
Inductive task := KResetR | KResetW | KSuppR | KSuppW | KRestR | KRestW | KKill.

(** Where a fiber of HandleReadEvent() is (fiber_connection.cc lines 84-121 and
    OnReadable(), fiber_tcp_connection.cc lines 172-225): about to call
    OnReadable(), about to call DoHandshake(), reading, about to restart
    writes, about to suppress reads, about to leave, about to decrement the
    counter, about to make the last check. *)
Inductive rst := RTop | RHs | RRead | RNeedW | RSupp | RLeave | RDec | REnd.

(** Where a fiber of HandleWriteEvent() is (fiber_connection.cc lines 133-153
    and OnWritable(), fiber_tcp_connection.cc lines 269-304). *)
Inductive wst := WTop | WHs | WFlush | WNeedR | WSupp | WLeave | WDec | WEnd.

(** Where the fiber of HandleCloseEvent() is (fiber_connection.cc lines 176-181). *)
Inductive est := EErr | EDec | EEnd.

(** Where a call of Send() is (fiber_tcp_connection.cc lines 101-159): before
    the test of Enabled(), before Append(), before the test of done, before
    handshaking_state_.lock, before mutex_, flushing with mutex_ held, about to
    restart writes, returned. *)
Inductive sst := SNew | SApp | SDone | SLock | SMutex | SFlush | SRest | SOk | SErr | STime.

(** Where StartHandshaking() is (fiber_tcp_connection.cc lines 90-99): before
    DoHandshake(), about to restart reads or writes, returned after a failure,
    returned. *)
Inductive start := St0 | StR | StW | StFail | StEnd.

(** restart counts, enabled events, event counters, error_seen, Enabled(), that
    cleanup_reason is set, that Kill()'s task is not submitted yet,
    cleanup_queued (and conn_unavailable_), runs of OnCleanup(), the reactor's
    tasks, the fibers and calls, the handshake state, the length of the queue
    and whether an assertion failed. *)
Record cn := {
  rcnt : nat;
  wcnt : nat;
  rset : bool;
  wset : bool;
  revs : nat;
  wevs : nat;
  eevs : nat;
  eseen : bool;
  en : bool;
  killed : bool;
  ksub : bool;
  queued : bool;
  cleaned : nat;
  tasks : list task;
  rfs : list rst;
  wfs : list wst;
  efs : list est;
  snds : list sst;
  str : start;
  done : bool;
  needr : bool;
  pendw : bool;
  qn : nat;
  crash : bool }.

Definition set_rcnt (x : nat) (s : cn) : cn :=
  {| rcnt := x; wcnt := wcnt s; rset := rset s; wset := wset s; revs := revs s; wevs := wevs s; eevs := eevs s; eseen := eseen s; en := en s;
     killed := killed s; ksub := ksub s; queued := queued s; cleaned := cleaned s; tasks := tasks s; rfs := rfs s; wfs := wfs s; efs := efs s;
     snds := snds s; str := str s; done := done s; needr := needr s; pendw := pendw s; qn := qn s; crash := crash s |}.
Definition set_wcnt (x : nat) (s : cn) : cn :=
  {| rcnt := rcnt s; wcnt := x; rset := rset s; wset := wset s; revs := revs s; wevs := wevs s; eevs := eevs s; eseen := eseen s; en := en s;
     killed := killed s; ksub := ksub s; queued := queued s; cleaned := cleaned s; tasks := tasks s; rfs := rfs s; wfs := wfs s; efs := efs s;
     snds := snds s; str := str s; done := done s; needr := needr s; pendw := pendw s; qn := qn s; crash := crash s |}.
Definition set_rset (x : bool) (s : cn) : cn :=
  {| rcnt := rcnt s; wcnt := wcnt s; rset := x; wset := wset s; revs := revs s; wevs := wevs s; eevs := eevs s; eseen := eseen s; en := en s;
     killed := killed s; ksub := ksub s; queued := queued s; cleaned := cleaned s; tasks := tasks s; rfs := rfs s; wfs := wfs s; efs := efs s;
     snds := snds s; str := str s; done := done s; needr := needr s; pendw := pendw s; qn := qn s; crash := crash s |}.
Definition set_wset (x : bool) (s : cn) : cn :=
  {| rcnt := rcnt s; wcnt := wcnt s; rset := rset s; wset := x; revs := revs s; wevs := wevs s; eevs := eevs s; eseen := eseen s; en := en s;
     killed := killed s; ksub := ksub s; queued := queued s; cleaned := cleaned s; tasks := tasks s; rfs := rfs s; wfs := wfs s; efs := efs s;
     snds := snds s; str := str s; done := done s; needr := needr s; pendw := pendw s; qn := qn s; crash := crash s |}.
Definition set_revs (x : nat) (s : cn) : cn :=
  {| rcnt := rcnt s; wcnt := wcnt s; rset := rset s; wset := wset s; revs := x; wevs := wevs s; eevs := eevs s; eseen := eseen s; en := en s;
     killed := killed s; ksub := ksub s; queued := queued s; cleaned := cleaned s; tasks := tasks s; rfs := rfs s; wfs := wfs s; efs := efs s;
     snds := snds s; str := str s; done := done s; needr := needr s; pendw := pendw s; qn := qn s; crash := crash s |}.
Definition set_wevs (x : nat) (s : cn) : cn :=
  {| rcnt := rcnt s; wcnt := wcnt s; rset := rset s; wset := wset s; revs := revs s; wevs := x; eevs := eevs s; eseen := eseen s; en := en s;
     killed := killed s; ksub := ksub s; queued := queued s; cleaned := cleaned s; tasks := tasks s; rfs := rfs s; wfs := wfs s; efs := efs s;
     snds := snds s; str := str s; done := done s; needr := needr s; pendw := pendw s; qn := qn s; crash := crash s |}.
Definition set_eevs (x : nat) (s : cn) : cn :=
  {| rcnt := rcnt s; wcnt := wcnt s; rset := rset s; wset := wset s; revs := revs s; wevs := wevs s; eevs := x; eseen := eseen s; en := en s;
     killed := killed s; ksub := ksub s; queued := queued s; cleaned := cleaned s; tasks := tasks s; rfs := rfs s; wfs := wfs s; efs := efs s;
     snds := snds s; str := str s; done := done s; needr := needr s; pendw := pendw s; qn := qn s; crash := crash s |}.
Definition set_eseen (x : bool) (s : cn) : cn :=
  {| rcnt := rcnt s; wcnt := wcnt s; rset := rset s; wset := wset s; revs := revs s; wevs := wevs s; eevs := eevs s; eseen := x; en := en s;
     killed := killed s; ksub := ksub s; queued := queued s; cleaned := cleaned s; tasks := tasks s; rfs := rfs s; wfs := wfs s; efs := efs s;
     snds := snds s; str := str s; done := done s; needr := needr s; pendw := pendw s; qn := qn s; crash := crash s |}.
Definition set_en (x : bool) (s : cn) : cn :=
  {| rcnt := rcnt s; wcnt := wcnt s; rset := rset s; wset := wset s; revs := revs s; wevs := wevs s; eevs := eevs s; eseen := eseen s; en := x;
     killed := killed s; ksub := ksub s; queued := queued s; cleaned := cleaned s; tasks := tasks s; rfs := rfs s; wfs := wfs s; efs := efs s;
     snds := snds s; str := str s; done := done s; needr := needr s; pendw := pendw s; qn := qn s; crash := crash s |}.
Definition set_killed (x : bool) (s : cn) : cn :=
  {| rcnt := rcnt s; wcnt := wcnt s; rset := rset s; wset := wset s; revs := revs s; wevs := wevs s; eevs := eevs s; eseen := eseen s; en := en s;
     killed := x; ksub := ksub s; queued := queued s; cleaned := cleaned s; tasks := tasks s; rfs := rfs s; wfs := wfs s; efs := efs s; snds :=
     snds s; str := str s; done := done s; needr := needr s; pendw := pendw s; qn := qn s; crash := crash s |}.
Definition set_ksub (x : bool) (s : cn) : cn :=
  {| rcnt := rcnt s; wcnt := wcnt s; rset := rset s; wset := wset s; revs := revs s; wevs := wevs s; eevs := eevs s; eseen := eseen s; en := en s;
     killed := killed s; ksub := x; queued := queued s; cleaned := cleaned s; tasks := tasks s; rfs := rfs s; wfs := wfs s; efs := efs s; snds :=
     snds s; str := str s; done := done s; needr := needr s; pendw := pendw s; qn := qn s; crash := crash s |}.
Definition set_queued (x : bool) (s : cn) : cn :=
  {| rcnt := rcnt s; wcnt := wcnt s; rset := rset s; wset := wset s; revs := revs s; wevs := wevs s; eevs := eevs s; eseen := eseen s; en := en s;
     killed := killed s; ksub := ksub s; queued := x; cleaned := cleaned s; tasks := tasks s; rfs := rfs s; wfs := wfs s; efs := efs s; snds :=
     snds s; str := str s; done := done s; needr := needr s; pendw := pendw s; qn := qn s; crash := crash s |}.
Definition set_cleaned (x : nat) (s : cn) : cn :=
  {| rcnt := rcnt s; wcnt := wcnt s; rset := rset s; wset := wset s; revs := revs s; wevs := wevs s; eevs := eevs s; eseen := eseen s; en := en s;
     killed := killed s; ksub := ksub s; queued := queued s; cleaned := x; tasks := tasks s; rfs := rfs s; wfs := wfs s; efs := efs s; snds :=
     snds s; str := str s; done := done s; needr := needr s; pendw := pendw s; qn := qn s; crash := crash s |}.
Definition set_tasks (x : list task) (s : cn) : cn :=
  {| rcnt := rcnt s; wcnt := wcnt s; rset := rset s; wset := wset s; revs := revs s; wevs := wevs s; eevs := eevs s; eseen := eseen s; en := en s;
     killed := killed s; ksub := ksub s; queued := queued s; cleaned := cleaned s; tasks := x; rfs := rfs s; wfs := wfs s; efs := efs s; snds :=
     snds s; str := str s; done := done s; needr := needr s; pendw := pendw s; qn := qn s; crash := crash s |}.
Definition set_rfs (x : list rst) (s : cn) : cn :=
  {| rcnt := rcnt s; wcnt := wcnt s; rset := rset s; wset := wset s; revs := revs s; wevs := wevs s; eevs := eevs s; eseen := eseen s; en := en s;
     killed := killed s; ksub := ksub s; queued := queued s; cleaned := cleaned s; tasks := tasks s; rfs := x; wfs := wfs s; efs := efs s; snds :=
     snds s; str := str s; done := done s; needr := needr s; pendw := pendw s; qn := qn s; crash := crash s |}.
Definition set_wfs (x : list wst) (s : cn) : cn :=
  {| rcnt := rcnt s; wcnt := wcnt s; rset := rset s; wset := wset s; revs := revs s; wevs := wevs s; eevs := eevs s; eseen := eseen s; en := en s;
     killed := killed s; ksub := ksub s; queued := queued s; cleaned := cleaned s; tasks := tasks s; rfs := rfs s; wfs := x; efs := efs s; snds :=
     snds s; str := str s; done := done s; needr := needr s; pendw := pendw s; qn := qn s; crash := crash s |}.
Definition set_efs (x : list est) (s : cn) : cn :=
  {| rcnt := rcnt s; wcnt := wcnt s; rset := rset s; wset := wset s; revs := revs s; wevs := wevs s; eevs := eevs s; eseen := eseen s; en := en s;
     killed := killed s; ksub := ksub s; queued := queued s; cleaned := cleaned s; tasks := tasks s; rfs := rfs s; wfs := wfs s; efs := x; snds :=
     snds s; str := str s; done := done s; needr := needr s; pendw := pendw s; qn := qn s; crash := crash s |}.
Definition set_snds (x : list sst) (s : cn) : cn :=
  {| rcnt := rcnt s; wcnt := wcnt s; rset := rset s; wset := wset s; revs := revs s; wevs := wevs s; eevs := eevs s; eseen := eseen s; en := en s;
     killed := killed s; ksub := ksub s; queued := queued s; cleaned := cleaned s; tasks := tasks s; rfs := rfs s; wfs := wfs s; efs := efs s;
     snds := x; str := str s; done := done s; needr := needr s; pendw := pendw s; qn := qn s; crash := crash s |}.
Definition set_str (x : start) (s : cn) : cn :=
  {| rcnt := rcnt s; wcnt := wcnt s; rset := rset s; wset := wset s; revs := revs s; wevs := wevs s; eevs := eevs s; eseen := eseen s; en := en s;
     killed := killed s; ksub := ksub s; queued := queued s; cleaned := cleaned s; tasks := tasks s; rfs := rfs s; wfs := wfs s; efs := efs s;
     snds := snds s; str := x; done := done s; needr := needr s; pendw := pendw s; qn := qn s; crash := crash s |}.
Definition set_done (x : bool) (s : cn) : cn :=
  {| rcnt := rcnt s; wcnt := wcnt s; rset := rset s; wset := wset s; revs := revs s; wevs := wevs s; eevs := eevs s; eseen := eseen s; en := en s;
     killed := killed s; ksub := ksub s; queued := queued s; cleaned := cleaned s; tasks := tasks s; rfs := rfs s; wfs := wfs s; efs := efs s;
     snds := snds s; str := str s; done := x; needr := needr s; pendw := pendw s; qn := qn s; crash := crash s |}.
Definition set_needr (x : bool) (s : cn) : cn :=
  {| rcnt := rcnt s; wcnt := wcnt s; rset := rset s; wset := wset s; revs := revs s; wevs := wevs s; eevs := eevs s; eseen := eseen s; en := en s;
     killed := killed s; ksub := ksub s; queued := queued s; cleaned := cleaned s; tasks := tasks s; rfs := rfs s; wfs := wfs s; efs := efs s;
     snds := snds s; str := str s; done := done s; needr := x; pendw := pendw s; qn := qn s; crash := crash s |}.
Definition set_pendw (x : bool) (s : cn) : cn :=
  {| rcnt := rcnt s; wcnt := wcnt s; rset := rset s; wset := wset s; revs := revs s; wevs := wevs s; eevs := eevs s; eseen := eseen s; en := en s;
     killed := killed s; ksub := ksub s; queued := queued s; cleaned := cleaned s; tasks := tasks s; rfs := rfs s; wfs := wfs s; efs := efs s;
     snds := snds s; str := str s; done := done s; needr := needr s; pendw := x; qn := qn s; crash := crash s |}.
Definition set_qn (x : nat) (s : cn) : cn :=
  {| rcnt := rcnt s; wcnt := wcnt s; rset := rset s; wset := wset s; revs := revs s; wevs := wevs s; eevs := eevs s; eseen := eseen s; en := en s;
     killed := killed s; ksub := ksub s; queued := queued s; cleaned := cleaned s; tasks := tasks s; rfs := rfs s; wfs := wfs s; efs := efs s;
     snds := snds s; str := str s; done := done s; needr := needr s; pendw := pendw s; qn := x; crash := crash s |}.
Definition set_crash (x : bool) (s : cn) : cn :=
  {| rcnt := rcnt s; wcnt := wcnt s; rset := rset s; wset := wset s; revs := revs s; wevs := wevs s; eevs := eevs s; eseen := eseen s; en := en s;
     killed := killed s; ksub := ksub s; queued := queued s; cleaned := cleaned s; tasks := tasks s; rfs := rfs s; wfs := wfs s; efs := efs s;
     snds := snds s; str := str s; done := done s; needr := needr s; pendw := pendw s; qn := qn s; crash := x |}.

(** SubmitTask: fiber_reactor.cc lines 77-86. *)
Definition sub (t : task) (s : cn) : cn := set_tasks (tasks s ++ [t]) s.

Definition abort (s : cn) : cn := set_crash true s.

(** TRPC_ASSERT. *)
Definition assert (b : bool) (s : cn) : cn := if b then s else abort s.

(** Kill: fiber_connection.cc lines 312-317. *)
Definition kill (s : cn) : cn := if killed s then s else set_ksub true (set_killed true s).

(** Whether QueueCleanupCallbackCheck() would queue the clean-up:
    fiber_connection.cc lines 348-355. *)
Definition idle (s : cn) : bool :=
  negb (en s) && (revs s =? 0) && (wevs s =? 0) && (eevs s =? 0) && negb (queued s).

Definition is_sflush (x : sst) : bool := match x with SFlush => true | _ => false end.
Definition is_wflush (x : wst) : bool := match x with WFlush => true | _ => false end.

(** mutex_ is held: fiber_tcp_connection.cc lines 121-127. *)
Definition locked (s : cn) : bool := existsb is_sflush (snds s).

(** QueueCleanupCallbackCheck: fiber_connection.cc lines 334-361; it waits for
    mutex_ when it has something to do. *)
Definition check (s : cn) : option cn :=
  if idle s then if locked s then None else Some (set_queued true s) else Some s.

(** HandleReadEvent and HandleWriteEvent: fiber_connection.cc lines 82-84, 131-133. *)
Definition handle_read (s : cn) : cn :=
  set_revs (S (revs s)) (if revs s =? 0 then set_rfs (rfs s ++ [RTop]) s else s).
Definition handle_write (s : cn) : cn :=
  set_wevs (S (wevs s)) (if wevs s =? 0 then set_wfs (wfs s ++ [WTop]) s else s).

(** HandleCloseEvent: fiber_connection.cc lines 163-189. *)
Definition handle_close (s : cn) : cn :=
  if negb (en s) then s
  else if eseen s then s
  else set_eevs (S (eevs s))
         (set_eseen true (if eevs s =? 0 then set_efs (efs s ++ [EErr]) s else abort s)).

(** The tasks: fiber_connection.cc lines 103-106 and 142-145 (resetting a
    counter), 218-256 and 260-276 (suppressing), 280-289 and 293-304
    (restarting), 318-330 (Kill). *)
Definition run_task (t : task) (s : cn) : option cn :=
  match t with
  | KResetR => check (set_revs 0 s)
  | KResetW => check (set_wevs 0 s)
  | KSuppR =>
      match check (set_revs 0 s) with
      | None => None
      | Some s1 =>
          Some (if en s1 then
                  match rcnt s1 with
                  | 0 => abort s1
                  | S r =>
                      let s2 := assert (rset s1) (set_rcnt r s1) in
                      match r with 0 => set_rset false s2 | S _ => handle_read s2 end
                  end
                else s1)
      end
  | KSuppW =>
      match check (set_wevs 0 s) with
      | None => None
      | Some s1 =>
          Some (if en s1 then
                  match wcnt s1 with
                  | 0 => abort s1
                  | S w =>
                      let s2 := assert (wset s1 && (w <=? 1)) (set_wcnt w s1) in
                      match w with 0 => set_wset false s2 | S _ => handle_write s2 end
                  end
                else s1)
      end
  | KRestR =>
      Some (if en s then
              let s1 := set_rcnt (S (rcnt s)) s in
              if rcnt s =? 0 then set_rset true (assert (negb (rset s)) s1) else s1
            else s)
  | KRestW =>
      Some (if en s then
              let s1 := assert (wcnt s <=? 1) (set_wcnt (S (wcnt s)) s) in
              if wcnt s =? 0 then set_wset true (assert (negb (wset s)) s1) else s1
            else s)
  | KKill => check (set_en false (set_rset false (set_wset false (assert (en s) s))))
  end.

(** DoHandshake with the handler's answer h: fiber_tcp_connection.cc lines
    389-433.  The second component is what it returns. *)
Definition handshake (from_read : bool) (h : hs) (s : cn) : cn * hs :=
  if done s then (s, HSucc)
  else match h with
       | HFail => (s, HFail)
       | HSucc =>
           let s1 := if needr s then sub KRestR (assert (negb from_read) s) else s in
           let s2 := if pendw s && from_read then sub KRestW s1 else s1 in
           (set_done true s2, HSucc)
       | HWrite => (set_needr true s, HWrite)
       | HRead => (set_needr false s, HRead)
       end.

(** Begin of FlushWritingBuffer: WriteList's two rules. *)
Definition enter (s : cn) : cn :=
  assert (negb (qn s =? 0) && negb (locked s) && negb (existsb is_wflush (wfs s))) s.

(** End of FlushWritingBuffer: the queue afterwards. *)
Definition leaves (r : fl) (n : nat) : option nat :=
  match r with
  | FAll => Some 0
  | FSat k | FErr k => if (1 <=? k) && (k <=? n) then Some k else None
  end.

(** A step of a fiber of HandleReadEvent().  h is what the handler answers if it
    is asked, bad whether reading or handling the data fails. *)
Definition rstep (h : hs) (bad : bool) (x : rst) (s : cn) : option (list rst * cn) :=
  match x with
  | RTop => Some (if negb (en s) then ([RLeave], s)
                  else if done s then ([RRead], s) else ([RHs], s))
  | RHs =>
      let (s1, r) := handshake true h s in
      Some (match r with
            | HFail => ([RLeave], kill s1)
            | HRead => ([RDec], s1)
            | HWrite => ([RNeedW], s1)
            | HSucc => ([RRead], s1)
            end)
  | RRead => Some (if bad then ([RLeave], kill s) else ([RDec], s))
  | RNeedW => Some ([RSupp], sub KRestW s)
  | RSupp => Some ([REnd], sub KSuppR s)
  | RLeave => Some ([REnd], sub KResetR (assert (killed s) s))
  | RDec => Some ((if revs s =? 1 then [REnd] else [RTop]), set_revs (pred (revs s)) s)
  | REnd => match check s with Some s1 => Some ([], s1) | None => None end
  end.

(** A step of a fiber of HandleWriteEvent(). *)
Definition wstep (h : hs) (f : fl) (x : wst) (s : cn) : option (list wst * cn) :=
  match x with
  | WTop => Some (if negb (en s) then ([WLeave], s)
                  else if done s then ([WFlush], enter s) else ([WHs], s))
  | WHs =>
      let (s1, r) := handshake false h s in
      Some (match r with
            | HFail => ([WLeave], kill s1)
            | HWrite => ([WDec], s1)
            | HRead => ([WNeedR], s1)
            | HSucc => ([WFlush], enter s1)
            end)
  | WFlush =>
      match leaves f (qn s) with
      | None => None
      | Some n =>
          let s1 := set_qn n s in
          Some (match f with
                | FAll => ([WSupp], s1)
                | FSat _ => ([WDec], s1)
                | FErr _ => ([WLeave], kill s1)
                end)
      end
  | WNeedR => Some ([WSupp], sub KRestR s)
  | WSupp => Some ([WEnd], sub KSuppW s)
  | WLeave => Some ([WEnd], sub KResetW (assert (killed s) s))
  | WDec => Some ((if wevs s =? 1 then [WEnd] else [WTop]), set_wevs (pred (wevs s)) s)
  | WEnd => match check s with Some s1 => Some ([], s1) | None => None end
  end.

(** A step of the fiber of HandleCloseEvent(); OnError() is Kill()
    (fiber_tcp_connection.cc lines 353-358). *)
Definition estep (x : est) (s : cn) : option (list est * cn) :=
  match x with
  | EErr => Some ([EDec], kill s)
  | EDec => Some ([EEnd], set_eevs (pred (eevs s)) (assert (eevs s =? 1) s))
  | EEnd => match check s with Some s1 => Some ([], s1) | None => None end
  end.

(** A step of a call of Send(): fiber_tcp_connection.cc lines 101-159.  late:
    Append() gives up waiting for room. *)
Definition sstep (f : fl) (late : bool) (x : sst) (s : cn) : option (sst * cn) :=
  match x with
  | SNew => Some (if en s then SApp else SErr, s)
  | SApp => Some (if late then (STime, s)
                  else (if qn s =? 0 then SDone else SOk, set_qn (S (qn s)) s))
  | SDone => Some (if done s then SMutex else SLock, s)
  | SLock => Some (if done s then (SMutex, s)
                   else (SOk, set_pendw true (assert (negb (pendw s)) s)))
  | SMutex => if locked s then None
              else Some (if queued s then (SErr, s) else (SFlush, enter s))
  | SFlush =>
      match leaves f (qn s) with
      | None => None
      | Some n =>
          let s1 := set_qn n s in
          Some (match f with
                | FAll => (SOk, s1)
                | FSat _ => (SRest, s1)
                | FErr _ => (SErr, kill s1)
                end)
      end
  | SRest => Some (SOk, sub KRestW s)
  | SOk | SErr | STime => None
  end.

(** A step of StartHandshaking(): fiber_tcp_connection.cc lines 90-99. *)
Definition ststep (h : hs) (s : cn) : option cn :=
  match str s with
  | St0 =>
      let (s1, r) := handshake false h s in
      Some (match r with
            | HFail => set_str StFail (kill s1)
            | HRead => set_str StR s1
            | HWrite => set_str StW s1
            | HSucc => set_str StEnd s1
            end)
  | StR => Some (set_str StEnd (sub KRestR s))
  | StW => Some (set_str StEnd (sub KRestW s))
  | StFail | StEnd => None
  end.

(** The clean-up callback: fiber_connection.cc lines 363-390. *)
Definition clean (s : cn) : cn :=
  set_cleaned (S (cleaned s))
    (assert ((revs s =? 0) && (wevs s =? 0) && (eevs s =? 0) && negb (en s)) s).

(** What a peer and a program may do.  [late] says whether the handshake may
    succeed inside OnWritable(), [early] whether Send() may be called before
    StartHandshaking() has returned. *)
Record env := { late_ok : bool; early_ok : bool }.

(** The steps.  Events are dispatched only if they are enabled, and never while
    a task runs (fiber_reactor.cc lines 40-112); EPOLLERR cannot be disabled. *)
Inductive step (e : env) (s : cn) : cn -> Prop :=
| T_task t l s' : tasks s = t :: l -> run_task t (set_tasks l s) = Some s' -> step e s s'
| T_rev : rset s = true -> step e s (handle_read s)
| T_wev : wset s = true -> step e s (handle_write s)
| T_cev : step e s (handle_close s)
| T_read h bad l1 x l2 y s' :
    rfs s = l1 ++ x :: l2 -> rstep h bad x s = Some (y, s') ->
    step e s (set_rfs (l1 ++ y ++ l2) s')
| T_write h f l1 x l2 y s' :
    wfs s = l1 ++ x :: l2 -> wstep h f x s = Some (y, s') ->
    (h = HSucc -> x = WHs -> late_ok e = true \/ done s = true) ->
    step e s (set_wfs (l1 ++ y ++ l2) s')
| T_err l1 x l2 y s' :
    efs s = l1 ++ x :: l2 -> estep x s = Some (y, s') ->
    step e s (set_efs (l1 ++ y ++ l2) s')
| T_send f late l1 x l2 y s' :
    snds s = l1 ++ x :: l2 -> sstep f late x s = Some (y, s') ->
    step e s (set_snds (l1 ++ y :: l2) s')
| T_start h s' : ststep h s = Some s' -> step e s s'
| T_ksub : ksub s = true -> step e s (sub KKill (set_ksub false s))
| T_clean : queued s = true -> cleaned s = 0 -> step e s (clean s)
| T_call : early_ok e = true \/ str s = StFail \/ str s = StEnd -> step e s (set_snds (snds s ++ [SNew]) s)
| T_stop : step e s (kill s).

(** The connection after AttachReactor(): fiber_connection.cc lines 63-69,
    fiber_connection.h lines 119-147 and fiber_tcp_connection.h (need_restart_read
    is initially set). *)
Definition start0 : cn :=
  {| rcnt := 0; wcnt := 0; rset := false; wset := false; revs := 0; wevs := 0; eevs := 0; eseen := false;
     en := true; killed := false; ksub := false; queued := false; cleaned := 0; tasks := []; rfs := []; wfs := [];
     efs := []; snds := []; str := St0; done := false; needr := true; pendw := false; qn := 0; crash := false |}.

Inductive reach (e : env) : cn -> Prop :=
| reach_start : reach e start0
| reach_step s s' : reach e s -> step e s s' -> reach e s'.
