(** Model of the reading side of CommonStream, trpc/stream/common_stream.cc: the queue of received
    messages, Read (fiber mode) and AsyncRead (non-fiber mode).

    A message is any value; a Status is a number, 0 for OK.  Not modelled: the timeouts. *)
From Verif.Lib Require Import Base.
Local Open Scope Z_scope.

Section Reader.
Context {A : Type}.

(** ReaderWriterOptions::SimpleState, common_stream.h:152. *)
Inductive simple := NotReady | Ready | Finished | Error.
Record rd := { r_msgs : list (option A); r_state : simple; r_status : Z }.
Definition rd_init : rd := {| r_msgs := []; r_state := NotReady; r_status := 0 |}.

(** OnReady, common_stream.cc:335-353. *)
Definition on_ready (s : rd) : rd :=
  match r_state s with Ready => s | _ => {| r_msgs := r_msgs s; r_state := Ready; r_status := r_status s |} end.
(** OnData, 355-366. *)
Definition on_data (m : A) (s : rd) : rd :=
  {| r_msgs := r_msgs s ++ [Some m]; r_state := r_state s; r_status := r_status s |}.
(** OnFinish, 368-389. *)
Definition on_finish (c : Z) (s : rd) : rd :=
  match r_state s with
  | Finished => s
  | _ => {| r_msgs := r_msgs s ++ [None]; r_state := Finished; r_status := c |}
  end.
(** OnError, 391-416 (with TRPC_CHECK that the status is not OK). *)
Definition on_error (c : Z) (s : rd) : rd :=
  match r_state s with
  | Error => s
  | _ => {| r_msgs := r_msgs s; r_state := Error; r_status := c |}
  end.

(** What Read returns: it waits; the end of the stream; a status with or without a message. *)
Inductive rresult := RWait | REof | RStatus (c : Z) (m : option A).
(** CommonStream::Read, 142-173. *)
Definition read (s : rd) : rresult * rd :=
  match r_msgs s with
  | [] => match r_state s with Error => (RStatus (r_status s) None, s) | _ => (RWait, s) end
  | None :: _ => match r_state s with Error => (RStatus (r_status s) None, s) | _ => (REof, s) end
  | Some m :: r => (RStatus (r_status s) (Some m), {| r_msgs := r; r_state := r_state s; r_status := r_status s |})
  end.

(** AsyncRead: [p_pending] is the promise that is waiting, [p_done] what the promises got. *)
Inductive aresult := AMsg (m : A) | AEof | AFail (c : Z).
Record ard := { p_rd : rd; p_pending : option Z; p_next : Z; p_done : list (Z * aresult) }.
Definition ard_init : ard := {| p_rd := rd_init; p_pending := None; p_next := 0; p_done := [] |}.

(** NotifyPending, 418-452. *)
Definition notify_pending (s : ard) : ard :=
  match p_pending s with
  | None => s
  | Some p =>
      let resolve r d := {| p_rd := d; p_pending := None; p_next := p_next s; p_done := p_done s ++ [(p, r)] |} in
      match r_msgs (p_rd s) with
      | Some m :: r => resolve (AMsg m) {| r_msgs := r; r_state := r_state (p_rd s); r_status := r_status (p_rd s) |}
      | None :: _ =>
          match r_state (p_rd s) with Error => resolve (AFail (r_status (p_rd s))) (p_rd s) | _ => resolve AEof (p_rd s) end
      | [] => match r_state (p_rd s) with Error => resolve (AFail (r_status (p_rd s))) (p_rd s) | _ => s end
      end
  end.
Definition with_rd (d : rd) (s : ard) : ard := {| p_rd := d; p_pending := p_pending s; p_next := p_next s; p_done := p_done s |}.
(** AsyncRead, 175-192: a new promise replaces the pending one. *)
Definition async_read (s : ard) : ard :=
  notify_pending {| p_rd := p_rd s; p_pending := Some (p_next s); p_next := p_next s + 1; p_done := p_done s |}.
Definition a_data (m : A) (s : ard) : ard := notify_pending (with_rd (on_data m (p_rd s)) s).
Definition a_ready (s : ard) : ard := with_rd (on_ready (p_rd s)) s.
(** The early returns of OnFinish (378-381) and OnError (400-403) do not notify. *)
Definition a_finish (c : Z) (s : ard) : ard :=
  match r_state (p_rd s) with Finished => s | _ => notify_pending (with_rd (on_finish c (p_rd s)) s) end.
Definition a_error (c : Z) (s : ard) : ard :=
  match r_state (p_rd s) with Error => s | _ => notify_pending (with_rd (on_error c (p_rd s)) s) end.

(** Calls on a stream, and what its reads return. *)
Inductive call := CReady | CData (m : A) | CFinish (c : Z) | CError (c : Z) | CRead.
Definition do_call (c : call) (s : rd) : rd * list rresult :=
  match c with
  | CReady => (on_ready s, [])
  | CData m => (on_data m s, [])
  | CFinish x => (on_finish x s, [])
  | CError x => (on_error x s, [])
  | CRead => let (r, s1) := read s in (s1, [r])
  end.
Fixpoint do_calls (l : list call) (s : rd) : rd * list rresult :=
  match l with
  | [] => (s, [])
  | c :: l1 => let (s1, r) := do_call c s in let (s2, r2) := do_calls l1 s1 in (s2, r ++ r2)
  end.
Definition do_acall (c : call) (s : ard) : ard :=
  match c with
  | CReady => a_ready s
  | CData m => a_data m s
  | CFinish x => a_finish x s
  | CError x => a_error x s
  | CRead => async_read s
  end.
Definition do_acalls (l : list call) (s : ard) : ard := fold_left (fun s c => do_acall c s) l s.
End Reader.
Arguments rd : clear implicits.
Arguments ard : clear implicits.
Arguments call : clear implicits.
Arguments rresult : clear implicits.
Arguments aresult : clear implicits.
