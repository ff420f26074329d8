(** What a stream is to do for its users. *)
From Coq Require Import List.
From Verif.Lib Require Import Base.
From Verif.StreamProto Require Import Model.
Import ListNotations.

Definition beginning {A} (a b : list A) : Prop := exists rest, b = a ++ rest.

(** The messages a user has written *)
Fixpoint written (l : list smsg) : list nat :=
  match l with [] => [] | MData n :: l => n :: written l | _ :: l => written l end.
(** ... before closing *)
Fixpoint before_close (l : list smsg) : list nat :=
  match l with [] => [] | MData n :: l => n :: before_close l | MClose _ :: _ => [] | _ :: l => before_close l end.

(** Nothing has gone wrong at an end. *)
Definition fine (e : ep) : Prop := e_simple e <> Error /\ e_dead e = false /\ ~ In FReset (e_sent e).

(** The states in which a frame may come in; the first column is the client. *)
Definition expected (server : bool) (f : frame) : list state :=
  match f with
  | FInit _ => if server then [Idle] else [Init]
  | FData _ => if server then [Open; LocalClosed] else [Open; LocalClosed]
  | FClose _ => if server then [Open; Closed] else [Open; LocalClosed; Closed]
  | FReset => [Closed; Idle; Init; Open; LocalClosed; RemoteClosed]
  end.
(** ... and a message go out *)
Definition permitted (server : bool) (m : smsg) : list state :=
  match m with
  | MInit => if server then [Init] else [Idle]
  | MData _ | MClose _ | MReset => if server then [Open; RemoteClosed] else [Open]
  end.

(** The end has given up: it has told the other end, and its user is told. *)
Definition gave_up (e e' : ep) : Prop :=
  e_sent e' = e_sent e ++ [FReset] /\ e_st e' = Closed /\ e_simple e' = Error /\ (e_simple e <> Error -> e_ok e' = false) /\
  e_dead e' = true /\ e_term e' = true /\ e_got e' = e_got e /\ e_eof e' = e_eof e.
