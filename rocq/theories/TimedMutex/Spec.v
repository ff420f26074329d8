(** What a mutex is: who owns it after a history, newest event first.
    [None]: the history is not one of a mutex. *)
From Coq Require Import List Bool Arith.
From Verif Require Import TimedMutex.Model.
Import ListNotations.

(** An attempt fails only while somebody else owns the mutex, a free mutex is
    taken, and the owner releases. *)
Fixpoint owner (h : list event) : option (option nat) :=
  match h with
  | [] => Some None
  | e :: r =>
      match owner r, e with
      | Some None, Took i => Some (Some i)
      | Some (Some k), Released i => if i =? k then Some None else None
      | Some (Some k), Failed i => if i =? k then None else Some (Some k)
      | _, _ => None
      end
  end.
