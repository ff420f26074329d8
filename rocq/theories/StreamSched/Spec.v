(** What the scheduler of a stream is to do. *)
From Coq Require Import List Permutation.
From Verif.Lib Require Import Base.
From Verif.StreamSched Require Import Model.
Import ListNotations.

(** [handled] is a beginning of [given]. *)
Definition beginning {A} (handled given : list A) : Prop := exists rest, given = handled ++ rest.

(** The messages that were pushed to the back *)
Fixpoint backs (l : list (bool * nat)) : list nat :=
  match l with
  | [] => []
  | (true, _) :: l => backs l
  | (false, m) :: l => m :: backs l
  end.

(** [handled] are some of [given], each one at most once; of those that were pushed to the back it is a beginning. *)
Definition fair_order (handled given : list (bool * nat)) : Prop :=
  exists rest, Permutation given (handled ++ rest) /\ backs given = backs (handled ++ rest).

(** Steps of the fiber alone *)
Inductive run_steps : nat -> sched -> sched -> Prop :=
| rs_0 s : run_steps 0 s s
| rs_S n s s' s'' : run_step s s' -> run_steps n s' s'' -> run_steps (S n) s s''.

(** A bound of the number of steps the fiber has to do *)
Definition weight (p : rpc) : nat :=
  match p with
  | RTop => 5 | RRecv rl sl => length rl + length sl + 7 | RSend sl => length sl + 6 | RErr => 3 | RBreak => 2 | RFin => 1
  end.
Definition weights (l : list rpc) : nat := list_sum (map weight l).
Definition measure (s : sched) : nat := 10 * (length (rq s) + length (sq s)) + weights (runs s).
