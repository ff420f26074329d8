(** Specification of flow control: bytes that are sent and not acknowledged. *)
From Verif.Lib Require Import Base.
From Verif.Stream Require Import Model.
Local Open Scope Z_scope.

Fixpoint total (l : list Z) : Z := match l with [] => 0 | x :: r => x + total r end.

(** Bytes granted to writers and not yet acknowledged to the sender: about to be pushed, on the wire,
    read but not yet reported, or reported on the wire. *)
Definition unacked (s : st) : Z :=
  total (f_pushing s) + total (f_wire s) + f_consumed s + total (f_feedback s).

(** Nothing is on its way: the receiver has read everything, and its feedback has arrived. *)
Definition settled (s : st) : Prop :=
  f_checked s = [] /\ f_pushing s = [] /\ f_wire s = [] /\ f_feedback s = [] /\ f_notify s = false.
