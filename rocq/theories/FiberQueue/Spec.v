(** What a blocking queue should do. *)
From Verif.Lib Require Import Base.
From Verif.FiberQueue Require Import Model.

Fixpoint total (szf : nat -> Z) (l : list nat) : Z := match l with [] => 0 | x :: r => szf x + total szf r end%Z.
Definition pushing (c : pc) : Prop := exists k x, c = USleep k x.
Definition popping (c : pc) : Prop := exists k, c = OSleep k.
(** Nothing can move inside of a call. *)
Definition stuck (szf : nat -> Z) (s : bq) : Prop := forall i s', ~ tstep szf i s s'.
(** Sizes and capacities do not overflow size_t. *)
Definition sane (szf : nat -> Z) (top : Z) : Prop := forall x, (0 <= szf x /\ szf x + top < 2 ^ 64)%Z.
(** The sizes in the runs that refute something. *)
Definition sz3 (x : nat) : Z := Z.min (Z.of_nat x) 3.
