(** Specification of filter chains: nesting. *)
From Verif.Lib Require Import Base.

(** The filters that run before the first one satisfying [rej]. *)
Fixpoint completed {A} (rej : A -> bool) (l : list A) : list A :=
  match l with [] => [] | x :: r => if rej x then [] else x :: completed rej r end.

(** The first one satisfying [rej]. *)
Definition rejecter {A} (rej : A -> bool) (l : list A) : list A :=
  match find rej l with Some x => [x] | None => [] end.

Definition succ_count (l : list bool) : Z := Z.of_nat (length (filter (fun b => b) l)).
Definition fail_count (l : list bool) : Z := Z.of_nat (length (filter negb l)).
