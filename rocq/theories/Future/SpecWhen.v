(** What the combinators should do. *)
From Verif.Lib Require Import Base.
From Verif.Future Require Import Model ModelWhen.

Section Spec.
Context {V E : Type}.
(** All callbacks have run. *)
Definition all_ran (l : list pc) : Prop := Forall (fun p => p = Done) l.
(** The result for the input that decided. *)
Definition outcome_of (i : nat) (x : res V E) : res (Z * V) E :=
  match x with Val v => Val (Z.of_nat i, v) | Exc e => Exc e end.
Definition failed (x : res V E) : Prop := exists e, x = Exc e.
End Spec.

(** Any number of steps. *)
Inductive steps {S : Type} (step : S -> S -> Prop) : S -> S -> Prop :=
| steps_0 s : steps step s s
| steps_S s s' s'' : steps step s s' -> step s' s'' -> steps step s s''.
