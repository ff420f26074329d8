(** What a promise and its future should do. *)
From Verif.Lib Require Import Base.
From Verif.Future Require Import Model.

Section Spec.
Context {V E : Type}.
(** Both threads are done. *)
Definition finished (s : st V E) : Prop := f_r s = RDone /\ f_a s = ADone.
(** What a callback may be given: one of the results set, or the exception for a dropped promise if there
    was none. *)
Definition allowed (broken : E) (script : list (res V E)) (r : res V E) : Prop :=
  In r script \/ script = [] /\ r = Exc broken.
(** Runs of [n] steps. *)
Inductive run (broken : E) (script : list (res V E)) : nat -> st V E -> Prop :=
| run_0 : run broken script 0 (init script)
| run_S n s s' : run broken script n s -> step broken s s' -> run broken script (S n) s'.
End Spec.
