(** What a bounded queue should do. *)
From Verif.Lib Require Import Base.
From Verif.Queue Require Import ModelMpmc.
Local Open Scope Z_scope.

Section Spec.
Context {V : Type}.
(** The value accepted at a position. *)
Definition accepted_at (s : queue V) (p : Z) : option V := nth_error (q_acc s) (Z.to_nat p).
(** No operation is going on. *)
Definition quiet (s : queue V) : Prop := Forall (fun c => c = Idle) (q_thr s).
(** A pop that got position [p] is not finished. *)
Definition popping (s : queue V) (p : Z) : Prop :=
  exists i, nth_error (q_thr s) i = Some (QRead p) \/ exists x, nth_error (q_thr s) i = Some (QPub p x).
End Spec.
(** Any number of steps. *)
Inductive steps {S : Type} (step : S -> S -> Prop) : S -> S -> Prop :=
| steps_0 s : steps step s s
| steps_S s s' s'' : steps step s s' -> step s' s'' -> steps step s s''.
(** The least power of two that is at least [n]. *)
Definition least_power (n c : Z) : Prop := exists k, 0 <= k /\ c = 2 ^ k /\ n <= c /\ forall j, 0 <= j -> n <= 2 ^ j -> k <= j.
