(** What a run queue should do. *)
From Verif.Lib Require Import Base.
From Verif.Queue Require Import ModelRun.
Local Open Scope Z_scope.

Section Spec.
Context {V : Type}.
(** What was accepted at a position, with instealable. *)
Definition fiber_at (s : runq V) (p : Z) : option (V * bool) := nth_error (r_acc s) (Z.to_nat p).
(** No operation is going on. *)
Definition rquiet (s : runq V) : Prop := Forall (fun c => c = RIdle) (r_thr s).
(** A pop that got position [p] is not finished. *)
Definition rpopping (s : runq V) (p : Z) : Prop :=
  exists i st, nth_error (r_thr s) i = Some (QRead st p) \/ exists x, nth_error (r_thr s) i = Some (QPub st p x).
(** A push that got position [p] is not finished. *)
Definition rpushing (s : runq V) (p : Z) : Prop :=
  exists i l f pos, (nth_error (r_thr s) i = Some (WCheck l f pos) \/ nth_error (r_thr s) i = Some (WData l f pos) \/
    nth_error (r_thr s) i = Some (WFlag l f pos) \/ nth_error (r_thr s) i = Some (WPub l f pos)) /\ pos <= p < pos + Z.of_nat (length l).
(** All [c] places are taken by fibers, or the next one by a pop that is not finished. *)
Definition all_used (c : Z) (s : runq V) : Prop := r_head s - r_tail s = c \/ rpopping s (r_head s - c).
(** [b] more fibers would leave no place free, or a pop that is not finished holds one of the places (or the one behind them). *)
Definition no_room (c b : Z) (s : runq V) : Prop :=
  c <= r_head s - r_tail s + b \/ exists p, rpopping s p /\ r_head s <= p + c <= r_head s + b.
End Spec.
