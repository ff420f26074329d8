(** What a latch is, over its history, newest event first. *)
From Coq Require Import List Bool ZArith.
From Verif Require Import FiberLatch.Model.
Import ListNotations.
Open Scope Z_scope.

(** What is left of [c]. *)
Fixpoint left_ (c : Z) (h : list event) : Z :=
  match h with [] => c | Counted u :: r => left_ c r - u | _ :: r => left_ c r end.

(** The latch passes a fiber if and only if nothing is left, nobody counts more than
    what is left, and the process ends only if somebody tries. *)
Fixpoint latch (c : Z) (h : list event) : Prop :=
  match h with
  | [] => True
  | e :: r =>
      latch c r /\
      match e with
      | Counted u => u <= left_ c r
      | Passed _ => left_ c r = 0
      | Missed _ => left_ c r <> 0
      | Over u => left_ c r < u
      | Below _ => left_ c r < 0
      end
  end.

Definition nonneg (a : action) : Prop := match a with CountDown u => 0 <= u | _ => True end.
