(** What a work-stealing deque should do. *)
From Verif.Lib Require Import Base.
From Verif.Queue Require Import ModelSpmc.
Local Open Scope Z_scope.

Section Spec.
Context {V : Type}.
(** One behind the last item that is still in the deque: a pop has taken its item once it has seen that [top_] is smaller,
    or has won the race for the last one. *)
Definition back (s : deque V) : Z :=
  match d_own s with
  | OPopT b | OPopC b _ | OPopE b _ => b + 1
  | OPopR b t => if t <? b then b else b + 1
  | _ => d_bot s
  end.
Definition held (s : deque V) : list (option V) :=
  map (fun k => cell s (d_cur s) (d_top s + Z.of_nat k)) (seq 0 (Z.to_nat (back s - d_top s))).
(** What the owner's pop has taken and not returned yet. *)
Definition taken (s : deque V) : list (option V) :=
  match d_own s with
  | OPopR b t => if t <? b then [cell s (d_cur s) b] else []
  | OPopE _ (Some x) => [x]
  | _ => []
  end.

(** The abstract deque: items pushed, in the deque (oldest first), taken by the owner, returned. *)
Record abstract := { x_in : list V; x_held : list (option V); x_taken : list (option V); x_got : list (option V) }.
Definition abs (s : deque V) : abstract := {| x_in := d_in s; x_held := held s; x_taken := taken s; x_got := d_got s |}.
Inductive astep : abstract -> abstract -> Prop :=
| a_nothing x : astep x x
| a_push v i h t g : astep {| x_in := i; x_held := h; x_taken := t; x_got := g |}
                           {| x_in := i ++ [v]; x_held := h ++ [Some v]; x_taken := t; x_got := g |}
| a_pop x i h g : astep {| x_in := i; x_held := h ++ [x]; x_taken := []; x_got := g |}
                        {| x_in := i; x_held := h; x_taken := [x]; x_got := g |}
| a_return x i h g : astep {| x_in := i; x_held := h; x_taken := [x]; x_got := g |}
                           {| x_in := i; x_held := h; x_taken := []; x_got := g ++ [x] |}
| a_steal x i h t g : astep {| x_in := i; x_held := x :: h; x_taken := t; x_got := g |}
                            {| x_in := i; x_held := h; x_taken := t; x_got := g ++ [x] |}.

(** For the bounded deque: no pop begins while bottom_ is 0, no pop loses the race for the last item, and the counters do not
    overflow. *)
Definition lucky (s : deque V) : Prop :=
  ~ (d_own s = OPopB /\ d_bot s = 0) /\ ~ (exists b x, d_own s = OPopC b x /\ d_top s <> b) /\ Z.of_nat (length (d_in s)) < 2 ^ 63.
End Spec.
Arguments abstract : clear implicits.
(** No condition on the states of a run. *)
Definition any {S : Type} (_ : S) : Prop := True.
Definition pow2 (c : Z) : Prop := exists j, 0 <= j /\ c = 2 ^ j.
