(** Specification: a deque of bounded size as a list, oldest (topmost) item first. *)
From Verif.Lib Require Import Base.
From Verif.Container Require Import Model.
Local Open Scope Z_scope.

Section Deque.
Context {A : Type}.
Variable cap : Z.

Definition size (l : list A) : Z := Z.of_nat (length l).


Definition deque_do (l : list A) (c : bq_call A) : list A * bq_answer A :=
  match c with
  | QPush x => if size l <? cap then (l ++ [x], ABool true) else (l, ABool false)
  | QElimPush x => if size l <? cap then (l ++ [x], AUnit) else (tl l ++ [x], AUnit)
  | QPushTop x => if size l <? cap then (x :: l, ABool true) else (l, ABool false)
  | QPop => (tl l, AItem (hd_error l))
  | QPopBottom => (removelast l, AItem (hd_error (rev l)))
  | QClear => ([], AUnit)
  | QTop i => (l, AItem (nth_error l i))
  | QBottom i => (l, AItem (nth_error (rev l) i))
  | QEmpty => (l, ABool match l with [] => true | _ => false end)
  | QFull => (l, ABool (size l =? cap))
  | QSize => (l, ASize (size l))
  end.
End Deque.

(** Two deques of capacities [c1], [c2]; swapping exchanges the capacities too. *)
Fixpoint deque_calls {A} (c1 c2 : Z) (l1 l2 : list A) (l : list (bool * bq_call A + unit)) : list A * list A * list (bq_answer A) :=
  match l with
  | [] => (l1, l2, [])
  | inr tt :: r => deque_calls c2 c1 l2 l1 r
  | inl (true, c) :: r => let '(l1', a) := deque_do c1 l1 c in
                          let '(p1, p2, as_) := deque_calls c1 c2 l1' l2 r in (p1, p2, a :: as_)
  | inl (false, c) :: r => let '(l2', a) := deque_do c2 l2 c in
                           let '(p1, p2, as_) := deque_calls c1 c2 l1 l2' r in (p1, p2, a :: as_)
  end.
