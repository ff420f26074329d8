(** What an allocator of equal blocks and an allocator of indexes should do. *)
From Verif.Lib Require Import Base.
Local Open Scope Z_scope.

(** What the user of a pool does, and what the pool answers. *)
Inductive act :=
| AAlloc (r : option Z)             (* a block, if there is one *)
| AFree (ptr : Z)
| AFreeOther (ptr : Z)              (* memory that is not the pool's *)
| AStore (off v : Z).
(** The blocks in use after a history that ends with the first element of the list. *)
Fixpoint in_use (h : list act) : list Z :=
  match h with
  | [] => []
  | AAlloc (Some p) :: t => p :: in_use t
  | AFree p :: t => List.remove Z.eq_dec p (in_use t)
  | _ :: t => in_use t
  end.
(** What was stored last at an offset since its block was handed out. *)
Fixpoint stored (size : Z) (h : list act) (o : Z) : Z :=
  match h with
  | [] => 0
  | AAlloc (Some p) :: t => if (p <=? o) && (o <? p + size) then 0 else stored size t o
  | AStore off v :: t => if o =? off then v else stored size t o
  | _ :: t => stored size t o
  end.

(** The same for indexes. *)
Inductive iact := INext (i : Z) | IFree (i : Z).
Fixpoint live (h : list iact) : list Z :=
  match h with
  | [] => []
  | INext i :: t => i :: live t
  | IFree i :: t => List.remove Z.eq_dec i (live t)
  end.
(** The largest number of indexes that were live at the same time, and the indexes ever issued. *)
Fixpoint peak (h : list iact) : Z :=
  match h with
  | [] => 0
  | x :: t => Z.max (Z.of_nat (length (live (x :: t)))) (peak t)
  end.
Definition issued (h : list iact) (i : Z) : Prop := In (INext i) h.
