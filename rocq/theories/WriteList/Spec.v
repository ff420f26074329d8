(** What is said of the queue of bytes to be written, apart from its model. *)
From Coq Require Import List Arith.
From Verif.WriteList Require Import Model.
Import ListNotations.

Definition is_beginning {A} (a b : list A) : Prop := exists r, b = a ++ r.

(** The bytes of messages, in order *)
Definition all_bytes (l : list (list (list nat))) : list nat := concat (map (@concat nat) l).

(** Bytes a thread has counted but not yet put in line *)
Definition counted (s : st) (p : pst) : nat :=
  match p with
  | PNew m => length (concat m)
  | PXchg i => match mem s i with Some n => length (concat (n_msg n)) | None => 0 end
  | _ => 0
  end.
Fixpoint total (l : list nat) : nat := match l with [] => 0 | x :: l => x + total l end.
(** Bytes the socket has taken but which are still counted *)
Definition uncounted (f : fst_) : nat := match f with FSub _ n _ => n | _ => 0 end.

(** The node a thread is about to put in line *)
Definition holds (p : pst) (i : nat) : Prop := p = PXchg i.

(** A thread that has nothing more to do on its own *)
Definition at_rest (p : pst) : Prop := (exists ok, p = PDone ok) \/ exists m, p = PAsleep m.
Definition accepted (p : pst) : bool := match p with PLink _ _ => true | PDone ok => ok | _ => false end.

(** A message with at least one byte, and no empty block *)
Definition sound (m : list (list nat)) : Prop := m <> [] /\ forall b, In b m -> b <> [].

Definition asleep (p : pst) : bool := match p with PAsleep _ => true | _ => false end.
