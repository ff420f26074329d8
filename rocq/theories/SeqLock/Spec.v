(** What a sequence lock promises. *)
From Coq Require Import List Bool Arith.
From Verif.SeqLock Require Import Model.
Import ListNotations.

(** What a program writes. *)
Fixpoint writes (p : list op) : list (list nat) :=
  match p with [] => [] | Write v :: r => v :: writes r | Read :: r => writes r end.
Definition written (ps : list (list op)) : list (list nat) := flat_map writes ps.

(** All versions have the same number of cells. *)
Definition sized (v0 : list nat) (ps : list (list op)) : Prop := Forall (fun v => length v = length v0) (written ps).

(** The thread is between WriteSeqLock() and WriteSeqUnlock(). *)
Definition writing (p : pc) : Prop := match p with WBegin _ | WStore _ _ | WUnlock => True | _ => False end.
Definition storing (p : pc) : Prop := match p with WStore _ _ => True | _ => False end.

(** The reads a thread accepted. *)
Definition snaps (t : th) : list (list nat) := map (fun x => fst (fst x)) (seen t).
