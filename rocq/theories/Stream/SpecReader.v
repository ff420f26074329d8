(** Specification: what was received and what the reads returned. *)
From Verif.Lib Require Import Base.
From Verif.Stream Require Import ModelReader.
Local Open Scope Z_scope.

Section Spec.
Context {A : Type}.
(** The messages received, in order. *)
Fixpoint received (l : list (call A)) : list A :=
  match l with [] => [] | CData m :: r => m :: received r | _ :: r => received r end.
(** The messages read, in order. *)
Fixpoint delivered (l : list (rresult A)) : list A :=
  match l with [] => [] | RStatus _ (Some m) :: r => m :: delivered r | _ :: r => delivered r end.
(** Nothing but data, readiness and reads. *)
Definition running_call (c : call A) : Prop := match c with CReady | CData _ | CRead => True | _ => False end.
Fixpoint count_reads (l : list (call A)) : Z :=
  match l with [] => 0 | CRead :: r => 1 + count_reads r | _ :: r => count_reads r end.

(** The messages asynchronous reads got, in order. *)
Fixpoint a_delivered (l : list (Z * aresult A)) : list A :=
  match l with [] => [] | (_, AMsg m) :: r => m :: a_delivered r | _ :: r => a_delivered r end.
(** A new read is only started after the previous one is done, as stream.h asks. *)
Fixpoint polite (l : list (call A)) (s : ard A) : Prop :=
  match l with
  | [] => True
  | c :: r => (c = CRead -> p_pending s = None) /\ polite r (do_acall c s)
  end.
End Spec.
