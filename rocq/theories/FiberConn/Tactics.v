From Coq Require Import List Bool Arith Lia.
From Verif.Lib Require Import Count.
From Verif.FiberConn Require Import Model Inv.
Import ListNotations.

Ltac clean := repeat match goal with
  | H : true = true -> _ |- _ => specialize (H eq_refl)
  | H : false = false -> _ |- _ => specialize (H eq_refl)
  | H : true = false -> _ |- _ => clear H
  | H : false = true -> _ |- _ => clear H
  | H : True |- _ => clear H
  | H : St0 = St0 -> _ |- _ => specialize (H eq_refl)
  | H : StR = St0 -> _ |- _ => clear H
  | H : StW = St0 -> _ |- _ => clear H
  | H : StFail = St0 -> _ |- _ => clear H
  | H : StEnd = St0 -> _ |- _ => clear H
  | H : _ /\ _ |- _ => destruct H
  | H : ?a = ?a |- _ => clear H
  | H : true = false |- _ => discriminate H
  | H : false = true |- _ => discriminate H
  | H : negb ?b = true |- _ => apply negb_true_iff in H
  | H : negb ?b = false |- _ => apply negb_false_iff in H
  | H : (_ =? _) = true |- _ => apply Nat.eqb_eq in H
  | H : (_ =? _) = false |- _ => apply Nat.eqb_neq in H
  | H : (_ <=? _) = true |- _ => apply Nat.leb_le in H
  | H : (_ <=? _) = false |- _ => apply Nat.leb_gt in H
  | H : true = _ |- _ => symmetry in H
  | H : false = _ |- _ => symmetry in H
  | H : 0 = S _ |- _ => discriminate H
  | H : S _ = 0 |- _ => discriminate H
  end.
Ltac bools := repeat match goal with
  | b : bool |- _ => destruct b
  end.
Ltac one := first [assumption | exact I | reflexivity | discriminate | lia].
Ltac case1 := lazymatch goal with
  | |- context [match ?x with St0 => _ | _ => _ end] => is_var x; destruct x; clean
  | |- context [if ?b then _ else _] => is_var b; destruct b; clean
  | H : if ?b then _ else _ |- _ => is_var b; destruct b; clean
  | H : match ?x with St0 => _ | _ => _ end |- _ => is_var x; destruct x; clean
  end.
(** Solve or fail at once. *)
Ltac two n := first [solve [one] | lazymatch n with
  | 0 => fail
  | S ?m => case1; cbn [b2n negb andb Nat.add] in *; clean; repeat split; two m
  end].
Ltac fin := constructor; dfng; prjg; compg; repeat split; two 6.
