(** Counting the elements of a list that satisfy a test, for tables of threads. *)
From Coq Require Import List Lia Bool Arith.
From Verif.Lib Require Import ListX.
Import ListNotations.

Definition b2n (b : bool) : nat := if b then 1 else 0.
Fixpoint cnt {A} (f : A -> bool) (l : list A) : nat :=
  match l with [] => 0 | x :: r => b2n (f x) + cnt f r end.

Lemma cnt_lset {A} (f : A -> bool) (l : list A) i x d : i < length l -> cnt f (lset l i x) + b2n (f (nth i l d)) = cnt f l + b2n (f x).
Proof. revert i; induction l as [|y l IH]; intros [|i]; cbn; intros H; try lia. specialize (IH i). lia. Qed.
Lemma cnt_nth {A} (f : A -> bool) (l : list A) i d : i < length l -> f (nth i l d) = true -> 1 <= cnt f l.
Proof. revert i; induction l as [|y l IH]; intros [|i]; cbn; intros H E; try lia; [rewrite E; cbn; lia|]. specialize (IH i). lia. Qed.
Lemma cnt_two {A} (f : A -> bool) (l : list A) i j d : i < length l -> j < length l -> i <> j ->
  f (nth i l d) = true -> f (nth j l d) = true -> 2 <= cnt f l.
Proof.
  revert i j; induction l as [|y l IH]; intros [|i] [|j]; cbn; intros H1 H2 N E1 E2; try lia.
  - rewrite E1. pose proof (cnt_nth f l j d). cbn. lia.
  - rewrite E2. pose proof (cnt_nth f l i d). cbn. lia.
  - specialize (IH i j). lia.
Qed.
Lemma cnt_ex {A} (f : A -> bool) (l : list A) d : 1 <= cnt f l -> exists i, i < length l /\ f (nth i l d) = true.
Proof.
  induction l as [|y l IH]; cbn; intros H; [lia|]. destruct (f y) eqn:E; [exists 0; cbn; split; [lia|exact E]|].
  cbn in H. destruct (IH H) as (i & L & E'). exists (S i). cbn. split; [lia|exact E'].
Qed.
Lemma cnt_zero {A} (f : A -> bool) (l : list A) i d : cnt f l = 0 -> i < length l -> f (nth i l d) = false.
Proof. intros H L. destruct (f (nth i l d)) eqn:E; [pose proof (cnt_nth f l i d L E); lia|reflexivity]. Qed.
Lemma cnt_none {A} (f : A -> bool) (l : list A) d : (forall i, i < length l -> f (nth i l d) = false) -> cnt f l = 0.
Proof.
  induction l as [|y l IH]; cbn; intros H; [reflexivity|]. rewrite (H 0) by lia. cbn. apply IH. intros i L. apply (H (S i)). lia.
Qed.
Lemma cnt_le {A} (f g : A -> bool) (l : list A) : (forall x, In x l -> f x = true -> g x = true) -> cnt f l <= cnt g l.
Proof.
  induction l as [|y l IH]; cbn; intros H; [lia|]. assert (cnt f l <= cnt g l) by (apply IH; auto).
  specialize (H y (or_introl eq_refl)). destruct (f y); [rewrite H by reflexivity|]; cbn; lia.
Qed.
Lemma cnt_disjoint {A} (f g : A -> bool) (l : list A) : (forall x, In x l -> f x = true -> g x = true -> False) -> cnt f l + cnt g l <= length l.
Proof.
  induction l as [|y l IH]; cbn; intros H; [lia|]. assert (cnt f l + cnt g l <= length l) by (apply IH; eauto).
  specialize (H y (or_introl eq_refl)). destruct (f y), (g y); cbn; try lia; exfalso; auto.
Qed.
Lemma cnt_repeat {A} (f : A -> bool) x n : f x = false -> cnt f (repeat x n) = 0.
Proof. intro E. induction n as [|n IH]; cbn; [reflexivity|]. rewrite E. exact IH. Qed.
Lemma cnt_map {A} (f : A -> bool) (m : A -> A) (l : list A) : cnt f (map m l) = cnt (fun x => f (m x)) l.
Proof. induction l as [|y l IH]; cbn; [reflexivity|]. rewrite IH. reflexivity. Qed.
Lemma cnt_ext {A} (f g : A -> bool) (l : list A) : (forall x, f x = g x) -> cnt f l = cnt g l.
Proof. intro E. induction l as [|y l IH]; cbn; [reflexivity|]. rewrite IH, E. reflexivity. Qed.
Lemma cnt_app {A} (f : A -> bool) (a b : list A) : cnt f (a ++ b) = cnt f a + cnt f b.
Proof. induction a as [|y l IH]; cbn; [reflexivity|]. rewrite IH. lia. Qed.

(** Sums over a list. *)
Fixpoint zsum {A} (f : A -> BinInt.Z) (l : list A) : BinInt.Z :=
  match l with [] => BinInt.Z0 | x :: r => BinInt.Z.add (f x) (zsum f r) end.
Lemma zsum_lset {A} (f : A -> BinInt.Z) (l : list A) i x d : i < length l ->
  BinInt.Z.add (zsum f (lset l i x)) (f (nth i l d)) = BinInt.Z.add (zsum f l) (f x).
Proof. revert i; induction l as [|y l IH]; intros [|i]; cbn; intros H; try lia. specialize (IH i). lia. Qed.
Lemma zsum_map {A} (f : A -> BinInt.Z) (m : A -> A) (l : list A) : zsum f (map m l) = zsum (fun x => f (m x)) l.
Proof. induction l as [|y l IH]; cbn; [reflexivity|]. rewrite IH. reflexivity. Qed.
Lemma zsum_ext {A} (f g : A -> BinInt.Z) (l : list A) : (forall x, f x = g x) -> zsum f l = zsum g l.
Proof. intro E. induction l as [|y l IH]; cbn; [reflexivity|]. rewrite IH, E. reflexivity. Qed.
Lemma zsum_repeat {A} (f : A -> BinInt.Z) x n : f x = BinInt.Z0 -> zsum f (repeat x n) = BinInt.Z0.
Proof. intro E. induction n as [|n IH]; cbn; [reflexivity|]. rewrite E, IH. reflexivity. Qed.

(** The same with integers. *)
Definition bz (b : bool) : BinInt.Z := if b then BinInt.Zpos BinPos.xH else BinInt.Z0.
Definition zc {A} (f : A -> bool) (l : list A) : BinInt.Z := BinInt.Z.of_nat (cnt f l).
Lemma zc_lset {A} (f : A -> bool) (l : list A) i x d : i < length l ->
  zc f (lset l i x) = BinInt.Z.sub (BinInt.Z.add (zc f l) (bz (f x))) (bz (f (nth i l d))).
Proof. intro H. unfold zc. pose proof (cnt_lset f l i x d H). destruct (f x), (f (nth i l d)); cbn [b2n bz] in *; lia. Qed.
Lemma zsum_lset_eq {A} (f : A -> BinInt.Z) (l : list A) i x d : i < length l ->
  zsum f (lset l i x) = BinInt.Z.sub (BinInt.Z.add (zsum f l) (f x)) (f (nth i l d)).
Proof. intro H. pose proof (zsum_lset f l i x d H). lia. Qed.
Lemma zc_pos {A} (f : A -> bool) (l : list A) : BinInt.Z.le BinInt.Z0 (zc f l).
Proof. unfold zc. lia. Qed.
Lemma zc_map {A} (f : A -> bool) (m : A -> A) (l : list A) : zc f (map m l) = zc (fun x => f (m x)) l.
Proof. unfold zc. rewrite cnt_map. reflexivity. Qed.
Lemma zc_ext {A} (f g : A -> bool) (l : list A) : (forall x, f x = g x) -> zc f l = zc g l.
Proof. intro E. unfold zc. rewrite (cnt_ext f g l E). reflexivity. Qed.
Lemma zc_repeat {A} (f : A -> bool) x n : f x = false -> zc f (repeat x n) = BinInt.Z0.
Proof. intro E. unfold zc. rewrite cnt_repeat by exact E. reflexivity. Qed.
Lemma zc_nth {A} (f : A -> bool) (l : list A) i d : i < length l -> f (nth i l d) = true -> BinInt.Z.le (BinInt.Zpos BinPos.xH) (zc f l).
Proof. intros H E. unfold zc. pose proof (cnt_nth f l i d H E). lia. Qed.
Lemma zc_ex {A} (f : A -> bool) (l : list A) d : BinInt.Z.lt BinInt.Z0 (zc f l) -> exists i, i < length l /\ f (nth i l d) = true.
Proof. unfold zc. intro H. apply cnt_ex. lia. Qed.
(** An implication that the arithmetic tactics do not look into. *)
Definition imp (P Q : Prop) : Prop := P -> Q.
