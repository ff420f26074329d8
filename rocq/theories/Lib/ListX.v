(** List lemmas used in several components. *)
From Verif.Lib Require Import Base.
Local Open Scope nat_scope.

Lemma skipn_length_app {A} (l1 l2 : list A) n :
  length l1 <= n -> skipn n (l1 ++ l2) = skipn (n - length l1) l2.
Proof. intros H. rewrite skipn_app, skipn_all2 by lia. reflexivity. Qed.

Lemma skipn_lt_app {A} (l1 l2 : list A) n :
  n <= length l1 -> skipn n (l1 ++ l2) = skipn n l1 ++ l2.
Proof.
  intros H. rewrite skipn_app. replace (n - length l1) with 0 by lia. reflexivity.
Qed.

Lemma firstn_lt_app {A} (l1 l2 : list A) n :
  n <= length l1 -> firstn n (l1 ++ l2) = firstn n l1.
Proof.
  intros H. rewrite firstn_app. replace (n - length l1) with 0 by lia.
  simpl. apply app_nil_r.
Qed.

Lemma firstn_length_app {A} (l1 l2 : list A) n :
  length l1 <= n -> firstn n (l1 ++ l2) = l1 ++ firstn (n - length l1) l2.
Proof. intros H. rewrite firstn_app, firstn_all2 by lia. reflexivity. Qed.

Lemma skipn_skipn_add {A} (l : list A) a b : skipn a (skipn b l) = skipn (b + a) l.
Proof.
  revert l; induction b as [|b IH]; intros l; simpl; auto.
  destruct l; simpl; auto. destruct a; reflexivity.
Qed.

Lemma nil_length_inv {A} (l : list A) : length l = 0 -> l = [].
Proof. destruct l; simpl; [auto|discriminate]. Qed.

Lemma firstn_exact_app {A} (l1 l2 : list A) n : n = length l1 -> firstn n (l1 ++ l2) = l1.
Proof. intros ->. rewrite firstn_lt_app by lia. apply firstn_all. Qed.

Lemma skipn_exact_app {A} (l1 l2 : list A) n : n = length l1 -> skipn n (l1 ++ l2) = l2.
Proof. intros ->. rewrite skipn_length_app by lia. replace (_ - _) with 0 by lia. reflexivity. Qed.

Lemma nth_map_seq {A} (f : nat -> A) d k i : i < k -> nth i (map f (seq 0 k)) d = f i.
Proof.
  intros H. rewrite (nth_indep (map f (seq 0 k)) d (f 0)) by (rewrite map_length, seq_length; auto).
  rewrite map_nth, seq_nth by auto. reflexivity.
Qed.

Lemma NoDup_map_in {A B} (f : A -> B) (l : list A) :
  (forall x y, In x l -> In y l -> f x = f y -> x = y) -> NoDup l -> NoDup (map f l).
Proof.
  induction l as [|a l IH]; intros Hi Hn; cbn [map]; [constructor|].
  inversion Hn as [|? ? Ha Hl]; subst. constructor.
  - intros H. apply in_map_iff in H. destruct H as (y & E & Hy). apply Ha.
    rewrite (Hi a y); auto; [left; auto|right; auto].
  - apply IH; auto. intros x y Hx Hy. apply Hi; right; auto.
Qed.

(** v[i] = x. *)
Fixpoint lset {A} (l : list A) (i : nat) (x : A) : list A :=
  match l, i with
  | [], _ => []
  | _ :: r, O => x :: r
  | y :: r, S i' => y :: lset r i' x
  end.

Lemma lset_length {A} (l : list A) i x : length (lset l i x) = length l.
Proof. revert i; induction l as [|y l IH]; intros [|i]; cbn; auto. Qed.

Lemma nth_lset {A} (l : list A) i j x d :
  i < length l -> nth j (lset l i x) d = if j =? i then x else nth j l d.
Proof.
  revert i j; induction l as [|y l IH]; intros [|i] [|j]; cbn; intros H; try lia; auto.
  apply IH. lia.
Qed.

Lemma nth_lset_same {A} (l : list A) i x d : i < length l -> nth i (lset l i x) d = x.
Proof. intros H. rewrite nth_lset, Nat.eqb_refl; auto. Qed.

Lemma nth_lset_other {A} (l : list A) i j x d : i <> j -> nth j (lset l i x) d = nth j l d.
Proof. revert i j; induction l as [|y l IH]; intros [|i] [|j]; cbn; intros H; try lia; auto. Qed.

(** Function update, for thread tables. *)
Definition fset {A} (f : nat -> A) (t : nat) (x : A) : nat -> A := fun u => if u =? t then x else f u.

Lemma fset_same {A} (f : nat -> A) t x : fset f t x t = x.
Proof. unfold fset. rewrite Nat.eqb_refl. reflexivity. Qed.
Lemma fset_other {A} (f : nat -> A) t x u : u <> t -> fset f t x u = f u.
Proof. intros H. unfold fset. destruct (Nat.eqb_spec u t); congruence. Qed.
