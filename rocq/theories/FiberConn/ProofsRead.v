(** Steps of the fibers of read and write events keep the invariant. *)
From Coq Require Import List Bool Arith Lia.
From Verif.Lib Require Import Count.
From Verif.FiberConn Require Import Model Inv Tactics ProofsReactor.
Import ListNotations.

Ltac md := cbn [Nat.eqb assert negb andb app fst snd]; prj.

Lemma inv_rtop s l1 l2 h bad y s' : inv s -> rfs s = l1 ++ RTop :: l2 ->
  rstep h bad RTop s = Some (y, s') -> inv (set_rfs (l1 ++ y ++ l2) s').
Proof.
  intros I H C. unfold rstep in C. opn. destruct en; cbn [negb] in *; clean; [destruct done; clean|]; injection C as <- <-; md; try solve [fin].
  assert (needr = false) by (destruct needr; [exfalso; destruct str; clean; lia|reflexivity]).
  subst. fin.
Qed.
Lemma inv_rhs s l1 l2 h bad y s' : inv s -> rfs s = l1 ++ RHs :: l2 ->
  rstep h bad RHs s = Some (y, s') -> inv (set_rfs (l1 ++ y ++ l2) s').
Proof.
  intros I H C. unfold rstep, handshake in C. opn.
  destruct done; cbn [negb andb b2n] in *; [lia|].
  destruct needr; cbn [negb andb b2n] in *; [lia|].
  assert (cnt (wst_beq WHs) wfs = 0) by lia.
  destruct h.
  - destruct pendw; cbn [andb b2n] in *; injection C as <- <-; unfold sub; md; destruct en; clean; fin.
  - unfold kill in C; prj; destruct killed; injection C as <- <-; md; fin.
  - injection C as <- <-; md; fin.
  - injection C as <- <-; md; fin.
Qed.
Lemma inv_rread s l1 l2 h bad y s' : inv s -> rfs s = l1 ++ RRead :: l2 ->
  rstep h bad RRead s = Some (y, s') -> inv (set_rfs (l1 ++ y ++ l2) s').
Proof.
  intros I H C. unfold rstep in C. opn. destruct done; clean; [|lia]. destruct bad; unfold kill in *; prj; destruct killed; clean; injection C as <- <-; md; fin.
Qed.
Lemma inv_rother s l1 x l2 h bad y s' : inv s -> rfs s = l1 ++ x :: l2 -> x = RNeedW \/ x = RSupp \/ x = RLeave ->
  rstep h bad x s = Some (y, s') -> inv (set_rfs (l1 ++ y ++ l2) s').
Proof.
  intros I H [-> | [-> | ->]] C; unfold rstep in C; opn.
  - injection C as <- <-; unfold sub; md; fin.
  - injection C as <- <-; unfold sub; md; fin.
  - destruct killed; [|lia]. injection C as <- <-; unfold sub; md; fin.
Qed.
Lemma inv_rdec s l1 l2 h bad y s' : inv s -> rfs s = l1 ++ RDec :: l2 ->
  rstep h bad RDec s = Some (y, s') -> inv (set_rfs (l1 ++ y ++ l2) s').
Proof.
  intros I H C. unfold rstep in C. opn. destruct (revs =? 1) eqn:E; clean; injection C as <- <-; md; subst; cbn [pred] in *; fin.
Qed.
Lemma inv_rend s l1 l2 h bad y s' : inv s -> rfs s = l1 ++ REnd :: l2 ->
  rstep h bad REnd s = Some (y, s') -> inv (set_rfs (l1 ++ y ++ l2) s').
Proof.
  intros I H C. unfold rstep in C. destruct (check s) as [s1|] eqn:K; [|discriminate]. injection C as <- <-.
  pose proof (inv_check _ _ I K) as I1.
  assert (H1 : rfs s1 = l1 ++ REnd :: l2).
  { unfold check in K. destruct (idle _); [destruct (locked _); [discriminate|]|]; injection K as <-; exact H. }
  clear H K I. rename H1 into H. opn. md. fin.
Qed.
Lemma inv_read s h bad l1 x l2 y s' : inv s -> rfs s = l1 ++ x :: l2 ->
  rstep h bad x s = Some (y, s') -> inv (set_rfs (l1 ++ y ++ l2) s').
Proof.
  intros I H C. destruct x.
  - eapply inv_rtop; eassumption.
  - eapply inv_rhs; eassumption.
  - eapply inv_rread; eassumption.
  - eapply inv_rother; try eassumption; auto.
  - eapply inv_rother; try eassumption; auto.
  - eapply inv_rother; try eassumption; auto.
  - eapply inv_rdec; eassumption.
  - eapply inv_rend; eassumption.
Qed.
