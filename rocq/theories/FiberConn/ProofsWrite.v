(** Steps of the fibers of write events keep the invariant. *)
From Coq Require Import List Bool Arith Lia.
From Verif.Lib Require Import Count.
From Verif.FiberConn Require Import Model Inv Tactics ProofsReactor.
Import ListNotations.

Ltac md := cbn [Nat.eqb assert negb andb app fst snd]; prj.

Lemma enter_ok s : 1 <= qn s -> cs s SFlush = 0 -> cw s WFlush = 0 -> enter s = s.
Proof.
  intros Q S W. unfold enter. apply locked_cs in S. apply wflush_cw in W. rewrite S, W.
  destruct (Nat.eqb_spec (qn s) 0) as [E|_]; [lia|]. reflexivity.
Qed.

Lemma inv_wtop s l1 l2 h f y s' : inv s -> wfs s = l1 ++ WTop :: l2 ->
  wstep h f WTop s = Some (y, s') -> inv (set_wfs (l1 ++ y ++ l2) s').
Proof.
  intros I H C. unfold wstep in C. destruct (en s) eqn:E; cbn [negb] in C; [destruct (done s) eqn:D|].
  - rewrite enter_ok in C; [|opn; clean; lia..]. injection C as <- <-. opn. clean. md. fin.
  - injection C as <- <-. opn. clean. assert (needr = true) by (destruct needr; [reflexivity|exfalso; destruct str; clean; lia]).
    subst. md. fin.
  - injection C as <- <-. opn. clean. md. fin.
Qed.
Lemma inv_whs s l1 l2 h f y s' : inv s -> wfs s = l1 ++ WHs :: l2 -> h <> HSucc ->
  wstep h f WHs s = Some (y, s') -> inv (set_wfs (l1 ++ y ++ l2) s').
Proof.
  intros I H N C. unfold wstep, handshake in C. opn.
  destruct done; cbn [negb andb b2n] in *; [lia|].
  destruct needr; cbn [negb andb b2n] in *; [|lia].
  assert (cnt (rst_beq RHs) rfs = 0) by lia.
  destruct str; clean; try discriminate; try lia; destruct h; try congruence; unfold kill in *; prj.
  all: destruct killed, en; cbn [andb b2n] in *; clean; injection C as <- <-; unfold sub; md; fin.
Qed.
Lemma inv_wflush s l1 l2 h f y s' : inv s -> wfs s = l1 ++ WFlush :: l2 ->
  wstep h f WFlush s = Some (y, s') -> inv (set_wfs (l1 ++ y ++ l2) s').
Proof.
  intros I H C. unfold wstep in C. destruct (leaves f (qn s)) as [n|] eqn:L; [|discriminate].
  unfold leaves in L. opn. destruct done; clean; [|lia].
  assert (young : match str with St0 | StR | StW => False | _ => True end).
  { destruct str; clean; subst; cbn [cnt] in *; clean; destruct en; clean; try lia. all: exact Logic.I. }
  destruct f as [|k|k]; [injection L as <-|destruct ((1 <=? k) && (k <=? qn)) eqn:B; [injection L as <-; apply andb_true_iff in B; clean|discriminate]..];
    destruct str; destruct young; unfold kill in *; prj; destruct en, killed; cbn [andb b2n] in *; clean; try discriminate; injection C as <- <-; md; fin.
Qed.
Lemma inv_wother s l1 x l2 h f y s' : inv s -> wfs s = l1 ++ x :: l2 -> x = WNeedR \/ x = WSupp \/ x = WLeave ->
  wstep h f x s = Some (y, s') -> inv (set_wfs (l1 ++ y ++ l2) s').
Proof.
  intros I H [-> | [-> | ->]] C; unfold wstep in C; opn.
  - injection C as <- <-; unfold sub; md; fin.
  - injection C as <- <-; unfold sub; md; fin.
  - destruct killed; [|lia]. injection C as <- <-; unfold sub; md; fin.
Qed.
Lemma inv_wdec s l1 l2 h f y s' : inv s -> wfs s = l1 ++ WDec :: l2 ->
  wstep h f WDec s = Some (y, s') -> inv (set_wfs (l1 ++ y ++ l2) s').
Proof.
  intros I H C. unfold wstep in C. opn. destruct (wevs =? 1) eqn:E; clean; injection C as <- <-; md; subst; cbn [pred] in *; fin.
Qed.
Lemma inv_wend s l1 l2 h f y s' : inv s -> wfs s = l1 ++ WEnd :: l2 ->
  wstep h f WEnd s = Some (y, s') -> inv (set_wfs (l1 ++ y ++ l2) s').
Proof.
  intros I H C. unfold wstep in C. destruct (check s) as [s1|] eqn:K; [|discriminate]. injection C as <- <-.
  pose proof (inv_check _ _ I K) as I1.
  assert (H1 : wfs s1 = l1 ++ WEnd :: l2).
  { unfold check in K. destruct (idle _); [destruct (locked _); [discriminate|]|]; injection K as <-; exact H. }
  clear H K I. rename H1 into H. opn. md. fin.
Qed.
Lemma inv_write s h f l1 x l2 y s' : inv s -> wfs s = l1 ++ x :: l2 -> (x = WHs -> h <> HSucc) ->
  wstep h f x s = Some (y, s') -> inv (set_wfs (l1 ++ y ++ l2) s').
Proof.
  intros I H N C. destruct x.
  - eapply inv_wtop; eassumption.
  - eapply inv_whs; try eassumption. auto.
  - eapply inv_wflush; eassumption.
  - eapply inv_wother; try eassumption; auto.
  - eapply inv_wother; try eassumption; auto.
  - eapply inv_wother; try eassumption; auto.
  - eapply inv_wdec; eassumption.
  - eapply inv_wend; eassumption.
Qed.
