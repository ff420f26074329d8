From Coq Require Import List Bool Arith Lia.
From Verif Require Import TimedMutex.Model TimedMutex.Spec.
Import ListNotations.

Lemma upd_same f i p : upd f i p i = p.
Proof. unfold upd. rewrite Nat.eqb_refl. reflexivity. Qed.
Lemma upd_other f i p k : k <> i -> upd f i p k = f k.
Proof. intros N. unfold upd. destruct (Nat.eqb_spec k i); congruence. Qed.

Definition wok (p : pc) : Prop := match p with Woken _ _ => True | _ => False end.

Record Inv (n : nat) (s : st) : Prop := {
  i_held : locked s = true <-> exists i, at_ s i = Held;
  i_one : forall i k, at_ s i = Held -> at_ s k = Held -> i = k;
  i_out : forall i, n <= i -> at_ s i = Idle;
  i_wake : locked s = false -> forall k, waits (at_ s k) = true -> exists j, wok (at_ s j)
}.

Lemma init_inv n : Inv n init.
Proof. constructor; cbn; try discriminate; try reflexivity. split; [discriminate|intros [i H]; discriminate]. Qed.

Ltac usp i k := destruct (Nat.eq_dec k i) as [->|];
   [rewrite ?upd_same in *|rewrite ?upd_other in * by assumption].

Lemma in_range n s i : Inv n s -> at_ s i <> Idle -> i < n.
Proof. intros V H. destruct (Nat.lt_ge_cases i n) as [L|G]; [exact L|]. destruct H. apply (i_out _ _ V); exact G. Qed.

Lemma no_holder n s : Inv n s -> locked s = false -> forall i, at_ s i <> Held.
Proof. intros V L i H. assert (locked s = true) by (apply (i_held _ _ V); exists i; exact H). congruence. Qed.

Lemma take_inv n s i : Inv n s -> i < n -> locked s = false -> Inv n (take s i).
Proof.
  intros V R L. pose proof (no_holder n s V L) as NH. destruct V. constructor; cbn.
  - split; [intros _; exists i; apply upd_same|reflexivity].
  - intros k m. usp i k; usp i m; auto; intros A B; first [destruct (NH _ A)|destruct (NH _ B)].
  - intros k K. usp i k; [lia|auto].
  - discriminate.
Qed.

(** A fiber that is not the holder moves; nobody that waits is left alone. *)
Lemma move_inv n s i p l :
  Inv n s -> at_ s i <> Held -> p <> Held -> (p <> Idle -> i < n) ->
  (locked s = true \/ wok p) ->
  Inv n {| locked := locked s; at_ := upd (at_ s) i p; log := l |}.
Proof.
  intros V A P R D. destruct V. constructor; cbn.
  - rewrite i_held0. split; intros [k K]; exists k.
    + rewrite upd_other; [exact K|]. intros ->. contradiction.
    + usp i k; [contradiction|exact K].
  - intros k m. usp i k; usp i m; auto; contradiction.
  - intros k K. usp i k; [|auto]. destruct p; try reflexivity; exfalso; assert (i < n) by (apply R; discriminate); lia.
  - intros L k K. destruct D as [D|D]; [congruence|]. exists i. rewrite upd_same. exact D.
Qed.

Lemma release_inv n s i k l : Inv n s -> at_ s i = Held -> can_notify n s k = true ->
  Inv n (notify {| locked := false; at_ := upd (at_ s) i Idle; log := l |} k).
Proof.
  intros V H C.
  assert (NO : forall m, upd (at_ s) i Idle m <> Held).
  { intros m. usp i m; [discriminate|]. intros A. apply n0. exact (i_one _ _ V m i A H). }
  destruct k as [k|]; cbn in C.
  - apply andb_true_iff in C. destruct C as [C1 C2]. apply Nat.ltb_lt in C1.
    assert (KI : k <> i) by (intros ->; rewrite H in C2; discriminate).
    unfold notify. cbn. rewrite upd_other by exact KI. destruct (at_ s k) as [| |t|] eqn:E; try discriminate C2.
    constructor; cbn.
    + split; [discriminate|]. intros [m M]. usp k m; [discriminate|destruct (NO m M)].
    + intros m1 m2 M1. usp k m1; [discriminate|destruct (NO m1 M1)].
    + intros m M. usp k m; [lia|]. usp i m; [reflexivity|]. apply (i_out _ _ V); exact M.
    + intros _ _ _. exists k. rewrite upd_same. exact Logic.I.
  - cbn. constructor; cbn.
    + split; [discriminate|]. intros [m M]. destruct (NO m M).
    + intros m1 m2 M1. destruct (NO m1 M1).
    + intros m M. usp i m; [reflexivity|]. apply (i_out _ _ V); exact M.
    + intros _ m M. exfalso. usp i m; [discriminate|].
      assert (R : m < n) by (apply (in_range n s m V); intros Q; rewrite Q in M; discriminate).
      rewrite forallb_forall in C. specialize (C m ltac:(apply in_seq; lia)). rewrite M in C. discriminate.
Qed.

Lemma some_eq {A} (x y : A) : Some x = Some y -> x = y.
Proof. congruence. Qed.

Lemma step_inv n s a s' : Inv n s -> exec true n s a = Some s' -> Inv n s'.
Proof.
  intros V H. destruct a as [i|i|i|i k|i|i|i]; unfold exec in H.
  - destruct (Nat.ltb_spec i n) as [R|]; [|discriminate]. destruct (at_ s i) eqn:E; try discriminate; apply some_eq in H; subst s'.
    destruct (locked s) eqn:L; [|apply take_inv; assumption]. apply move_inv; solve [assumption | congruence | intros; exact R | left; assumption | right; exact Logic.I].
  - destruct (Nat.ltb_spec i n) as [R|]; [|discriminate]. destruct (at_ s i) eqn:E; try discriminate; apply some_eq in H; subst s'.
    destruct (locked s) eqn:L; [|apply take_inv; assumption]. apply move_inv; solve [assumption | congruence | intros; exact R | left; assumption | right; exact Logic.I].
  - destruct (Nat.ltb_spec i n) as [R|]; [|discriminate]. destruct (at_ s i) eqn:E; try discriminate; apply some_eq in H; subst s'.
    destruct (locked s) eqn:L; [|apply take_inv; assumption]. apply move_inv; solve [assumption | congruence | intros; exact R | left; assumption | right; exact Logic.I].
  - destruct ((i <? n) && can_notify n s k) eqn:C; [|discriminate]. apply andb_true_iff in C. destruct C as [_ C].
    destruct (at_ s i) eqn:E; try discriminate; apply some_eq in H; subst s'. apply release_inv; assumption.
  - destruct (at_ s i) as [| |[]|] eqn:E; try discriminate; apply some_eq in H; subst s'.
    assert (R : i < n) by (apply (in_range n s i V); congruence).
    apply move_inv; solve [assumption | congruence | intros; exact R | left; assumption | right; exact Logic.I].
  - destruct (at_ s i) as [| |t|] eqn:E; try discriminate; apply some_eq in H; subst s'.
    assert (R : i < n) by (apply (in_range n s i V); congruence).
    apply move_inv; solve [assumption | congruence | intros; exact R | left; assumption | right; exact Logic.I].
  - destruct (at_ s i) as [| | |t x] eqn:E; try discriminate; apply some_eq in H; subst s'.
    assert (R : i < n) by (apply (in_range n s i V); congruence).
    destruct (locked s) eqn:L; [|apply take_inv; assumption].
    destruct x; apply move_inv; solve [assumption | congruence | intros; exact R | left; assumption | right; exact Logic.I].
Qed.

Theorem reach_inv n s : reach true n s -> Inv n s.
Proof. induction 1; [apply init_inv|]. eapply step_inv; eassumption. Qed.

Theorem exclusion n s i k : reach true n s -> at_ s i = Held -> at_ s k = Held -> i = k.
Proof. intros R. apply (i_one _ _ (reach_inv n s R)). Qed.

Theorem locked_held n s : reach true n s -> (locked s = true <-> exists i, at_ s i = Held).
Proof. intros R. apply (i_held _ _ (reach_inv n s R)). Qed.

(** If the mutex is free and somebody waits, a woken fiber takes it with its next step. *)
Theorem no_lost_wakeup n s k : reach true n s -> (forall i, at_ s i <> Held) -> waits (at_ s k) = true ->
  exists j s', exec true n s (Retry j) = Some s' /\ at_ s' j = Held.
Proof.
  intros R N W. pose proof (reach_inv n s R) as V.
  assert (L : locked s = false).
  { destruct (locked s) eqn:L; [|reflexivity]. apply (i_held _ _ V) in L. destruct L as [i H]. destruct (N i H). }
  destruct (i_wake _ _ V L k W) as [j J]. exists j, (take s j). cbn.
  destruct (at_ s j); try contradiction. rewrite L. split; [reflexivity|apply upd_same].
Qed.

Lemma notify_log s k : log (notify s k) = log s.
Proof. destruct k as [k|]; [|reflexivity]. cbn. destruct (at_ s k); reflexivity. Qed.
Lemma notify_locked s k : locked (notify s k) = locked s.
Proof. destruct k as [k|]; [|reflexivity]. cbn. destruct (at_ s k); reflexivity. Qed.

(** The history is one of a mutex, and the owner is the fiber that has it. *)
Definition hist (s : st) : Prop :=
  exists o, owner (log s) = Some o /\ (forall i, o = Some i -> at_ s i = Held) /\ (o = None -> locked s = false).

Lemma step_hist n s a s' : Inv n s -> hist s -> exec true n s a = Some s' -> hist s'.
Proof.
  intros V (o & O1 & O2 & O3) H.
  assert (F : locked s = false -> o = None).
  { intros L. destruct o as [k|]; [|reflexivity]. destruct (no_holder n s V L k (O2 k eq_refl)). }
  assert (G : forall i p, at_ s i <> Held -> hist (go s i p)).
  { intros i p N. exists o. split; [exact O1|]. split; [|exact O3]. intros k K. cbn.
    rewrite upd_other; [apply O2; exact K|]. intros ->. apply N, O2, K. }
  assert (T : forall i, locked s = false -> hist (take s i)).
  { intros i L. exists (Some i). cbn. rewrite O1, (F L). split; [reflexivity|]. split; [|discriminate].
    intros k K. injection K as <-. apply upd_same. }
  assert (U : forall i, at_ s i <> Held -> locked s = true -> hist (give_up s i)).
  { intros i N L. destruct o as [k|]; [|rewrite O3 in L by reflexivity; discriminate].
    assert (KI : k <> i) by (intros ->; apply N, O2; reflexivity).
    exists (Some k). cbn. rewrite O1. destruct (Nat.eqb_spec i k); [congruence|]. split; [reflexivity|]. split; [|discriminate].
    intros m M. injection M as <-. rewrite upd_other by exact KI. apply O2. reflexivity. }
  destruct a as [i|i|i|i k|i|i|i]; unfold exec in H.
  - destruct (Nat.ltb_spec i n) as [R|]; [|discriminate]. destruct (at_ s i) eqn:E; try discriminate. apply some_eq in H. subst s'.
    destruct (locked s) eqn:L; [apply G; congruence|apply T; reflexivity].
  - destruct (Nat.ltb_spec i n) as [R|]; [|discriminate]. destruct (at_ s i) eqn:E; try discriminate. apply some_eq in H. subst s'.
    destruct (locked s) eqn:L; [apply U; congruence|apply T; reflexivity].
  - destruct (Nat.ltb_spec i n) as [R|]; [|discriminate]. destruct (at_ s i) eqn:E; try discriminate. apply some_eq in H. subst s'.
    destruct (locked s) eqn:L; [apply G; congruence|apply T; reflexivity].
  - destruct ((i <? n) && can_notify n s k) eqn:C; [|discriminate].
    destruct (at_ s i) eqn:E; try discriminate. apply some_eq in H. subst s'.
    exists None. rewrite notify_log, notify_locked. cbn. rewrite O1.
    destruct o as [m|].
    + rewrite (i_one _ _ V m i (O2 m eq_refl) E), Nat.eqb_refl. split; [reflexivity|]. split; [discriminate|reflexivity].
    + destruct (no_holder n s V (O3 eq_refl) i E).
  - destruct (at_ s i) as [| |[]|] eqn:E; try discriminate. apply some_eq in H. subst s'. apply G. congruence.
  - destruct (at_ s i) as [| |t|] eqn:E; try discriminate. apply some_eq in H. subst s'. apply G. congruence.
  - destruct (at_ s i) as [| | |t x] eqn:E; try discriminate. apply some_eq in H. subst s'.
    destruct (locked s) eqn:L; [|apply T; reflexivity]. destruct x; [apply U; congruence|apply G; congruence].
Qed.

Lemma reach_hist n s : reach true n s -> hist s.
Proof.
  induction 1 as [|s a s' R IH H].
  - exists None. split; [reflexivity|]. split; [discriminate|reflexivity].
  - eapply step_hist; [apply reach_inv; exact R|exact IH|exact H].
Qed.

Theorem history n s : reach true n s -> exists o, owner (log s) = Some o /\ forall i, o = Some i <-> at_ s i = Held.
Proof.
  intros R. pose proof (reach_inv n s R) as V. destruct (reach_hist n s R) as (o & O1 & O2 & O3). exists o. split; [exact O1|].
  intros i. split; [apply O2|]. intros H. destruct o as [k|].
  - rewrite (i_one _ _ V k i (O2 k eq_refl) H). reflexivity.
  - destruct (no_holder n s V (O3 eq_refl) i H).
Qed.

(** Whoever is woken gets on. *)
Theorem woken_goes_on p n s i t x : at_ s i = Woken t x -> exists s', exec p n s (Retry i) = Some s' /\
  (at_ s' i = Held \/ at_ s' i = Idle /\ x = true \/ at_ s' i = Waiting t /\ x = false).
Proof.
  intros E. cbn. rewrite E. eexists. split; [reflexivity|]. destruct (locked s); [destruct x|]; cbn; rewrite upd_same; auto.
Qed.

Lemma run_reach p n l : forall s s', reach p n s -> run p n s l = Some s' -> reach p n s'.
Proof.
  induction l as [|a r IH]; cbn; intros s s' R H; [injection H as <-; exact R|].
  destruct (exec p n s a) as [s1|] eqn:E; [|discriminate]. eapply IH; [|exact H]. eapply reach_step; eassumption.
Qed.

Theorem foreign_unlock : exists s, reach false 3 s /\ at_ s 0 = Held /\ at_ s 2 = Held /\ owner (log s) = None.
Proof.
  destruct (run false 3 init [Lock 0; Unlock 1 None; Lock 2]) as [s|] eqn:E; [|vm_compute in E; discriminate].
  exists s. split; [eapply run_reach; [apply reach_init|exact E]|]. vm_compute in E. injection E as <-. repeat split.
Qed.

(** One round in which fiber 0 overtakes fiber 1. *)
Lemma round s : at_ s 1 = Waiting false -> at_ s 0 = Held -> exists s1,
  run true 2 s [Unlock 0 (Some 1); Lock 0; Retry 1] = Some s1 /\
  at_ s1 1 = Waiting false /\ at_ s1 0 = Held /\ log s1 = Took 0 :: Released 0 :: log s.
Proof.
  intros A B. cbn. repeat progress (rewrite ?A, ?B; cbn). eexists. split; [reflexivity|]. cbn. auto.
Qed.

Lemma run_app p n l1 : forall s l2, run p n s (l1 ++ l2) = match run p n s l1 with Some s' => run p n s' l2 | None => None end.
Proof. induction l1 as [|a r IH]; cbn; intros s l2; [reflexivity|]. destruct (exec p n s a); [apply IH|reflexivity]. Qed.

(** A fiber may be overtaken as often as one likes. *)
Theorem overtaken m : exists s s' l, reach true 2 s /\ at_ s 1 = Waiting false /\ run true 2 s l = Some s' /\
  at_ s' 1 = Waiting false /\ log s' = concat (repeat [Took 0; Released 0] m) ++ log s.
Proof.
  destruct (run true 2 init [Lock 0; Lock 1]) as [s|] eqn:E; [|vm_compute in E; discriminate].
  assert (R : reach true 2 s) by (eapply run_reach; [apply reach_init|exact E]).
  assert (G : at_ s 1 = Waiting false /\ at_ s 0 = Held) by (vm_compute in E; injection E as <-; split; reflexivity).
  destruct G as [A B]. exists s.
  cut (exists s' l, run true 2 s l = Some s' /\ at_ s' 1 = Waiting false /\ at_ s' 0 = Held /\ log s' = concat (repeat [Took 0; Released 0] m) ++ log s).
  { intros (s' & l & Q1 & Q2 & Q3 & Q4). exists s', l. auto 6. }
  induction m as [|m IH]; [exists s, []; cbn; auto|]. destruct IH as (s' & l & Q1 & Q2 & Q3 & Q4).
  destruct (round s' Q2 Q3) as (s1 & P1 & P2 & P3 & P4).
  exists s1, (l ++ [Unlock 0 (Some 1); Lock 0; Retry 1]). rewrite run_app, Q1. split; [exact P1|]. split; [exact P2|].
  split; [exact P3|]. rewrite P4, Q4. reflexivity.
Qed.
