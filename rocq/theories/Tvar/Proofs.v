(** The protocol, for every kind of variable whose words represent values. *)
From Coq Require Import List ZArith Bool Lia Arith.
From Verif.Lib Require Import Count.
From Verif.Tvar Require Import Model Spec.
Import ListNotations.
Open Scope nat_scope.

Lemma put_split {A} (l : list A) i t : nth_error l i = Some t ->
  exists l1 l2, l = l1 ++ t :: l2 /\ length l1 = i /\ forall x, put i x l = l1 ++ x :: l2.
Proof.
  revert i. induction l as [|y l IH]; intros [|i] H; cbn in H; try discriminate.
  - injection H as ->. exists [], l. repeat split.
  - destruct (IH i H) as (l1 & l2 & -> & E & P). exists (y :: l1), l2. cbn. rewrite E. repeat split.
    intros x. rewrite P. reflexivity.
Qed.
Lemma nth_put {A} (l : list A) i j x : nth_error (put i x l) j =
  if Nat.eqb i j then match nth_error l j with Some _ => Some x | None => None end else nth_error l j.
Proof.
  revert i j. induction l as [|y l IH]; intros [|i] [|j]; cbn; try reflexivity.
  - destruct (Nat.eqb i j); reflexivity.
  - apply IH.
Qed.
Lemma put_length {A} (l : list A) i x : length (put i x l) = length l.
Proof. revert i. induction l as [|y l IH]; intros [|i]; cbn; auto. Qed.

Definition heldp (p : Z -> bool) (l : list tls) : nat := cnt p (concat (map held l)).
Definition leavep (p : Z -> bool) (l : list tls) : nat :=
  cnt p (concat (map (fun t => match alive t with Leaving => held t | _ => [] end) l)).
Lemma heldp_app p a b : heldp p (a ++ b) = heldp p a + heldp p b.
Proof. unfold heldp. rewrite map_app, concat_app, cnt_app. reflexivity. Qed.
Lemma heldp_cons p t l : heldp p (t :: l) = cnt p (held t) + heldp p l.
Proof. unfold heldp. cbn [map concat]. rewrite cnt_app. reflexivity. Qed.
Lemma leavep_app p a b : leavep p (a ++ b) = leavep p a + leavep p b.
Proof. unfold leavep. rewrite map_app, concat_app, cnt_app. reflexivity. Qed.
Lemma leavep_cons p t l : leavep p (t :: l) = cnt p (match alive t with Leaving => held t | _ => [] end) + leavep p l.
Proof. unfold leavep. cbn [map concat]. rewrite cnt_app. reflexivity. Qed.

(** The values of the threads with the given indices. *)
Definition held_at (p : Z -> bool) (ts : list tls) (i : nat) : nat :=
  match nth_error ts i with Some t => cnt p (held t) | None => 0 end.
Fixpoint wsum (p : Z -> bool) (l : list nat) (ts : list tls) : nat :=
  match l with [] => 0 | i :: m => held_at p ts i + wsum p m ts end.

Lemma held_at_put p ts i j t t' : nth_error ts i = Some t ->
  held_at p (put i t' ts) j = if Nat.eqb i j then cnt p (held t') else held_at p ts j.
Proof.
  intros H. unfold held_at. rewrite nth_put. destruct (Nat.eqb_spec i j) as [<-|]; [rewrite H|]; reflexivity.
Qed.
Lemma wsum_other p l ts i t t' : nth_error ts i = Some t -> ~ In i l -> wsum p l (put i t' ts) = wsum p l ts.
Proof.
  intros H. induction l as [|j l IH]; cbn [wsum In]; intros N; [reflexivity|].
  rewrite (held_at_put p ts i j t t' H). destruct (Nat.eqb_spec i j) as [<-|]; [tauto|]. rewrite IH by tauto. reflexivity.
Qed.
Lemma wsum_put p l ts i t t' : nth_error ts i = Some t -> NoDup l ->
  wsum p l (put i t' ts) + (if existsb (Nat.eqb i) l then cnt p (held t) else 0) =
  wsum p l ts + (if existsb (Nat.eqb i) l then cnt p (held t') else 0).
Proof.
  intros H. induction l as [|j l IH]; cbn [wsum existsb]; intros N; [reflexivity|].
  inversion N as [|? ? N1 N2]; subst. rewrite (held_at_put p ts i j t t' H).
  destruct (Nat.eqb_spec i j) as [<-|]; cbn [orb].
  - rewrite (wsum_other p l ts i t t' H N1). unfold held_at. rewrite H. lia.
  - specialize (IH N2). destruct (existsb (Nat.eqb i) l); lia.
Qed.
Lemma wsum_snoc p l ts t : (forall i, In i l -> i < length ts) -> wsum p l (ts ++ [t]) = wsum p l ts.
Proof.
  induction l as [|j l IH]; cbn [wsum]; intros N; [reflexivity|]. rewrite IH by (intros i I; apply N; right; exact I).
  unfold held_at. rewrite nth_error_app1 by (apply N; left; reflexivity). reflexivity.
Qed.

Definition listp (p : Z -> bool) (l : list tls) : nat :=
  cnt p (concat (map (fun t => if listed t then held t else []) l)).

Lemma wsum_indices_gen p ts : forall pre,
  wsum p (filter (fun i => match nth_error (pre ++ ts) i with Some t => listed t | None => false end) (seq (length pre) (length ts))) (pre ++ ts)
  = listp p ts.
Proof.
  induction ts as [|t ts IH]; intros pre; [reflexivity|]. cbn [length seq filter].
  rewrite nth_error_app2, Nat.sub_diag by lia. cbn [nth_error].
  specialize (IH (pre ++ [t])). rewrite <- app_assoc in IH. cbn [app] in IH. rewrite app_length in IH. cbn [length] in IH.
  rewrite Nat.add_1_r in IH. unfold listp. cbn [map concat]. rewrite cnt_app. change (cnt p (concat (map _ ts))) with (listp p ts).
  destruct (listed t); cbn [wsum].
  - rewrite IH. unfold held_at. rewrite nth_error_app2, Nat.sub_diag by lia. reflexivity.
  - rewrite IH. reflexivity.
Qed.
Lemma wsum_indices p ts : wsum p (indices ts) ts = listp p ts.
Proof. exact (wsum_indices_gen p ts []). Qed.
Lemma indices_in ts i : In i (indices ts) -> exists t, nth_error ts i = Some t /\ alive t = Listed.
Proof.
  intros H. apply filter_In in H. destruct H as (_ & H). destruct (nth_error ts i) as [t|]; [|discriminate].
  exists t. split; [reflexivity|]. unfold listed in H. destruct (alive t); [reflexivity|discriminate..].
Qed.
Lemma indices_nodup ts : NoDup (indices ts).
Proof. apply NoDup_filter, seq_NoDup. Qed.
Lemma indices_gen_length ts : forall pre,
  length (filter (fun i => match nth_error (pre ++ ts) i with Some t => listed t | None => false end) (seq (length pre) (length ts)))
  = cnt listed ts.
Proof.
  induction ts as [|t ts IH]; intros pre; [reflexivity|]. cbn [length seq filter cnt].
  rewrite nth_error_app2, Nat.sub_diag by lia. cbn [nth_error].
  specialize (IH (pre ++ [t])). rewrite <- app_assoc in IH. cbn [app] in IH. rewrite app_length in IH. cbn [length] in IH.
  rewrite Nat.add_1_r in IH. destruct (listed t); cbn [length b2n]; rewrite IH; lia.
Qed.
Lemma indices_length ts : length (indices ts) = cnt listed ts.
Proof. exact (indices_gen_length ts []). Qed.

(** All actions that change one thread. *)
Ltac one_thread :=
  match goal with
  | H : nth_error _ _ = Some ?t |- _ =>
      let l1 := fresh "l1" in let l2 := fresh "l2" in let E := fresh "E" in let L := fresh "L" in let P := fresh "P" in
      destruct (put_split _ _ _ H) as (l1 & l2 & E & L & P)
  end.

Section Protocol.
Variable R : Type.
Variable k : kind R.
Variable right : list Z -> R.
Variable rep : Z -> list Z -> Prop.
Hypothesis H_id : rep (b_id k) [].
Hypothesis H_rid : right [] = r_id k.
Hypothesis H_merge : forall l b g, rep b g -> merge k (right l) b = right (l ++ g).
Hypothesis H_plan : forall n g v n', rep n g -> plan k n v = Some n' -> rep n' (g ++ [v]).
Hypothesis H_none : forall n v, plan k n v = None -> b_id k = 0%Z /\ forall w, plan k 0 w <> None.

Definition thread_ok (t : tls) : Prop :=
  (alive t <> Gone -> rep (buf t) (held t)) /\
  (alive t = Gone -> held t = []) /\
  (alive t <> Listed -> pc t = Idle) /\
  (forall v, pc t = Commit v -> b_id k = 0%Z /\ forall w, plan k 0 w <> None) /\
  (cas k = false -> forall v n, pc t = Loaded v n -> n = buf t).

Definition reader_ok (ts : list tls) (r : reader R) : Prop :=
  acc r = right (gacc r) /\ (resets r = true -> cas k = true) /\
  match todo r with
  | Some l => NoDup l /\ forall i, In i l -> exists t, nth_error ts i = Some t /\ alive t = Listed
  | None => True
  end.

Definition inv (s : st R) : Prop :=
  comb s = right (chel s) /\ Forall thread_ok (ths s) /\
  match rdr s with Some r => reader_ok (ths s) r | None => True end.

Lemma inv_init : inv (init k).
Proof. repeat split; [symmetry; exact H_rid|constructor]. Qed.

Lemma put_ok ts i t t' : Forall thread_ok ts -> nth_error ts i = Some t -> thread_ok t' -> Forall thread_ok (put i t' ts).
Proof.
  intros F H O. destruct (put_split ts i t H) as (l1 & l2 & -> & L & P). rewrite P.
  apply Forall_app in F. destruct F as (F1 & F2). inversion F2; subst. apply Forall_app. split; [exact F1|]. constructor; assumption.
Qed.
Lemma nth_ok ts i t : Forall thread_ok ts -> nth_error ts i = Some t -> thread_ok t.
Proof. intros F H. apply nth_error_In in H. exact (proj1 (Forall_forall _ _) F t H). Qed.

Lemma reader_put ts r i t t' : nth_error ts i = Some t -> (alive t = Listed -> alive t' = Listed) -> reader_ok ts r -> reader_ok (put i t' ts) r.
Proof.
  intros H A (E & C & T). split; [exact E|]. split; [exact C|]. destruct (todo r) as [l|]; [|exact I]. destruct T as (N & T).
  split; [exact N|]. intros j J. destruct (T j J) as (u & U1 & U2). rewrite nth_put.
  destruct (Nat.eqb_spec i j) as [<-|]; [|exists u; auto]. rewrite U1. exists t'. rewrite H in U1. injection U1 as <-. auto.
Qed.
Lemma readers_put (s : st R) i t t' : nth_error (ths s) i = Some t -> (alive t = Listed -> alive t' = Listed) ->
  match rdr s with Some r => reader_ok (ths s) r | None => True end ->
  match rdr s with Some r => reader_ok (put i t' (ths s)) r | None => True end.
Proof. intros H A T. destruct (rdr s) as [r|]; [|exact I]. exact (reader_put _ _ _ _ _ H A T). Qed.

Lemma leaving_put (s : st R) i t' : visiting s = false ->
  match rdr s with Some r => reader_ok (ths s) r | None => True end ->
  match rdr s with Some r => reader_ok (put i t' (ths s)) r | None => True end.
Proof.
  unfold visiting. destruct (rdr s) as [r|]; [|auto]. intros V (E & C & T). split; [exact E|]. split; [exact C|].
  destruct (todo r); [discriminate|exact I].
Qed.

Lemma step_inv a s s' o : inv s -> (begins_reset a = true -> cas k = true) -> step k a s = Some (s', o) -> inv s'.
Proof.
  intros (Ic & It & Ir) HR.
  Ltac thr := unfold thread_ok; cbn [buf pc alive held goto become hold]; repeat split; try congruence; auto;
    try match goal with
    | O1 : _ <> Gone -> rep _ _ |- _ => intros _; apply O1; congruence
    | O3 : alive _ <> Listed -> _ |- _ => let X := fresh in intros X; specialize (O3 X); congruence
    end.
  destruct a as [|i v|i|i|i|reset| | |]; cbn [step].
  - destruct (visiting s) eqn:V; [discriminate|]. intros [= <- <-]. unfold inv. cbn [comb chel ths rdr with_ths].
    split; [exact Ic|]. split.
    + apply Forall_app. split; [exact It|]. constructor; [|constructor]. unfold thread_ok. cbn. repeat split; try congruence.
    + unfold visiting in V. destruct (rdr s) as [r|]; [|exact I]. destruct Ir as (E & C & _). split; [exact E|]. split; [exact C|].
      destruct (todo r); [discriminate|exact I].
  - destruct (nth_error (ths s) i) as [t|] eqn:N; [|discriminate]. pose proof (nth_ok _ _ _ It N) as (O1 & O2 & O3 & O4 & O5).
    destruct (pc t) eqn:P; try discriminate. destruct (alive t) eqn:A; try discriminate. intros [= <- <-].
    unfold inv. cbn [comb chel ths rdr with_th with_ths]. split; [exact Ic|]. split.
    + eapply put_ok; [exact It|exact N|]. thr.
    + eapply readers_put; [exact N| |exact Ir]. auto.
  - destruct (nth_error (ths s) i) as [t|] eqn:N; [|discriminate]. pose proof (nth_ok _ _ _ It N) as O. destruct O as (O1 & O2 & O3 & O4 & O5).
    assert (PL : pc t <> Idle -> alive t = Listed).
    { intros X. destruct (alive t); [reflexivity|..]; exfalso; apply X, O3; discriminate. }
    unfold update. destruct (pc t) as [|v|v n|v] eqn:P.
    + discriminate.
    + intros [= <- <-]. unfold inv. cbn [comb chel ths rdr with_th with_ths]. split; [exact Ic|]. split.
      * eapply put_ok; [exact It|exact N|]. thr.
      * eapply readers_put; [exact N| |exact Ir]. auto.
    + specialize (PL ltac:(discriminate)). destruct (plan k n v) as [n'|] eqn:PN.
      * destruct (negb (cas k) || (buf t =? n)%Z) eqn:C.
        -- assert (E : buf t = n).
           { destruct (cas k) eqn:CK; cbn [negb orb] in C; [lia|]. symmetry. eapply O5; reflexivity. }
           intros [= <- <-]. unfold inv. cbn [comb chel ths rdr with_th with_ths with_fin]. split; [exact Ic|]. split.
           ++ eapply put_ok; [exact It|exact N|]. thr. intros _. eapply H_plan; [|exact PN]. rewrite <- E. apply O1. congruence.
           ++ eapply readers_put; [exact N| |exact Ir]. auto.
        -- intros [= <- <-]. unfold inv. cbn [comb chel ths rdr with_th with_ths]. split; [exact Ic|]. split.
           ++ eapply put_ok; [exact It|exact N|]. thr.
           ++ eapply readers_put; [exact N| |exact Ir]. auto.
      * intros [= <- <-]. unfold inv. cbn [comb chel ths rdr with_th with_ths]. split; [exact Ic|]. split.
        -- eapply put_ok; [exact It|exact N|]. thr; eapply H_none; exact PN.
        -- eapply readers_put; [exact N| |exact Ir]. auto.
    + specialize (PL ltac:(discriminate)). destruct (rdr s) as [r|] eqn:RD; [discriminate|]. intros [= <- <-].
      unfold inv. cbn [comb chel ths rdr with_th with_ths with_comb]. rewrite RD. split; [rewrite Ic; apply H_merge, O1; congruence|].
      split; [|exact I]. destruct (O4 v eq_refl) as (B0 & _).
      eapply put_ok; [exact It|exact N|]. thr.
  - destruct (nth_error (ths s) i) as [t|] eqn:N; [|discriminate]. pose proof (nth_ok _ _ _ It N) as (O1 & O2 & O3 & O4 & O5).
    destruct (pc t) eqn:P; try discriminate. destruct (alive t) eqn:A; try discriminate. destruct (visiting s) eqn:V; [discriminate|].
    intros [= <- <-]. unfold inv. cbn [comb chel ths rdr with_th with_ths]. split; [exact Ic|]. split.
    + eapply put_ok; [exact It|exact N|]. thr.
    + apply leaving_put; assumption.
  - destruct (nth_error (ths s) i) as [t|] eqn:N; [|discriminate]. pose proof (nth_ok _ _ _ It N) as (O1 & O2 & O3 & O4 & O5).
    destruct (alive t) eqn:A; try discriminate. destruct (rdr s) as [r|] eqn:RD; [discriminate|]. intros [= <- <-].
    unfold inv. cbn [comb chel ths rdr with_th with_ths with_comb]. rewrite RD. split; [rewrite Ic; apply H_merge, O1; discriminate|].
    split; [|exact I]. eapply put_ok; [exact It|exact N|]. thr.
    all: try (intros _; apply O3; discriminate). all: eapply O4; eassumption.
  - destruct (rdr s) as [r|] eqn:RD; [discriminate|]. intros [= <- <-]. unfold inv. destruct reset; cbn [comb chel ths rdr with_rdr with_comb].
    + split; [symmetry; exact H_rid|]. split; [exact It|]. split; [exact Ic|]. split; [|exact I]. intros _. exact (HR eq_refl).
    + split; [exact Ic|]. split; [exact It|]. split; [exact Ic|]. split; [discriminate|exact I].
  - destruct (rdr s) as [r|] eqn:RD; [|discriminate]. destruct (todo r) eqn:T; [discriminate|]. intros [= <- <-].
    destruct Ir as (E & C & _). unfold inv. cbn [comb chel ths rdr with_rdr]. split; [exact Ic|]. split; [exact It|].
    split; [exact E|]. split; [exact C|]. cbn [todo]. split; [apply indices_nodup|]. intros i. apply indices_in.
  - destruct (rdr s) as [r|] eqn:RD; [|discriminate]. destruct (todo r) as [[|i l]|] eqn:T; try discriminate.
    destruct (nth_error (ths s) i) as [t|] eqn:N; [|discriminate]. intros [= <- <-].
    destruct Ir as (E & C & TD). rewrite T in TD. destruct TD as (ND & TD). inversion ND as [|? ? ND1 ND2]; subst.
    pose proof (nth_ok _ _ _ It N) as (O1 & O2 & O3 & O4 & O5).
    destruct (TD i (or_introl eq_refl)) as (u & U1 & U2). rewrite N in U1. injection U1 as <-.
    assert (M : merge k (acc r) (buf t) = right (gacc r ++ held t)) by (rewrite E; apply H_merge, O1; congruence).
    unfold inv. destruct (resets r) eqn:RS; cbn [comb chel ths rdr with_rdr with_th with_ths].
    + split; [exact Ic|]. split.
      * eapply put_ok; [exact It|exact N|]. thr. all: try (eapply O4; eassumption). all: intros CF; rewrite (C eq_refl) in CF; discriminate.
      * split; [exact M|]. split; [exact C|]. cbn [todo]. split; [exact ND2|].
        intros j J. rewrite nth_put. destruct (Nat.eqb_spec i j) as [<-|]; [contradiction|]. apply TD. right. exact J.
    + split; [exact Ic|]. split; [exact It|]. split; [exact M|]. split; [exact C|]. cbn [todo]. split; [exact ND2|].
      intros j J. apply TD. right. exact J.
  - destruct (rdr s) as [r|] eqn:RD; [|discriminate]. destruct (todo r) as [[|i l]|] eqn:T; try discriminate. intros [= <- <-].
    unfold inv. cbn [comb chel ths rdr with_rdr]. auto.
Qed.

(** Every value is counted once. *)
Definition out_given (o : option (ret R)) : list Z :=
  match o with Some x => if was_reset x then values x else [] | None => [] end.

Definition gaccp (p : Z -> bool) (s : st R) : nat :=
  match rdr s with Some r => if resets r then cnt p (gacc r) else 0 | None => 0 end.

Lemma pending_cnt p (s : st R) : cnt p (pending s) = gaccp p s + (cnt p (chel s) + heldp p (ths s)).
Proof. unfold pending, gaccp, heldp. rewrite !cnt_app. destruct (rdr s) as [r|]; [destruct (resets r)|]; reflexivity. Qed.

Lemma step_once a s s' o p : step k a s = Some (s', o) ->
  cnt p (fin s) + cnt p (pending s') + cnt p (out_given o) = cnt p (fin s') + cnt p (pending s).
Proof.
  intros H. rewrite !pending_cnt. unfold gaccp. destruct a as [|i v|i|i|i|reset| | |]; cbn [step] in H.
  - destruct (visiting s); [discriminate|]. injection H as <- <-. cbn [chel ths rdr fin with_ths out_given cnt].
    rewrite heldp_app, heldp_cons. cbn [held cnt]. change (heldp p []) with 0. lia.
  - destruct (nth_error (ths s) i) as [t|] eqn:N; [|discriminate].
    destruct (pc t) eqn:P; try discriminate. destruct (alive t) eqn:A; try discriminate. injection H as <- <-.
    one_thread. cbn [chel ths rdr fin with_th with_ths out_given cnt]. rewrite P0, E, !heldp_app, !heldp_cons. cbn [held goto]. lia.
  - destruct (nth_error (ths s) i) as [t|] eqn:N; [|discriminate]. one_thread. unfold update in H.
    destruct (pc t) as [|v|v n|v] eqn:P0.
    + discriminate.
    + injection H as <- <-. cbn [chel ths rdr fin with_th with_ths out_given cnt]. rewrite P, E, !heldp_app, !heldp_cons. cbn [held goto]. lia.
    + destruct (plan k n v) as [n'|]; [destruct (negb (cas k) || (buf t =? n)%Z)|]; injection H as <- <-;
        cbn [chel ths rdr fin with_th with_ths with_fin out_given cnt]; rewrite P, E, !heldp_app, !heldp_cons; cbn [held goto hold];
        rewrite ?cnt_app; cbn [cnt]; lia.
    + destruct (rdr s) as [r|] eqn:RD; [discriminate|]. injection H as <- <-. cbn [chel ths rdr fin with_th with_ths with_comb out_given cnt].
      rewrite RD, P, E, !heldp_app, !heldp_cons, !cnt_app. cbn [held goto hold cnt]. lia.
  - destruct (nth_error (ths s) i) as [t|] eqn:N; [|discriminate].
    destruct (pc t) eqn:P; try discriminate. destruct (alive t) eqn:A; try discriminate. destruct (visiting s); [discriminate|].
    injection H as <- <-. one_thread. cbn [chel ths rdr fin with_th with_ths out_given cnt]. rewrite P0, E, !heldp_app, !heldp_cons. cbn [held become]. lia.
  - destruct (nth_error (ths s) i) as [t|] eqn:N; [|discriminate].
    destruct (alive t) eqn:A; try discriminate. destruct (rdr s) as [r|] eqn:RD; [discriminate|].
    injection H as <- <-. one_thread. cbn [chel ths rdr fin with_th with_ths with_comb out_given cnt].
    rewrite RD, P, E, !heldp_app, !heldp_cons, !cnt_app. cbn [held become hold cnt]. lia.
  - destruct (rdr s) as [r|] eqn:RD; [discriminate|]. injection H as <- <-.
    destruct reset; cbn [chel ths rdr fin with_rdr with_comb out_given cnt resets gacc]; lia.
  - destruct (rdr s) as [r|] eqn:RD; [|discriminate]. destruct (todo r) eqn:T; [discriminate|]. injection H as <- <-.
    cbn [chel ths rdr fin with_rdr out_given cnt resets gacc]. lia.
  - destruct (rdr s) as [r|] eqn:RD; [|discriminate]. destruct (todo r) as [[|i l]|] eqn:T; try discriminate.
    destruct (nth_error (ths s) i) as [t|] eqn:N; [|discriminate]. injection H as <- <-. one_thread.
    destruct (resets r); cbn [chel ths rdr fin with_rdr with_th with_ths out_given cnt resets gacc].
    + rewrite P, E, !heldp_app, !heldp_cons, !cnt_app. cbn [held hold cnt]. lia.
    + lia.
  - destruct (rdr s) as [r|] eqn:RD; [|discriminate]. destruct (todo r) as [[|i l]|] eqn:T; try discriminate. injection H as <- <-.
    cbn [chel ths rdr fin with_rdr out_given cnt was_reset values]. destruct (resets r); cbn [cnt]; lia.
Qed.

Lemma step_ret a s s' x : inv s -> step k a s = Some (s', Some x) -> value x = right (values x) /\ (was_reset x = true -> cas k = true).
Proof.
  intros (_ & _ & Ir) H. destruct a as [|i v|i|i|i|reset| | |]; cbn [step] in H;
    try (repeat (match type of H with context [match ?y with _ => _ end] => destruct y end); discriminate).
  destruct (rdr s) as [r|] eqn:RD; [|discriminate]. destruct (todo r) as [[|i l]|]; try discriminate. injection H as <- <-.
  cbn [value values was_reset]. destruct Ir as (E & C & _). auto.
Qed.

Lemma run_inv l : forall s s' rs, inv s -> (cas k = true \/ existsb begins_reset l = false) -> run k l s = Some (s', rs) ->
  inv s' /\ Forall (fun x => value x = right (values x)) rs.
Proof.
  induction l as [|a l IH]; cbn [run existsb]; intros s s' rs Iv HC H.
  - injection H as <- <-. auto.
  - destruct (step k a s) as [[s1 o]|] eqn:S1; [|discriminate]. destruct (run k l s1) as [[s2 rs2]|] eqn:R1; [|discriminate]. injection H as <- <-.
    assert (HA : begins_reset a = true -> cas k = true).
    { intros X. destruct HC as [HC|HC]; [exact HC|]. rewrite X in HC. discriminate. }
    pose proof (step_inv a s s1 o Iv HA S1) as I1.
    destruct (IH s1 s2 rs2 I1) as (I2 & F); [|exact R1|].
    { destruct HC as [HC|HC]; [left; exact HC|right]. apply orb_false_iff in HC. tauto. }
    split; [exact I2|]. destruct o as [x|]; [|exact F]. constructor; [|exact F]. exact (proj1 (step_ret a s s1 x Iv S1)).
Qed.

Lemma run_once l p : forall s s' rs, run k l s = Some (s', rs) ->
  cnt p (fin s) + cnt p (pending s') + cnt p (given rs) = cnt p (fin s') + cnt p (pending s).
Proof.
  induction l as [|a l IH]; cbn [run]; intros s s' rs H.
  - injection H as <- <-. cbn. lia.
  - destruct (step k a s) as [[s1 o]|] eqn:S1; [|discriminate]. destruct (run k l s1) as [[s2 rs2]|] eqn:R1; [|discriminate]. injection H as <- <-.
    pose proof (step_once a s s1 o p S1) as Q. pose proof (IH _ _ _ R1) as Q2.
    destruct o as [x|]; cbn [out_given] in Q; [|cbn in Q; lia].
    unfold given in *. cbn [map concat]. rewrite cnt_app. lia.
Qed.
End Protocol.
