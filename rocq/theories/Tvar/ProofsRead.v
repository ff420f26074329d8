(** What GetValue() sees, and calls that run alone. *)
From Coq Require Import List ZArith Bool Lia Arith.
From Verif.Lib Require Import Count.
From Verif.Tvar Require Import Model Spec Proofs.
Import ListNotations.
Open Scope nat_scope.

Lemma listp_app p a b : listp p (a ++ b) = listp p a + listp p b.
Proof. unfold listp. rewrite map_app, concat_app, cnt_app. reflexivity. Qed.
Lemma listp_cons p t l : listp p (t :: l) = cnt p (if listed t then held t else []) + listp p l.
Proof. unfold listp. cbn [map concat]. rewrite cnt_app. reflexivity. Qed.

Section Read.
Variable R : Type.
Variable k : kind R.
Variable right : list Z -> R.
Variable rep : Z -> list Z -> Prop.
Hypothesis H_id : rep (b_id k) [].
Hypothesis H_rid : right [] = r_id k.
Hypothesis H_merge : forall l b g, rep b g -> merge k (right l) b = right (l ++ g).
Hypothesis H_plan : forall n g v n', rep n g -> plan k n v = Some n' -> rep n' (g ++ [v]).
Hypothesis H_none : forall n v, plan k n v = None -> b_id k = 0%Z /\ forall w, plan k 0 w <> None.
Notation inv := (Proofs.inv R k right rep).
Notation thread_ok := (Proofs.thread_ok R k rep).

Lemma split_life p ts : Forall thread_ok ts -> heldp p ts = listp p ts + leavep p ts.
Proof.
  induction 1 as [|t ts O F IH]; [reflexivity|]. rewrite heldp_cons, listp_cons, leavep_cons, IH.
  destruct O as (_ & O2 & _). unfold listed. destruct (alive t); cbn [cnt]; [lia|lia|]. rewrite (O2 eq_refl). cbn [cnt]. lia.
Qed.

Definition unv (p : Z -> bool) (s : st R) (r : reader R) : nat :=
  match todo r with Some l => wsum p l (ths s) | None => listp p (ths s) end.

Definition reading (P0 : list Z) (s : st R) : Prop :=
  exists r, rdr s = Some r /\ resets r = false /\ forall p,
    cnt p P0 <= cnt p (gacc r) + unv p s r + leavep p (ths s) <= cnt p (chel s) + heldp p (ths s).

Lemma wsum_same p l ts i t t' : nth_error ts i = Some t -> NoDup l -> held t' = held t -> wsum p l (put i t' ts) = wsum p l ts.
Proof. intros H N E. pose proof (wsum_put p l ts i t t' H N) as Q. rewrite E in Q. destruct (existsb (Nat.eqb i) l); lia. Qed.

Lemma unv_put p s r i t t' : nth_error (ths s) i = Some t -> alive t' = alive t -> held t' = held t ->
  match todo r with Some l => NoDup l | None => True end -> unv p (with_th i t' s) r = unv p s r.
Proof.
  intros H A E N. unfold unv. cbn [ths with_th with_ths]. destruct (todo r) as [l|].
  - exact (wsum_same p l (ths s) i t t' H N E).
  - one_thread. rewrite P, E0, !listp_app, !listp_cons. unfold listed. rewrite A, E. reflexivity.
Qed.
Lemma same_sums p (s : st R) i t t' : nth_error (ths s) i = Some t -> alive t' = alive t -> held t' = held t ->
  heldp p (put i t' (ths s)) = heldp p (ths s) /\ leavep p (put i t' (ths s)) = leavep p (ths s).
Proof.
  intros H A E. one_thread. rewrite P, E0, !heldp_app, !heldp_cons, !leavep_app, !leavep_cons, A, E. split; reflexivity.
Qed.

Lemma step_reading P0 a s s' o : inv s -> reading P0 s -> returns a = false -> step k a s = Some (s', o) -> reading P0 s' /\ o = None.
Proof.
  intros (Ic & It & Ir) (r & RD & RS & B) NR H. rewrite RD in Ir. destruct Ir as (Ea & Er & Et).
  assert (ND : match todo r with Some l => NoDup l | None => True end) by (destruct (todo r); [tauto|exact I]).
  destruct a as [|i v|i|i|i|reset| | |]; cbn [step] in H; try discriminate.
  - destruct (visiting s) eqn:V; [discriminate|]. injection H as <- <-. split; [|reflexivity]. exists r. cbn [rdr with_ths chel ths].
    split; [exact RD|]. split; [exact RS|]. intros p. specialize (B p). unfold visiting in V. rewrite RD in V. unfold unv in *.
    destruct (todo r); [discriminate|]. cbn [ths with_ths]. rewrite listp_app, listp_cons, leavep_app, leavep_cons, heldp_app, heldp_cons.
    cbn [alive listed held cnt]. change (heldp p []) with 0. change (listp p []) with 0. change (leavep p []) with 0. lia.
  - destruct (nth_error (ths s) i) as [t|] eqn:N; [|discriminate]. destruct (pc t); try discriminate. destruct (alive t) eqn:A; try discriminate.
    injection H as <- <-. split; [|reflexivity]. exists r. split; [exact RD|]. split; [exact RS|]. intros p. specialize (B p).
    rewrite (unv_put p s r i t) by (auto; exact ND). cbn [chel ths with_th with_ths].
    destruct (same_sums p s i t (goto (Start v) t) N eq_refl eq_refl) as (-> & ->). exact B.
  - destruct (nth_error (ths s) i) as [t|] eqn:N; [|discriminate].
    pose proof (nth_ok _ _ _ _ _ _ It N) as (O1 & O2 & O3 & O4 & O5).
    assert (PL : pc t <> Idle -> alive t = Listed).
    { intros X. destruct (alive t); [reflexivity|..]; exfalso; apply X, O3; discriminate. }
    unfold update in H.
    assert (SAME : forall t', alive t' = alive t -> held t' = held t -> reading P0 (with_th i t' s)).
    { intros t' A1 E1. exists r. split; [exact RD|]. split; [exact RS|]. intros p. specialize (B p).
      rewrite (unv_put p s r i t t' N A1 E1 ND). cbn [chel ths with_th with_ths]. destruct (same_sums p s i t t' N A1 E1) as (-> & ->). exact B. }
    destruct (pc t) as [|v|v n|v] eqn:P0'.
    + discriminate.
    + injection H as <- <-. split; [|reflexivity]. apply SAME; reflexivity.
    + specialize (PL ltac:(discriminate)).
      destruct (plan k n v) as [n'|]; [destruct (negb (cas k) || (buf t =? n)%Z)|]; injection H as <- <-; (split; [|reflexivity]); [|apply SAME; reflexivity..].
      exists r. split; [exact RD|]. split; [exact RS|]. intros p. specialize (B p). cbn [chel ths with_fin with_th with_ths].
      set (t' := hold n' (held t ++ [v]) (goto Idle t)).
      assert (U : cnt p (held t') = cnt p (held t) + b2n (p v)) by (subst t'; cbn [held hold goto]; rewrite cnt_app; cbn [cnt]; lia).
      assert (A' : alive t' = Listed) by exact PL.
      assert (W : unv p s r <= unv p (with_fin (fin s ++ [v]) (with_th i t' s)) r <= unv p s r + b2n (p v)).
      { unfold unv. cbn [ths with_fin with_th with_ths]. destruct (todo r) as [l|].
        - pose proof (wsum_put p l (ths s) i t t' N ND) as Q. destruct (existsb (Nat.eqb i) l); lia.
        - one_thread. rewrite P, E, !listp_app, !listp_cons. unfold listed. rewrite A', PL. lia. }
      clearbody t'. one_thread. rewrite P. rewrite E in B. rewrite E in *.
      rewrite leavep_app, leavep_cons, heldp_app, heldp_cons, A'. rewrite leavep_app, leavep_cons, heldp_app, heldp_cons, PL in B.
      cbn [cnt] in *. lia.
    + rewrite RD in H. discriminate.
  - destruct (nth_error (ths s) i) as [t|] eqn:N; [|discriminate]. destruct (pc t); try discriminate. destruct (alive t) eqn:A; try discriminate.
    destruct (visiting s) eqn:V; [discriminate|]. injection H as <- <-. split; [|reflexivity]. exists r. split; [exact RD|]. split; [exact RS|].
    intros p. specialize (B p). unfold visiting in V. rewrite RD in V. unfold unv in *. destruct (todo r); [discriminate|].
    cbn [chel ths with_th with_ths]. one_thread. rewrite P. rewrite E in B.
    rewrite !listp_app, !listp_cons, !leavep_app, !leavep_cons, !heldp_app, !heldp_cons in *. unfold listed in *. cbn [alive become held] in *. rewrite A in B.
    cbn [cnt] in *. lia.
  - destruct (nth_error (ths s) i) as [t|] eqn:N; [|discriminate]. rewrite RD in H. destruct (alive t); discriminate.
  - rewrite RD in H. discriminate.
  - rewrite RD in H. destruct (todo r) eqn:T; [discriminate|]. injection H as <- <-. split; [|reflexivity]. eexists. cbn [rdr with_rdr].
    split; [reflexivity|]. split; [exact RS|]. intros p. specialize (B p). unfold unv in *. rewrite T in B. cbn [todo gacc chel ths with_rdr].
    rewrite wsum_indices. exact B.
  - rewrite RD in H. destruct (todo r) as [[|i l]|] eqn:T; try discriminate. destruct (nth_error (ths s) i) as [t|] eqn:N; [|discriminate].
    rewrite RS in H. injection H as <- <-. split; [|reflexivity]. eexists. cbn [rdr with_rdr]. split; [reflexivity|]. split; [reflexivity|].
    intros p. specialize (B p). unfold unv in *. rewrite T in B. cbn [todo gacc chel ths with_rdr wsum] in *. unfold held_at in B. rewrite N in B.
    rewrite cnt_app. lia.
Qed.

Lemma run_reading P0 mid : forall s s' rs, inv s -> reading P0 s -> existsb returns mid = false -> (cas k = true \/ existsb begins_reset mid = false) ->
  run k (mid ++ [AReturn]) s = Some (s', rs) ->
  exists x, rs = [x] /\ was_reset x = false /\ value x = right (values x) /\
    forall p, cnt p P0 <= cnt p (values x) + cnt p (leaving s') /\ cnt p (values x) <= cnt p (pending s').
Proof.
  induction mid as [|a mid IH]; cbn [app run existsb]; intros s s' rs Iv J NR HC H.
  - destruct (step k AReturn s) as [[s1 o]|] eqn:S1; [|discriminate]. injection H as <- <-. destruct J as (r & RD & RS & B).
    cbn [step] in S1. rewrite RD in S1. destruct (todo r) as [[|i l]|] eqn:T; try discriminate. injection S1 as <- <-.
    eexists. split; [reflexivity|]. cbn [was_reset value values]. split; [exact RS|]. destruct Iv as (_ & _ & Ir). rewrite RD in Ir.
    destruct Ir as (E & _). split; [exact E|]. intros p. specialize (B p). unfold unv in B. rewrite T in B. cbn [wsum] in B.
    change (cnt p (leaving (with_rdr None s))) with (leavep p (ths s)).
    rewrite (pending_cnt R p). unfold gaccp. cbn [rdr with_rdr chel ths]. lia.
  - apply orb_false_iff in NR. destruct NR as (NR1 & NR2).
    destruct (step k a s) as [[s1 o]|] eqn:S1; [|discriminate]. destruct (run k (mid ++ [AReturn]) s1) as [[s2 rs2]|] eqn:R1; [|discriminate].
    injection H as <- <-.
    assert (HA : begins_reset a = true -> cas k = true).
    { intros X. destruct HC as [HC|HC]; [exact HC|]. rewrite X in HC. discriminate. }
    destruct (step_reading P0 a s s1 o Iv J NR1 S1) as (J1 & ->).
    pose proof (step_inv R k right rep H_id H_rid H_merge H_plan H_none a s s1 None Iv HA S1) as I1.
    eapply IH; [exact I1|exact J1|exact NR2| |exact R1]. destruct HC as [HC|HC]; [left; exact HC|right]. apply orb_false_iff in HC. tauto.
Qed.

Lemma read_bounds s mid s' rs : inv s -> rdr s = None -> existsb returns mid = false -> (cas k = true \/ existsb begins_reset mid = false) ->
  run k (ABegin false :: mid ++ [AReturn]) s = Some (s', rs) ->
  exists x, rs = [x] /\ was_reset x = false /\ value x = right (values x) /\
    forall p, cnt p (pending s) <= cnt p (values x) + cnt p (leaving s') /\ cnt p (values x) <= cnt p (pending s').
Proof.
  intros Iv RD NR HC H. cbn [run] in H. destruct (step k (ABegin false) s) as [[s1 o]|] eqn:S1; [|discriminate].
  destruct (run k (mid ++ [AReturn]) s1) as [[s2 rs2]|] eqn:R1; [|discriminate].
  pose proof (step_inv R k right rep H_id H_rid H_merge H_plan H_none (ABegin false) s s1 o Iv ltac:(discriminate) S1) as I1.
  cbn [step] in S1. rewrite RD in S1. injection S1 as <- <-. injection H as <- <-.
  eapply run_reading; [exact I1| |exact NR|exact HC|exact R1].
  eexists. cbn [rdr with_rdr]. split; [reflexivity|]. split; [reflexivity|]. intros p. rewrite (pending_cnt R p). unfold gaccp. rewrite RD.
  destruct Iv as (_ & It & _). unfold unv. cbn [todo gacc chel ths with_rdr]. rewrite (split_life p (ths s) It). lia.
Qed.

(** A call that runs alone. *)
Lemma visits l : forall s r, rdr s = Some r -> todo r = Some l -> NoDup l -> (forall i, In i l -> exists t, nth_error (ths s) i = Some t) ->
  exists s' r', run k (repeat AVisit (length l)) s = Some (s', []) /\ rdr s' = Some r' /\ todo r' = Some [] /\ resets r' = resets r /\
    forall p, cnt p (gacc r') = cnt p (gacc r) + wsum p l (ths s).
Proof.
  induction l as [|i l IH]; intros s r RD T ND V; cbn [length repeat run].
  - exists s, r. repeat split; auto.
  - destruct (V i (or_introl eq_refl)) as (t & N). inversion ND as [|? ? N1 N2]; subst.
    cbn [step]. rewrite RD, T, N.
    set (r1 := {| resets := resets r; acc := merge k (acc r) (buf t); gacc := gacc r ++ held t; todo := Some l |}).
    set (s1 := with_rdr (Some r1) (if resets r then with_th i (hold (b_id k) [] t) s else s)).
    assert (TH : ths s1 = if resets r then put i (hold (b_id k) [] t) (ths s) else ths s) by (subst s1; destruct (resets r); reflexivity).
    destruct (IH s1 r1) as (s' & r' & E & RD' & T' & RS' & C'); [reflexivity|reflexivity|exact N2| |].
    { intros j J. destruct (V j (or_intror J)) as (u & U). rewrite TH. destruct (resets r); [|eauto]. rewrite nth_put, U.
      destruct (Nat.eqb i j); eauto. }
    exists s', r'. rewrite E. split; [reflexivity|]. split; [exact RD'|]. split; [exact T'|]. split; [exact RS'|].
    intros p. rewrite C', TH. subst r1. cbn [gacc wsum]. unfold held_at. rewrite N, cnt_app.
    destruct (resets r); [rewrite (wsum_other p l (ths s) i t _ N N1)|]; lia.
Qed.

Lemma run_app l : forall m s, run k (l ++ m) s =
  match run k l s with Some (s1, r1) => match run k m s1 with Some (s2, r2) => Some (s2, r1 ++ r2) | None => None end | None => None end.
Proof.
  induction l as [|a l IH]; intros m s; cbn [app run].
  - destruct (run k m s) as [[]|]; reflexivity.
  - destruct (step k a s) as [[s1 o]|]; [|reflexivity]. rewrite IH. destruct (run k l s1) as [[s2 r2]|]; [|reflexivity].
    destruct (run k m s2) as [[s3 r3]|]; [|reflexivity]. destruct o; reflexivity.
Qed.

Lemma run_alone s b : inv s -> rdr s = None -> (b = true -> cas k = true) ->
  exists s' x, run k (alone b s) s = Some (s', [x]) /\ was_reset x = b /\ value x = right (values x) /\ rdr s' = None /\
    forall p, cnt p (values x) + cnt p (leaving s) = cnt p (pending s).
Proof.
  intros Iv RD HB. unfold alone. cbn [app run]. cbn [step]. rewrite RD.
  set (s1 := with_rdr (Some {| resets := b; acc := comb s; gacc := chel s; todo := None |}) (if b then with_comb (r_id k) [] s else s)).
  assert (TH : ths s1 = ths s) by (subst s1; destruct b; reflexivity).
  change (rdr s1) with (Some {| resets := b; acc := comb s; gacc := chel s; todo := None |}). cbn [todo resets acc gacc]. rewrite TH.
  set (r2 := {| resets := b; acc := comb s; gacc := chel s; todo := Some (indices (ths s)) |}).
  set (s2 := with_rdr (Some r2) s1).
  destruct (visits (indices (ths s)) s2 r2) as (s3 & r3 & E & RD3 & T3 & RS3 & C3); [reflexivity|reflexivity|apply indices_nodup| |].
  { intros i I'. change (ths s2) with (ths s1). rewrite TH. destruct (indices_in _ _ I') as (t & N & _). eauto. }
  rewrite indices_length in E. rewrite run_app, E. cbn [run step]. rewrite RD3, T3. cbn [app].
  assert (I3 : inv s3).
  { assert (I1 : inv s1). { eapply (step_inv R k right rep H_id H_rid H_merge H_plan H_none (ABegin b) s); [exact Iv| |cbn [step]; rewrite RD; reflexivity].
      destruct b; [auto|discriminate]. }
    assert (I2 : inv s2). { eapply (step_inv R k right rep H_id H_rid H_merge H_plan H_none AEnter s1); [exact I1|discriminate|].
      cbn [step]. change (rdr s1) with (Some {| resets := b; acc := comb s; gacc := chel s; todo := None |}). cbn [todo resets acc gacc]. rewrite TH. reflexivity. }
    eapply (run_inv R k right rep H_id H_rid H_merge H_plan H_none); [exact I2| |exact E]. right.
    generalize (cnt listed (ths s)). intros n. induction n; [reflexivity|]. cbn [repeat existsb begins_reset]. exact IHn. }
  eexists. eexists. split; [reflexivity|]. cbn [was_reset value values rdr with_rdr]. split; [exact RS3|].
  destruct I3 as (_ & _ & Ir). rewrite RD3 in Ir. split; [exact (proj1 Ir)|]. split; [reflexivity|].
  intros p. rewrite C3. change (ths s2) with (ths s1). rewrite TH, wsum_indices. subst r2. cbn [gacc].
  change (cnt p (leaving s)) with (leavep p (ths s)). rewrite (pending_cnt R p). unfold gaccp. rewrite RD.
  destruct Iv as (_ & It & _). rewrite (split_life p _ It). lia.
Qed.

(** Update() that runs alone. *)
Lemma put_nth {A} (l : list A) i t x : nth_error l i = Some t -> nth_error (put i x l) i = Some x.
Proof. intros H. rewrite nth_put, Nat.eqb_refl, H. reflexivity. Qed.
Lemma put_put {A} (l : list A) i x y : put i x (put i y l) = put i x l.
Proof. revert i. induction l as [|z l IH]; intros [|i]; cbn; auto. rewrite IH. reflexivity. Qed.

Lemma astep i (s : st R) t s' : nth_error (ths s) i = Some t -> update k i t s = Some s' -> step k (AStep i) s = Some (s', None).
Proof. intros H U. cbn [step]. rewrite H, U. reflexivity. Qed.

Definition finishes (n i : nat) (v : Z) (s : st R) : Prop :=
  exists m s', m <= n /\ run k (repeat (AStep i) m) s = Some (s', []) /\ fin s' = fin s ++ [v] /\ ~ updating i s'.

Lemma finishes_step n i v s s1 : step k (AStep i) s = Some (s1, None) -> fin s1 = fin s -> finishes n i v s1 -> finishes (S n) i v s.
Proof.
  intros H F (m & s' & L & E & F' & U). exists (S m), s'. cbn [repeat run]. rewrite H, E. split; [lia|]. split; [reflexivity|]. split; [congruence|exact U].
Qed.

Lemma fin_same i v (s : st R) t n' : nth_error (ths s) i = Some t -> pc t = Loaded v (buf t) -> plan k (buf t) v = Some n' -> finishes 1 i v s.
Proof.
  intros H P PL. exists 1. cbn [repeat run]. eexists. split; [lia|].
  assert (U : update k i t s = Some (with_fin (fin s ++ [v]) (with_th i (hold n' (held t ++ [v]) (goto Idle t)) s))).
  { unfold update. rewrite P, PL, Z.eqb_refl, orb_true_r. reflexivity. }
  rewrite (astep i s t _ H U). clear U.
  split; [reflexivity|]. cbn [fin with_fin]. split; [reflexivity|]. intros (u & U & X). cbn [ths with_fin with_th with_ths] in U.
  rewrite (put_nth _ _ _ _ H) in U. injection U as <-. apply X. reflexivity.
Qed.

Lemma fin_commit i v (s : st R) t : nth_error (ths s) i = Some t -> pc t = Commit v -> rdr s = None -> b_id k = 0%Z ->
  (forall w, plan k 0 w <> None) -> finishes 2 i v s.
Proof.
  intros H P RD B0 PZ. destruct (plan k 0 v) as [n'|] eqn:PL; [|destruct (PZ v PL)].
  eapply finishes_step; [eapply astep; [exact H|unfold update; rewrite P, RD; reflexivity]|reflexivity|].
  eapply (fin_same i v _ (hold (b_id k) [] (goto (Loaded v 0%Z) t))).
  - cbn [ths with_comb with_th with_ths]. exact (put_nth _ _ _ _ H).
  - cbn [pc hold goto buf]. rewrite B0. reflexivity.
  - cbn [buf hold]. rewrite B0. exact PL.
Qed.

Lemma finishes_le n m i v s : finishes n i v s -> n <= m -> finishes m i v s.
Proof. intros (x & s' & L & Q) H. exists x, s'. split; [lia|exact Q]. Qed.

Lemma fin_fresh i v (s : st R) t : nth_error (ths s) i = Some t -> pc t = Loaded v (buf t) -> rdr s = None -> finishes 3 i v s.
Proof.
  intros H P RD. destruct (plan k (buf t) v) as [n'|] eqn:PL.
  - eapply finishes_le; [eapply fin_same; eassumption|lia].
  - destruct (H_none _ _ PL) as (B0 & PZ).
    eapply finishes_step; [eapply astep; [exact H|unfold update; rewrite P, PL; reflexivity]|reflexivity|].
    eapply (fin_commit i v _ (goto (Commit v) t)); [cbn [ths with_th with_ths]; exact (put_nth _ _ _ _ H)|reflexivity|exact RD|exact B0|exact PZ].
Qed.

Lemma update_finishes i (s : st R) t : inv s -> nth_error (ths s) i = Some t -> rdr s = None -> forall v, adding t = [v] ->
  finishes 4 i v s.
Proof.
  intros Iv H RD v NI. unfold adding in NI. destruct Iv as (_ & It & _). pose proof (nth_ok _ _ _ _ _ _ It H) as (O1 & O2 & O3 & O4 & O5).
  destruct (pc t) as [|v'|v' n|v'] eqn:P; [discriminate|..]; injection NI as ->.
  - eapply finishes_step; [eapply astep; [exact H|unfold update; rewrite P; reflexivity]|reflexivity|].
    eapply (fin_fresh i v _ (goto (Loaded v (buf t)) t)); [cbn [ths with_th with_ths]; exact (put_nth _ _ _ _ H)|reflexivity|exact RD].
  - destruct (plan k n v) as [n'|] eqn:PL.
    + destruct (cas k) eqn:CK.
      * destruct (Z.eqb_spec (buf t) n) as [E|E].
        -- subst n. eapply finishes_le; [eapply fin_same; eassumption|lia].
        -- eapply finishes_step; [eapply astep; [exact H|unfold update; rewrite P, PL, CK; destruct (Z.eqb_spec (buf t) n); [contradiction|reflexivity]]|reflexivity|].
           eapply (fin_fresh i v _ (goto (Loaded v (buf t)) t)); [cbn [ths with_th with_ths]; exact (put_nth _ _ _ _ H)|reflexivity|exact RD].
      * rewrite (O5 eq_refl v n eq_refl) in *. eapply finishes_le; [eapply fin_same; eassumption|lia].
    + destruct (H_none _ _ PL) as (B0 & PZ). eapply finishes_le; [eapply finishes_step; [eapply astep; [exact H|unfold update; rewrite P, PL; reflexivity]|reflexivity|]|].
      * eapply (fin_commit i v _ (goto (Commit v) t)); [cbn [ths with_th with_ths]; exact (put_nth _ _ _ _ H)|reflexivity|exact RD|exact B0|exact PZ].
      * lia.
  - destruct (O4 v eq_refl) as (B0 & PZ). eapply finishes_le; [eapply fin_commit; eassumption|lia].
Qed.
End Read.
