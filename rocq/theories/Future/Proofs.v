(** Proofs about a promise and its future. *)
From Verif.Lib Require Import Base.
From Verif.Future Require Import Model Spec.
Local Open Scope Z_scope.

Section Proofs.
Context {V E : Type}.
Variable broken : E.
Variable script : list (res V E).
Implicit Types s : st V E.

Definition ttake (t : tpc) : bool := match t with TTakeR | TTakeF => true | _ => false end.
Definition rtake (p : @rpc V E) : Z := match p with RTry t _ => if ttake t then 1 else 0 | _ => 0 end.
Definition atake (p : apc) : Z := match p with ATry t => if ttake t then 1 else 0 | _ => 0 end.
Definition rtry (p : @rpc V E) : bool := match p with RTry _ _ => true | _ => false end.
Definition atry (p : apc) : bool := match p with ATry _ => true | _ => false end.
Definition rleft (p : @rpc V E) : list (res V E) :=
  match p with RRun l | RStored l | RTry _ l => l | RDone => [] end.
Definition ralive (p : @rpc V E) : Z := match p with RDone => 0 | _ => 1 end.
Definition aalive (p : apc) : Z := match p with ADone => 0 | _ => 1 end.
Definition tok (t : tpc) s : Prop :=
  match t with
  | TCheck => True
  | TTasR => f_flag s = true \/ f_ready s = true
  | TTasF => f_flag s = true \/ f_failed s = true
  | TTakeR => f_ready s = true
  | TTakeF => f_failed s = true
  end.

Record inv s : Prop := {
  i_refs : f_refs s = ralive (f_r s) + aalive (f_a s);
  i_freed : f_freed s = if f_refs s =? 0 then 1 else 0;
  i_bad : f_bad s = false;
  i_ready : f_ready s = true -> exists v, f_value s = Some v;
  i_failed : f_failed s = true -> exists e, f_exc s = Some e;
  i_value : forall v, f_value s = Some v -> allowed broken script (Val v);
  i_exc : forall e, f_exc s = Some e -> allowed broken script (Exc e);
  i_left : incl (rleft (f_r s)) script;
  i_first : f_has_result s = false -> match f_r s with RRun l => l = script | RStored _ => True | _ => False end;
  i_stored : match f_r s with RStored _ => f_flag s = false -> f_ready s = true \/ f_failed s = true | _ => True end;
  i_result : f_has_result s = true -> f_flag s = false -> f_ready s = true \/ f_failed s = true;
  i_flag : Z.of_nat (length (f_runs s)) + rtake (f_r s) + atake (f_a s) = if f_flag s then 1 else 0;
  i_rt : match f_r s with RTry t _ => tok t s /\ f_has_result s = true /\ f_has_callback s = true | _ => True end;
  i_at : match f_a s with ATry t => tok t s /\ f_has_result s = true /\ f_has_callback s = true | _ => True end;
  i_cb : f_has_callback s = match f_a s with AStart | AInstalled => false | _ => f_then s end;
  i_then : match f_a s with AStart => f_then s = false | AInstalled | ATry _ => f_then s = true | _ => True end;
  i_lost : f_has_result s = true -> f_has_callback s = true -> f_flag s = true \/ rtry (f_r s) = true \/ atry (f_a s) = true;
  i_fcb : f_flag s = true -> f_has_callback s = true;
  i_runs : Forall (allowed broken script) (f_runs s) }.

Lemma inv_init : inv (init script).
Proof.
  constructor; cbn; try discriminate; try lia; auto; try (intros; discriminate). apply incl_refl.
Qed.


Lemma touch_id s : inv s -> (ralive (f_r s) = 1 \/ aalive (f_a s) = 1) -> touch s = s.
Proof.
  intros I H. assert (F : f_freed s = 0).
  { rewrite (i_freed _ I), (i_refs _ I). destruct (_ =? _) eqn:Ez; [|reflexivity].
    apply Z.eqb_eq in Ez. exfalso. destruct (f_r s), (f_a s); cbn in *; lia. }
  unfold touch. rewrite F. cbn [Z.ltb Z.compare]. rewrite orb_false_r. rewrite <- F. destruct s; reflexivity.
Qed.

(** Invariants that mention the flags only: small goals, clear everything else first. *)
Ltac prep :=
  match goal with I : inv ?s |- _ => destruct s as [val rdy exc fld hr hc fl rf fr runs bad th r a]; destruct I; cbn in *; subst end.
Ltac zlia := match goal with |- @eq Z _ _ => lia end.
Ltac fin := try solve [assumption | discriminate | reflexivity | exact I | intros; discriminate | intros; eauto 2 | zlia].
Ltac slim := repeat match goal with
  | H : _ = _ -> exists _, _ |- _ => clear H
  | H : forall _, _ = Some _ -> _ |- _ => clear H
  | H : incl _ _ |- _ => clear H
  | H : Forall _ _ |- _ => clear H end.
Ltac deep a := fin; try solve [destruct a as [| |t0| |]; cbn in *; fin; try (destruct t0; cbn in *; fin); exfalso; lia];
  try solve [destruct a as [| |t0| |]; cbn in *; fin; try (destruct t0; cbn in *; fin); slim; try match goal with H : true = true -> ?b = false -> _ |- _ => is_var b; destruct b end; first [intuition congruence | exfalso; lia]].
Ltac deepr a := fin; try solve [destruct a as [l0|l0|t0 l0|]; cbn in *; fin; try (destruct t0; cbn in *; fin); exfalso; lia];
  try solve [destruct a as [l0|l0|t0 l0|]; cbn in *; fin; try (destruct t0; cbn in *; fin); slim; try match goal with H : true = true -> ?b = false -> _ |- _ => is_var b; destruct b end; first [intuition congruence | exfalso; lia]].
Lemma take_flag s : inv s -> rtake (f_r s) = 1 \/ atake (f_a s) = 1 -> f_flag s = true.
Proof.
  intros I H. pose proof (i_flag _ I) as F. destruct (f_flag s); [reflexivity|].
  destruct (f_r s) as [| |[] ?|], (f_a s) as [| |[]| |]; cbn in *; lia.
Qed.

Lemma r_inv s : inv s -> f_r s <> RDone -> inv (r_step broken s).
Proof.
  intros I Hr. unfold r_step. rewrite touch_id; [|exact I|left; destruct (f_r s); cbn; congruence].
  destruct (f_r s) as [[|x l]|l|t l|] eqn:Er; [| | | |congruence].
  - destruct (f_has_result s) eqn:Eh.
    + prep. constructor; cbn; deep a.
    + prep. constructor; cbn; deep a.
      intros e H; injection H as <-; right; rewrite <- (i_first0 eq_refl); auto.
  - assert (Ia : allowed broken script x) by (left; apply (i_left _ I); rewrite Er; left; reflexivity).
    assert (Il : incl l script) by (intros y Hy; apply (i_left _ I); rewrite Er; right; exact Hy).
    destruct x as [v|e]; prep; constructor; cbn; fin; deep a; eauto;
      try (intros ? H; injection H as <-; assumption).
  - cbn [mark_result f_has_callback]. destruct (f_has_callback s) eqn:Ec; prep; constructor; cbn; fin; deep a.
  - assert (T := i_rt _ I). rewrite Er in T. destruct T as (T & Th & Tc).
    destruct t; cbn [try_step].
    + destruct (f_ready s) eqn:Ey; [|destruct (f_failed s) eqn:Ef]; prep; constructor; cbn; fin; deep a.
    + destruct (f_flag s) eqn:Ef; prep; constructor; cbn; fin; deep a.
    + destruct (f_flag s) eqn:Ef; prep; constructor; cbn; fin; deep a.
    + destruct (i_ready _ I T) as (v & Ev). assert (Av := i_value _ I v Ev).
      assert (Fl : f_flag s = true) by (apply take_flag; [exact I|left; rewrite Er; reflexivity]). prep. constructor; cbn; fin; deep a.
      * rewrite app_length. cbn [length rtake ttake] in *. lia.
      * apply Forall_app. auto.
    + destruct (i_failed _ I T) as (v & Ev). assert (Av := i_exc _ I v Ev).
      assert (Fl : f_flag s = true) by (apply take_flag; [exact I|left; rewrite Er; reflexivity]). prep. constructor; cbn; fin; deep a.
      * rewrite app_length. cbn [length rtake ttake] in *. lia.
      * apply Forall_app. auto.
Qed.

Lemma a_inv b s : inv s -> f_a s <> ADone -> inv (a_step b s).
Proof.
  intros I Ha. unfold a_step. rewrite touch_id; [|exact I|right; destruct (f_a s); cbn; congruence].
  destruct (f_a s) as [| |t| |] eqn:Ea; [| | | |congruence].
  - destruct b; prep; constructor; cbn; fin; deepr r.
  - cbn [mark_callback f_has_result]. destruct (f_has_result s) eqn:Ec; prep; constructor; cbn; fin; deepr r.
  - assert (T := i_at _ I). rewrite Ea in T. destruct T as (T & Th & Tc).
    destruct t; cbn [try_step].
    + destruct (f_ready s) eqn:Ey; [|destruct (f_failed s) eqn:Ef]; prep; constructor; cbn; fin; deepr r.
    + destruct (f_flag s) eqn:Ef; prep; constructor; cbn; fin; deepr r.
    + destruct (f_flag s) eqn:Ef; prep; constructor; cbn; fin; deepr r.
    + destruct (i_ready _ I T) as (v & Ev). assert (Av := i_value _ I v Ev).
      assert (Fl : f_flag s = true) by (apply take_flag; [exact I|right; rewrite Ea; reflexivity]). prep. constructor; cbn; fin; deepr r.
      * rewrite app_length. cbn [length atake ttake] in *. lia.
      * apply Forall_app. auto.
    + destruct (i_failed _ I T) as (v & Ev). assert (Av := i_exc _ I v Ev).
      assert (Fl : f_flag s = true) by (apply take_flag; [exact I|right; rewrite Ea; reflexivity]). prep. constructor; cbn; fin; deepr r.
      * rewrite app_length. cbn [length atake ttake] in *. lia.
      * apply Forall_app. auto.
  - prep. constructor; cbn; fin; deepr r.
Qed.

Lemma reach_inv s : reach broken script s -> inv s.
Proof.
  intros R. induction R as [|s s' R IH St]; [exact inv_init|].
  destruct St as [s0 H|b s0 H]; [exact (r_inv _ IH H)|exact (a_inv _ _ IH H)].
Qed.

Lemma once s : reach broken script s ->
  (length (f_runs s) <= 1)%nat /\ Forall (allowed broken script) (f_runs s) /\ f_bad s = false.
Proof.
  intros R. pose proof (reach_inv s R) as I. split; [|split; [apply (i_runs _ I)|apply (i_bad _ I)]].
  pose proof (i_flag _ I). destruct (f_flag s), (f_r s) as [| |[] ?|], (f_a s) as [| |[]| |]; cbn in *; lia.
Qed.

Lemma delivered s : reach broken script s -> finished s ->
  f_freed s = 1 /\ length (f_runs s) = (if f_then s then 1 else 0)%nat.
Proof.
  intros R (F1 & F2). pose proof (reach_inv s R) as I.
  pose proof (i_refs _ I) as H1. pose proof (i_freed _ I) as H2. pose proof (i_flag _ I) as H3.
  pose proof (i_cb _ I) as H4. pose proof (i_lost _ I) as H5. pose proof (i_first _ I) as H6.
  rewrite F1, F2 in *. cbn in *. rewrite H1 in H2. split; [exact H2|].
  destruct (f_has_result s); [|exfalso; auto]. rewrite H4 in H5.
  destruct (f_then s); cbn in *.
  - destruct (H5 eq_refl eq_refl) as [H|[H|H]]; try discriminate. rewrite H in H3. lia.
  - pose proof (i_fcb _ I) as H7. rewrite H4 in H7. destruct (f_flag s); [specialize (H7 eq_refl); discriminate|lia].
Qed.

(** Nothing is stuck: a thread that is not done can go on, and does not go round in circles. *)
Definition tleft (t : tpc) : Z := match t with TCheck => 3 | TTasR | TTasF => 2 | _ => 1 end.
Definition rmeas s : Z :=
  match f_r s with
  | RDone => 0
  | RRun l => 1 + 6 * Z.of_nat (length l) + (if f_has_result s then 0 else 6)
  | RStored l => 1 + 6 * Z.of_nat (length l) + 4
  | RTry t l => 1 + 6 * Z.of_nat (length l) + tleft t
  end.
Definition ameas s : Z :=
  match f_a s with ADone => 0 | AAfter => 1 | ATry t => 1 + tleft t | AInstalled => 5 | AStart => 6 end.

Ltac cz := cbn -[Z.add Z.mul Z.of_nat length]; cbn [length].
Lemma step_less s s' : inv s -> step broken s s' -> rmeas s' + ameas s' < rmeas s + ameas s /\ 0 <= rmeas s' + ameas s'.
Proof.
  intros I St. revert I. destruct St as [s0 H|b s0 H]; intros I.
  - unfold r_step. rewrite touch_id; [|exact I|left; destruct (f_r s0); cbn; congruence].
    unfold rmeas, ameas. destruct (f_r s0) as [[|x l]|l|t l|] eqn:Er; [| | | |congruence].
    + destruct (f_has_result s0) eqn:Eh; cz; rewrite ?Eh; destruct (f_a s0) as [| |[]| |]; cz; lia.
    + destruct x; cz; destruct (f_has_result s0), (f_a s0) as [| |[]| |]; cz; lia.
    + cbn [mark_result f_has_callback]. destruct (f_has_callback s0); cz; destruct (f_a s0) as [| |[]| |]; cz; lia.
    + pose proof (i_rt _ I) as T. rewrite Er in T. destruct T as (_ & T & _).
      destruct t; cbn [try_step]; [destruct (f_ready s0); [|destruct (f_failed s0)]|destruct (f_flag s0)|destruct (f_flag s0)| |];
        cz; rewrite ?T; destruct (f_a s0) as [| |[]| |]; cz; lia.
  - unfold a_step. rewrite touch_id; [|exact I|right; destruct (f_a s0); cbn; congruence].
    assert (P : 0 <= rmeas s0) by (unfold rmeas; destruct (f_r s0) as [| |[]|], (f_has_result s0); cz; lia).
    unfold rmeas, ameas in *. destruct (f_a s0) as [| |t| |] eqn:Ea; [| | | |congruence].
    + destruct b; cz; lia.
    + cbn [mark_callback f_has_result]. destruct (f_has_result s0) eqn:Eh; cz; rewrite ?Eh in *; lia.
    + destruct t; cbn [try_step]; [destruct (f_ready s0); [|destruct (f_failed s0)]|destruct (f_flag s0)|destruct (f_flag s0)| |];
        cz; lia.
    + cz; lia.
Qed.

Lemma run_reach n s : run broken script n s -> reach broken script s.
Proof. induction 1; [apply r_init|eapply r_next; eassumption]. Qed.

Lemma ends : exists N, forall n s, run broken script n s ->
  (n <= N)%nat /\ (finished s \/ exists s', step broken s s').
Proof.
  exists (Z.to_nat (rmeas (init script) + ameas (init script))). intros n s R. split.
  - assert (H : Z.of_nat n + (rmeas s + ameas s) <= rmeas (init script) + ameas (init script) /\ 0 <= rmeas s + ameas s).
    { induction R as [|n s s' R IH H]; [split; [lia|unfold rmeas, ameas; cz; lia]|].
      pose proof (step_less s s' (reach_inv s (run_reach _ _ R)) H). lia. }
    lia.
  - destruct (f_r s) eqn:Er; try (right; eexists; apply s_r; congruence).
    destruct (f_a s) eqn:Ea; try (right; eexists; apply (s_a _ true); congruence). left. split; assumption.
Qed.
End Proofs.

Lemma one_result {V E} (broken : E) (x : res V E) s : reach broken [x] s -> finished s -> f_then s = true ->
  f_runs s = [x].
Proof.
  intros R F T. destruct (delivered _ _ _ R F) as (_ & L). destruct (once _ _ _ R) as (_ & A & _). rewrite T in L.
  destruct (f_runs s) as [|y [|z l]]; try discriminate. inversion A as [|? ? [[<-|[]]|[H _]] _]; [reflexivity|discriminate].
Qed.

Lemma broken_result {V E} (broken : E) (s : st V E) : reach broken [] s -> finished s -> f_then s = true ->
  f_runs s = [Exc broken].
Proof.
  intros R F T. destruct (delivered _ _ _ R F) as (_ & L). destruct (once _ _ _ R) as (_ & A & _). rewrite T in L.
  destruct (f_runs s) as [|y [|z l]]; try discriminate. inversion A as [|? ? [[]|[_ ->]] _]. reflexivity.
Qed.
