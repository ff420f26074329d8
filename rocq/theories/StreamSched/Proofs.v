From Coq Require Import List Permutation Arith Lia.
From Verif.Lib Require Import Base.
From Verif.StreamSched Require Import Model Spec.
Import ListNotations.

Definition hr (p : rpc) : list nat := match p with RRecv rl _ => rl | _ => [] end.
Definition hs (p : rpc) : list (bool * nat) := match p with RRecv _ sl => sl | RSend sl => sl | _ => [] end.
Definition gone (s : sched) : Prop := inmap s = false \/ closed s = true.

(** What the state of the fiber says *)
Definition pinv (p : rpc) (s : sched) : Prop :=
  match p with
  | RTop | RRecv _ _ | RSend _ => bad s = false /\ removes s = 0
  | RErr => bad s = true /\ removes s = 0
  | RBreak => term s = true /\ removes s = 0 /\ (bad s = false -> rq s = [] /\ sq s = [])
  | RFin => term s = true /\ removes s = 1 /\ gone s /\ (bad s = false -> rq s = [] /\ sq s = [])
  end.

Inductive phase (s : sched) : Prop :=
| PIdle : running s = false -> runs s = [] -> rq s = [] -> sq s = [] -> done s = term s -> bad s = false ->
    (sm s = true -> term s = true) -> (term s = false -> removes s = 0) -> (term s = true -> sm s = false -> removes s <> 0 /\ gone s) -> phase s
| PBusy p : running s = true -> runs s = [p] -> done s = false -> sm s = false -> pinv p s -> phase s
| PDone : running s = true -> runs s = [] -> done s = true -> sm s = false -> term s = true -> removes s = 1 -> gone s ->
    (bad s = false -> rq s = [] /\ sq s = []) -> phase s.

Definition books (s : sched) : Prop :=
  (exists d, in_r s = out_r s ++ flat_map hr (runs s) ++ d ++ rq s /\ (bad s = false -> d = [])) /\
  (exists d, Permutation (in_s s) (out_s s ++ flat_map hs (runs s) ++ d ++ sq s) /\
             backs (in_s s) = backs (out_s s ++ flat_map hs (runs s) ++ d ++ sq s) /\ (bad s = false -> d = [])).

Definition inv (s : sched) : Prop := phase s /\ books s.

Lemma backs_app a b : backs (a ++ b) = backs a ++ backs b.
Proof. induction a as [|[[] m] a IH]; simpl; congruence. Qed.

Lemma one {A} (p q : A) a b : [p] = a ++ q :: b -> a = [] /\ q = p /\ b = [].
Proof.
  destruct a as [|x a]; simpl; intros E.
  - injection E as -> <-; auto.
  - injection E as _ E. destruct a; discriminate.
Qed.

Lemma none {A} (q : A) a b : [] = a ++ q :: b -> False.
Proof. destruct a; discriminate. Qed.

(** The queues *)
Lemma books_in_r s m : term s = false -> books s -> books (set_in_r (in_r s ++ [m]) (set_rq (rq s ++ [m]) s)).
Proof.
  intros T [(d & E & D) B]. split; [|exact B]. exists d. cbn. split; [|exact D]. rewrite E, <- !app_assoc. reflexivity.
Qed.

Lemma books_in_s s (front : bool) m : books s ->
  books (set_in_s (in_s s ++ [(front, m)]) (set_sq (if front then (front, m) :: sq s else sq s ++ [(front, m)]) s)).
Proof.
  intros [A (d & P & E & D)]. split; [exact A|]. exists d. cbn. destruct front.
  - repeat split; [| |exact D].
    + rewrite P. rewrite <- Permutation_cons_append.
      transitivity ((true, m) :: (out_s s ++ flat_map hs (runs s) ++ d) ++ sq s); [rewrite <- !app_assoc; reflexivity|].
      transitivity ((out_s s ++ flat_map hs (runs s) ++ d) ++ (true, m) :: sq s); [apply Permutation_middle|rewrite <- !app_assoc; reflexivity].
    + rewrite !backs_app in *. cbn. rewrite E, app_nil_r. reflexivity.
  - repeat split; [| |exact D].
    + rewrite P, <- !app_assoc. reflexivity.
    + rewrite !backs_app in *. rewrite E, <- !app_assoc. reflexivity.
Qed.

(** StartFiberDetached *)
Lemma start_books s : books s -> books (start s).
Proof.
  intros B. unfold start. destruct (running s) eqn:R; [exact B|].
  unfold books in *. cbn. rewrite !flat_map_app. cbn. rewrite !app_nil_r. exact B.
Qed.

Lemma push_recv_inv m s : sm s = false -> inv s -> inv (push_recv m s).
Proof.
  intros S (P & B). unfold push_recv. destruct (term s) eqn:T; [split; assumption|].
  split; [|apply start_books, books_in_r; assumption].
  unfold start. cbn.
  destruct P as [R U Q1 Q2 D F I1 I2 I3|p R U D M V|R U D M V W X Y].
  - rewrite R. apply PBusy with (p := RTop); cbn; rewrite ?U; try rewrite D; auto.
  - rewrite R. apply PBusy with (p := p); cbn; auto. unfold pinv in *. cbn. destruct p; cbn; auto; destruct V as [V _]; congruence.
  - rewrite T in V. discriminate.
Qed.

Lemma push_send_inv f m s : sm s = false -> inv s -> inv (snd (push_send f m s)).
Proof.
  intros S (P & B). unfold push_send. destruct (term s) eqn:T; [split; assumption|].
  split; [|apply start_books, books_in_s; assumption].
  unfold start. cbn.
  destruct P as [R U Q1 Q2 D F I1 I2 I3|p R U D M V|R U D M V W X Y].
  - rewrite R. apply PBusy with (p := RTop); cbn; rewrite ?U; try rewrite D; auto.
  - rewrite R. apply PBusy with (p := p); cbn; auto. unfold pinv in *. cbn. destruct p; cbn; auto; destruct V as [V _]; congruence.
  - rewrite T in V. discriminate.
Qed.

Lemma stop_inv s : sm s = false -> inv s -> inv (stop s).
Proof.
  intros S (P & B). split; [|unfold stop; cbn; destruct (running s); exact B].
  unfold stop. cbn.
  destruct P as [R U Q1 Q2 D F I1 I2 I3|p R U D M V|R U D M V W X Y]; rewrite R.
  - apply PIdle; cbn; auto; discriminate.
  - apply PBusy with (p := p); cbn; auto. unfold pinv in *. cbn. destruct p; cbn; tauto.
  - apply PDone; cbn; auto.
Qed.

Lemma remove_gone s : gone (remove s).
Proof. unfold remove, gone. cbn. destruct (closed s) eqn:E; cbn; auto. Qed.

Lemma remove_same s : rq (remove s) = rq s /\ sq (remove s) = sq s /\ term (remove s) = term s /\ done (remove s) = done s /\
  running (remove s) = running s /\ sm (remove s) = sm s /\ hm (remove s) = hm s /\ runs (remove s) = runs s /\ bad (remove s) = bad s /\
  removes (remove s) = S (removes s) /\ closed (remove s) = closed s.
Proof. unfold remove. cbn. destruct (closed s) eqn:E; cbn; rewrite ?E; repeat split. Qed.

Lemma remove_books s : books s -> books (remove s).
Proof. intros B. unfold remove. cbn. destruct (closed s); exact B. Qed.

Lemma stop_end_inv s : sm s = true -> inv s -> inv (stop_end s).
Proof.
  intros S (P & B). split; [|apply (remove_books s B)].
  pose proof (remove_gone s) as G. destruct (remove_same s) as (E1 & E2 & E3 & E4 & E5 & E6 & E7 & E8 & E9 & E10 & E11).
  destruct P as [R U Q1 Q2 D F I1 I2 I3|p R U D M V|R U D M V W X Y]; [|congruence|congruence].
  apply PIdle; unfold stop_end; cbn; try congruence.
  - rewrite E3, (I1 S). discriminate.
  - intros _ _. split; [rewrite E10; discriminate|exact G].
Qed.

Lemma close_inv s : inv s -> inv (close s).
Proof.
  intros (P & B). split; [|unfold close; cbn; destruct (inmap s); exact B].
  assert (K : forall s', rq s' = rq s -> sq s' = sq s -> term s' = term s -> done s' = done s -> running s' = running s -> sm s' = sm s ->
              runs s' = runs s -> bad s' = bad s -> removes s' = removes s -> closed s' = true -> phase s').
  { intros s' E1 E2 E3 E4 E5 E6 E7 E8 E9 E10. assert (G : gone s') by (right; exact E10).
    destruct P as [R U Q1 Q2 D F I1 I2 I3|p R U D M V|R U D M V W X Y].
    - apply PIdle; try congruence; rewrite ?E3, ?E6, ?E9; auto. intros T S. split; [apply (I3 T S)|exact G].
    - apply PBusy with (p := p); try congruence. unfold pinv in *. rewrite E1, E2, E3, E8, E9. destruct p; tauto.
    - apply PDone; try congruence. rewrite E1, E2, E8. exact Y. }
  unfold close. cbn. destruct (inmap s); apply K; reflexivity.
Qed.

Lemma hm_inv s b : inv s -> inv (set_hm b s).
Proof.
  intros (P & B). split; [|exact B].
  destruct P as [R U Q1 Q2 D F I1 I2 I3|p R U D M V|R U D M V W X Y].
  - apply PIdle; assumption.
  - apply PBusy with (p := p); try assumption.
  - apply PDone; assumption.
Qed.

(** The steps of the fiber *)
Lemma top_inv s : inv s -> runs s = [RTop] -> inv (set_runs (fst (top s)) (snd (top s))).
Proof.
  intros (P & (d & E & D) & (d' & P' & E' & D')) U.
  destruct P as [R U' Q1 Q2 Dn F I1 I2 I3|p R U' Dn M V|R U' Dn M V W X Y]; rewrite U in U'; try discriminate.
  injection U' as <-. destruct V as [Bd Rm]. specialize (D Bd). specialize (D' Bd). subst d d'. rewrite U in *. cbn in E, P', E'.
  unfold top. destruct (rq s) as [|m rl] eqn:Q1, (sq s) as [|m' sl] eqn:Q2.
  - destruct (term s) eqn:T.
    + split; [|split; [exists []|exists []]; cbn; rewrite ?Q1, ?Q2; auto].
      apply PBusy with (p := RBreak); cbn; auto.
    + split; [|split; [exists []|exists []]; cbn; rewrite ?Q1, ?Q2; auto].
      apply PIdle; cbn; auto; congruence.
  - split; [eapply PBusy; [|reflexivity|..]; cbn; auto|].
    split; exists []; cbn; rewrite ?app_nil_r in *; repeat split; auto.
  - split; [eapply PBusy; [|reflexivity|..]; cbn; auto|].
    split; exists []; cbn; rewrite ?app_nil_r in *; repeat split; auto.
  - split; [eapply PBusy; [|reflexivity|..]; cbn; auto|].
    split; exists []; cbn; rewrite ?app_nil_r in *; repeat split; auto.
Qed.

Lemma recv_inv m rl sl (ok : bool) s : inv s -> runs s = [RRecv (m :: rl) sl] ->
  inv (set_runs [if ok then RRecv rl sl else RErr] (handle_recv m ok s)).
Proof.
  intros (P & (d & E & D) & (d' & P' & E' & D')) U.
  destruct P as [R U' Q1 Q2 Dn F I1 I2 I3|p R U' Dn M V|R U' Dn M V W X Y]; rewrite U in U'; try discriminate.
  injection U' as <-. destruct V as [Bd Rm]. specialize (D Bd). specialize (D' Bd). subst d d'. rewrite U in *. cbn in E, P', E'.
  rewrite ?app_nil_r in *. unfold handle_recv. destruct ok; cbn.
  - split; [|split; [exists []|exists []]; cbn; rewrite ?app_nil_r; auto].
    + eapply PBusy; [|reflexivity|..]; cbn; auto. rewrite Bd. auto.
    + rewrite E, <- !app_assoc. auto.
  - split; [|split; [exists rl|exists sl]; cbn; rewrite Bd; repeat split; try discriminate].
    + eapply PBusy; [|reflexivity|..]; cbn; auto. rewrite Bd. auto.
    + rewrite E, <- !app_assoc. auto.
    + exact P'.
    + exact E'.
Qed.

Lemma send_inv m sl (ok : bool) s : inv s -> runs s = [RSend (m :: sl)] ->
  inv (set_runs [if ok then RSend sl else RErr] (handle_send m ok s)).
Proof.
  intros (P & (d & E & D) & (d' & P' & E' & D')) U.
  destruct P as [R U' Q1 Q2 Dn F I1 I2 I3|p R U' Dn M V|R U' Dn M V W X Y]; rewrite U in U'; try discriminate.
  injection U' as <-. destruct V as [Bd Rm]. specialize (D Bd). specialize (D' Bd). subst d d'. rewrite U in *. cbn in E, P', E'.
  rewrite ?app_nil_r in *. unfold handle_send. destruct ok; cbn.
  - split; [|split; [exists []|exists []]; cbn; rewrite ?app_nil_r; auto].
    + eapply PBusy; [|reflexivity|..]; cbn; auto. rewrite Bd. auto.
    + rewrite <- !app_assoc. auto.
  - split; [|split; [exists []|exists sl]; cbn; rewrite Bd; repeat split; try discriminate].
    + eapply PBusy; [|reflexivity|..]; cbn; auto. rewrite Bd. auto.
    + exact E.
    + rewrite <- !app_assoc. exact P'.
    + rewrite <- !app_assoc. exact E'.
Qed.

Lemma rstep_inv p s ps s' : inv s -> runs s = [p] -> rstep p s ps s' -> inv (set_runs ps s').
Proof.
  intros I U St. inversion St; subst; clear St.
  - apply top_inv; assumption.
  - apply recv_inv; assumption.
  - destruct I as (P & B). split; [|destruct B as [A (d & B)]; split; [|exists d]; cbn in *; rewrite U in *; cbn in *; assumption].
    destruct P as [R U' Q1 Q2 Dn F I1 I2 I3|p R U' Dn M V|R U' Dn M V W X Y]; rewrite U in U'; try discriminate.
    injection U' as <-. eapply PBusy; [|reflexivity|..]; cbn; auto.
  - apply send_inv; assumption.
  - destruct I as (P & B). split; [|destruct B as [A (d & B)]; split; [|exists d]; cbn in *; rewrite U in *; cbn in *; assumption].
    destruct P as [R U' Q1 Q2 Dn F I1 I2 I3|p R U' Dn M V|R U' Dn M V W X Y]; rewrite U in U'; try discriminate.
    injection U' as <-. eapply PBusy; [|reflexivity|..]; cbn; auto.
  - destruct I as (P & B).
    assert (B' : books (set_runs [RBreak] (set_term true s))).
    { destruct B as [A (d & B)]; split; [|exists d]; cbn in *; rewrite U in *; cbn in *; assumption. }
    destruct P as [R U' Q1 Q2 Dn F I1 I2 I3|p R U' Dn M V|R U' Dn M V W X Y]; rewrite U in U'; try discriminate.
    injection U' as <-. destruct V as [Bd Rm]. unfold stop. cbn. rewrite R. split; [|exact B'].
    eapply PBusy; [|reflexivity|..]; cbn; auto. repeat split; auto; congruence.
  - destruct I as (P & B).
    pose proof (remove_gone s) as G. destruct (remove_same s) as (E1 & E2 & E3 & E4 & E5 & E6 & E7 & E8 & E9 & E10 & E11).
    split; [|pose proof (remove_books s B) as [A (d & B')]; split; [|exists d]; cbn in *; rewrite ?E8, U in *; cbn in *; assumption].
    destruct P as [R U' Q1 Q2 Dn F I1 I2 I3|p R U' Dn M V|R U' Dn M V W X Y]; rewrite U in U'; try discriminate.
    injection U' as <-. destruct V as (T & Rm & K). eapply PBusy; [|reflexivity|..]; cbn; try congruence.
    rewrite E3, E10, Rm, E9, E1, E2. auto.
  - destruct I as (P & B).
    split; [|destruct B as [A (d & B)]; split; [|exists d]; cbn in *; rewrite U in *; cbn in *; assumption].
    destruct P as [R U' Q1 Q2 Dn F I1 I2 I3|p R U' Dn M V|R U' Dn M V W X Y]; rewrite U in U'; try discriminate.
    injection U' as <-. destruct V as (T & Rm & K & L). apply PDone; cbn; auto.
Qed.

Lemma rstep_runs p s ps s' : rstep p s ps s' -> runs s' = runs s.
Proof.
  intros St. inversion St; subst; try reflexivity.
  - unfold top. destruct (rq s), (sq s); try reflexivity. destruct (term s); reflexivity.
  - unfold stop. cbn. destruct (running s); reflexivity.
  - apply remove_same.
Qed.

Lemma runs_one s : phase s -> runs s = [] \/ exists p, runs s = [p].
Proof. intros []; eauto. Qed.

Lemma own_inv s s' : inv s -> own_step s s' -> inv s'.
Proof.
  intros I [s1 [a p b ps s2 U St]|Sm Hm|m Hm Sm].
  - destruct (runs_one s (proj1 I)) as [E|(q & E)]; rewrite E in U; [destruct (none _ _ _ U)|].
    destruct (one _ _ _ _ U) as (-> & -> & ->). rewrite app_nil_r. simpl. apply (rstep_inv q s); assumption.
  - apply stop_end_inv; assumption.
  - apply hm_inv, push_recv_inv; assumption.
Qed.

Lemma step_inv s s' : inv s -> step s s' -> inv s'.
Proof.
  intros I [s1 St|m Sm|f m Sm|Sm|Hm].
  - apply (own_inv s); assumption.
  - apply push_recv_inv; assumption.
  - apply push_send_inv; assumption.
  - apply stop_inv; assumption.
  - apply close_inv; assumption.
Qed.

Lemma new_inv : inv sched_new.
Proof.
  split; [apply PIdle; cbn; auto; discriminate|]. split; exists []; cbn; auto.
Qed.

Lemma reach_inv s : reach s -> inv s.
Proof. induction 1; [apply new_inv|eapply step_inv; eassumption]. Qed.

(** The properties *)
Lemma one_run s : reach s -> length (runs s) <= 1.
Proof. intros R. destruct (runs_one s (proj1 (reach_inv s R))) as [->|(p & ->)]; simpl; lia. Qed.

Lemma recv_order s : reach s -> beginning (out_r s) (in_r s) /\ (bad s = false -> runs s = [] -> out_r s = in_r s).
Proof.
  intros R. destruct (reach_inv s R) as (P & (d & E & D) & _). split; [eexists; exact E|].
  intros B U. rewrite U, (D B) in E. cbn in E. rewrite E.
  assert (Q : rq s = []) by (destruct P as [? U' Q1 Q2 ? ? ? ? ?|p ? U' ? ? ?|? ? ? ? ? ? ? Y]; [exact Q1|congruence|apply (Y B)]).
  rewrite Q, app_nil_r. reflexivity.
Qed.

Lemma send_order s : reach s ->
  fair_order (out_s s) (in_s s) /\ (bad s = false -> runs s = [] -> Permutation (in_s s) (out_s s) /\ backs (in_s s) = backs (out_s s)).
Proof.
  intros R. destruct (reach_inv s R) as (P & _ & (d & E & E' & D)). split; [eexists; split; [exact E|exact E']|].
  intros B U. rewrite U, (D B) in E, E'. cbn in E, E'.
  assert (Q : sq s = []) by (destruct P as [? U' Q1 Q2 ? ? ? ? ?|p ? U' ? ? ?|? ? ? ? ? ? ? Y]; [exact Q2|congruence|apply (Y B)]).
  rewrite Q, app_nil_r in E, E'. auto.
Qed.

Lemma live s : reach s -> done s = false -> rq s <> [] \/ sq s <> [] \/ term s = true -> exists p, runs s = [p].
Proof.
  intros R D H. destruct (reach_inv s R) as (P & _).
  destruct P as [? U' Q1 Q2 Dt ? ? ? ?|p ? U' ? ? ?|? ? ? ? ? ? ? Y]; [|eauto|congruence].
  destruct H as [H|[H|H]]; congruence.
Qed.

Lemma over s : reach s -> done s = true -> term s = true /\ runs s = [].
Proof.
  intros R D. destruct (reach_inv s R) as (P & _). destruct P; try congruence; split; congruence.
Qed.

Lemma over_step s s' : reach s -> done s = true -> step s s' ->
  done s' = true /\ out_r s' = out_r s /\ out_s s' = out_s s /\ in_r s' = in_r s /\ in_s s' = in_s s.
Proof.
  intros R D St. destruct (over s R D) as [T U].
  destruct St as [s1 [s2 [a p b ps s3 U' St]|Sm Hm|m Hm Sm]|m Sm|f m Sm|Sm|Hm].
  - rewrite U in U'. destruct (none _ _ _ U').
  - unfold stop_end, remove. cbn. destruct (closed s); cbn; auto.
  - unfold close_push, push_recv. rewrite T. cbn. auto.
  - unfold push_recv. rewrite T. auto.
  - unfold push_send. rewrite T. auto.
  - unfold stop. cbn. destruct (running s); cbn; auto.
  - unfold close. cbn. destruct (inmap s); cbn; auto.
Qed.

Lemma removed s : reach s -> done s = true -> sm s = false -> removes s <> 0 /\ (inmap s = false \/ closed s = true).
Proof.
  intros R D S. destruct (reach_inv s R) as (P & _).
  destruct P as [Rn U Q1 Q2 Dt F I1 I2 I3|p Rn U Dt M V|Rn U Dt M V W X Y]; [|congruence|].
  - apply I3; congruence.
  - split; [rewrite W; discriminate|exact X].
Qed.

Lemma removed_once s : reach s -> running s = true -> removes s <= 1.
Proof.
  intros R D. destruct (reach_inv s R) as (P & _).
  destruct P as [Rn U Q1 Q2 Dt F I1 I2 I3|p Rn U Dt M V|Rn U Dt M V W X Y]; [congruence| |lia].
  destruct p; cbn in V; lia.
Qed.

Lemma kept s : reach s -> term s = false -> removes s = 0.
Proof.
  intros R D. destruct (reach_inv s R) as (P & _).
  destruct P as [Rn U Q1 Q2 Dt F I1 I2 I3|p Rn U Dt M V|Rn U Dt M V W X Y]; [auto| |congruence].
  destruct p; cbn in V; try apply V; destruct V; congruence.
Qed.

(** Calls *)
Lemma calls_send s front m : reach s -> sm s = false ->
  fst (push_send front m s) = negb (term s) /\
  (term s = false ->
     in_s (snd (push_send front m s)) = in_s s ++ [(front, m)] /\
     sq (snd (push_send front m s)) = (if front then (front, m) :: sq s else sq s ++ [(front, m)])) /\
  (term s = true -> snd (push_send front m s) = s).
Proof.
  intros _ _. unfold push_send, start. destruct (term s); cbn.
  - repeat split; discriminate.
  - destruct (running s); cbn; repeat split; discriminate.
Qed.

Lemma calls_recv s m : reach s -> sm s = false ->
  (term s = false -> in_r (push_recv m s) = in_r s ++ [m] /\ rq (push_recv m s) = rq s ++ [m]) /\ (term s = true -> push_recv m s = s).
Proof.
  intros _ _. unfold push_recv, start. destruct (term s); cbn.
  - repeat split; discriminate.
  - destruct (running s); cbn; repeat split; discriminate.
Qed.

Lemma calls_stop s : reach s -> sm s = false -> term (stop s) = true /\ (runs s = [] -> done (stop s) = true).
Proof.
  intros R S. destruct (reach_inv s R) as (P & _). unfold stop. cbn.
  destruct P as [Rn U Q1 Q2 Dt F I1 I2 I3|p Rn U Dt M V|Rn U Dt M V W X Y]; rewrite Rn; cbn; auto.
  split; congruence.
Qed.

(** Progress *)
Lemma can_run s p : runs s = [p] -> sm s = false -> hm s = false -> exists s', run_step s s'.
Proof.
  intros U S H.
  assert (K : exists ps s1, rstep p s ps s1).
  { destruct p as [|[|m rl] sl|[|m sl]| | |]; eexists; eexists;
      [apply R_top|apply R_recvd|apply (R_recv m rl sl true)|apply R_sent|apply (R_send m sl true)|apply R_err|apply R_break|apply R_fin]; assumption. }
  destruct K as (ps & s1 & K). eexists. eapply (S_run s [] p []); [exact U|exact K].
Qed.

Lemma progress s : reach s -> runs s <> [] \/ sm s = true \/ hm s = true -> ~ (sm s = true /\ hm s = true) -> exists s', own_step s s'.
Proof.
  intros R H N. destruct (sm s) eqn:S.
  - assert (Hm : hm s = false) by (destruct (hm s); [exfalso; apply N; auto|reflexivity]).
    eexists. apply O_stop; assumption.
  - destruct (hm s) eqn:Hm.
    + eexists. apply (O_close s 0); assumption.
    + destruct H as [H|[H|H]]; try discriminate.
      destruct (runs_one s (proj1 (reach_inv s R))) as [E|(p & E)]; [congruence|].
      destruct (can_run s p E S Hm) as (s' & K). exists s'. apply O_run, K.
Qed.

Lemma rstep_weight p s ps s' : rstep p s ps s' ->
  10 * (length (rq s') + length (sq s')) + weights ps < 10 * (length (rq s) + length (sq s)) + weight p.
Proof.
  unfold weights. intros St. inversion St; subst; clear St.
  - unfold top. destruct (rq s) eqn:E1, (sq s) eqn:E2; cbn; rewrite ?E1, ?E2; cbn; try lia.
    destruct (term s); cbn; rewrite ?E1, ?E2; cbn; lia.
  - destruct ok; cbn; lia.
  - cbn; lia.
  - destruct ok; cbn; lia.
  - cbn; lia.
  - unfold stop. cbn. destruct (running s); cbn; lia.
  - destruct (remove_same s) as (E1 & E2 & _). rewrite E1, E2. cbn; lia.
  - cbn; lia.
Qed.

Lemma run_measure s s' : run_step s s' -> measure s' < measure s.
Proof.
  intros [a p b ps s1 U St]. pose proof (rstep_weight p s ps s1 St) as W. unfold measure. cbn [runs rq sq set_runs].
  rewrite U. unfold weights in *. rewrite !map_app, !list_sum_app. cbn [map]. change (list_sum (weight p :: map weight b)) with (weight p + list_sum (map weight b)). lia.
Qed.

Lemma terminates n s s' : run_steps n s s' -> n <= measure s.
Proof. induction 1 as [|n s s1 s2 St _ IH]; [lia|]. pose proof (run_measure s s1 St). lia. Qed.

Lemma run_steps_reach n s s' : run_steps n s s' -> reach s -> reach s'.
Proof. induction 1 as [|n s s1 s2 St _ IH]; [auto|]. intros R. apply IH. eapply reach_step; [exact R|]. apply S_own, O_run, St. Qed.

Lemma rstep_locks p s ps s' : rstep p s ps s' -> (running s = true -> sm s' = sm s) /\ hm s' = hm s.
Proof.
  intros St. inversion St; subst; auto.
  - unfold top. destruct (rq s), (sq s); try (split; reflexivity). destruct (term s); split; reflexivity.
  - unfold stop. cbn. destruct (running s); split; try reflexivity. discriminate.
  - destruct (remove_same s) as (E1 & E2 & E3 & E4 & E5 & E6 & E7 & _). auto.
Qed.

Lemma drains s : reach s -> sm s = false -> hm s = false -> exists n s', n <= measure s /\ run_steps n s s' /\ runs s' = [].
Proof.
  remember (measure s) as k eqn:K. assert (K' : measure s <= k) by lia. clear K. revert s K'.
  induction k as [|k IH]; intros s K R S H.
  - destruct (runs_one s (proj1 (reach_inv s R))) as [E|(p & E)].
    + exists 0, s. repeat split; auto. constructor.
    + unfold measure in K. rewrite E in K. unfold weights in K. destruct p; cbn in K; lia.
  - destruct (runs_one s (proj1 (reach_inv s R))) as [E|(p & E)].
    + exists 0, s. repeat split; auto; [lia|constructor].
    + destruct (can_run s p E S H) as (s1 & St).
      assert (R1 : reach s1) by (eapply reach_step; [exact R|apply S_own, O_run, St]).
      pose proof (run_measure s s1 St) as M.
      assert (L : sm s1 = false /\ hm s1 = false).
      { inversion St as [a q b ps s2 U St' Eq]. subst s1. cbn. destruct (rstep_locks q s ps s2 St') as [L1 L2].
        rewrite L2. split; [|exact H]. rewrite L1; [exact S|].
        destruct (reach_inv s R) as (P & _). destruct P as [Rn U'| |]; congruence. }
      destruct (IH s1 ltac:(lia) R1 (proj1 L) (proj2 L)) as (n & s2 & N & Q & Z).
      exists (1 + n), s2. repeat split; [lia|econstructor; eassumption|exact Z].
Qed.

(** The two mutexes *)
Lemma dead s : reach s -> sm s = true -> hm s = true -> forall s', ~ step s s'.
Proof.
  intros R S H s' St. destruct (reach_inv s R) as (P & _).
  assert (U : runs s = []) by (destruct P; congruence).
  destruct St as [s1 [s2 [a p b ps s3 U' St]|Sm Hm|m Hm Sm]|m Sm|f m Sm|Sm|Hm]; try congruence.
  rewrite U in U'. destruct (none _ _ _ U').
Qed.

Ltac go R c := eapply reach_step in R; [|c]; cbv in R.

Lemma deadlock : exists s, reach s /\ sm s = true /\ hm s = true /\ out_s s = [(false, 7)].
Proof.
  pose proof reach_new as R.
  go R ltac:(apply (S_send _ false 7); reflexivity).
  go R ltac:(apply S_own, O_run; eapply (S_run _ [] RTop []); [reflexivity|apply R_top; reflexivity]).
  go R ltac:(apply S_own, O_run; eapply (S_run _ [] _ []); [reflexivity|apply R_recvd]).
  go R ltac:(apply S_own, O_run; eapply (S_run _ [] _ []); [reflexivity|apply (R_send _ _ true)]).
  go R ltac:(apply S_own, O_run; eapply (S_run _ [] _ []); [reflexivity|apply R_sent]).
  go R ltac:(apply S_own, O_run; eapply (S_run _ [] _ []); [reflexivity|apply R_top; reflexivity]).
  go R ltac:(apply S_stop; reflexivity).
  go R ltac:(apply S_close; reflexivity).
  eexists. split; [exact R|]. repeat split.
Qed.

Lemma deadlock_stuck : exists s, reach s /\ out_s s = [(false, 7)] /\ sm s = true /\ hm s = true /\ forall s', ~ step s s'.
Proof. destruct deadlock as (s & R & A & B & O). exists s. repeat split; auto. apply dead; assumption. Qed.

Lemma twice : exists s, reach s /\ removes s = 2.
Proof.
  pose proof reach_new as R.
  go R ltac:(apply S_stop; reflexivity).
  go R ltac:(apply S_own, O_stop; reflexivity).
  go R ltac:(apply S_stop; reflexivity).
  go R ltac:(apply S_own, O_stop; reflexivity).
  eexists. split; [exact R|]. reflexivity.
Qed.

(** A fiber takes both queues, and what comes in meanwhile is taken by the same fiber in the next round. *)
Lemma example : exists s, reach s /\ out_r s = [1; 2] /\ out_s s = [(true, 6); (false, 5); (false, 8)] /\ runs s = [] /\ done s = true /\ removes s = 1.
Proof.
  pose proof reach_new as R.
  go R ltac:(apply (S_recv _ 1); reflexivity).
  go R ltac:(apply (S_send _ false 5); reflexivity).
  go R ltac:(apply (S_send _ true 6); reflexivity).
  go R ltac:(apply S_own, O_run; eapply (S_run _ [] RTop []); [reflexivity|apply R_top; reflexivity]).
  go R ltac:(apply (S_recv _ 2); reflexivity).
  go R ltac:(apply S_own, O_run; eapply (S_run _ [] _ []); [reflexivity|apply (R_recv _ _ _ true)]).
  go R ltac:(apply (S_send _ false 8); reflexivity).
  go R ltac:(apply S_own, O_run; eapply (S_run _ [] _ []); [reflexivity|apply R_recvd]).
  go R ltac:(apply S_own, O_run; eapply (S_run _ [] _ []); [reflexivity|apply (R_send _ _ true)]).
  go R ltac:(apply S_own, O_run; eapply (S_run _ [] _ []); [reflexivity|apply (R_send _ _ true)]).
  go R ltac:(apply S_stop; reflexivity).
  go R ltac:(apply S_own, O_run; eapply (S_run _ [] _ []); [reflexivity|apply R_sent]).
  go R ltac:(apply S_own, O_run; eapply (S_run _ [] RTop []); [reflexivity|apply R_top; reflexivity]).
  go R ltac:(apply S_own, O_run; eapply (S_run _ [] _ []); [reflexivity|apply (R_recv _ _ _ true)]).
  go R ltac:(apply S_own, O_run; eapply (S_run _ [] _ []); [reflexivity|apply R_recvd]).
  go R ltac:(apply S_own, O_run; eapply (S_run _ [] _ []); [reflexivity|apply (R_send _ _ true)]).
  go R ltac:(apply S_own, O_run; eapply (S_run _ [] _ []); [reflexivity|apply R_sent]).
  go R ltac:(apply S_own, O_run; eapply (S_run _ [] RTop []); [reflexivity|apply R_top; reflexivity]).
  go R ltac:(apply S_own, O_run; eapply (S_run _ [] _ []); [reflexivity|apply R_break; reflexivity]).
  go R ltac:(apply S_own, O_run; eapply (S_run _ [] _ []); [reflexivity|apply R_fin; reflexivity]).
  eexists. split; [exact R|]. repeat split.
Qed.
