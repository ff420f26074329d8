(** Proofs about the blocking queue: pushers that wait, and what the invariants say. *)
From Coq Require Import Lia.
From Verif.Lib Require Import Base ListX Count.
From Verif.FiberQueue Require Import Model Spec Proofs.
Local Open Scope Z_scope.

(** ** Pushers
    [m s] measures the places for which a pusher could be woken. *)
Section Pushers.
Variables (szf : nat -> Z) (stops resizes : bool) (top : Z).
Hypothesis Hs : sane szf top.
Hypothesis Hr : resizes = false.
Variable m : list nat -> Z -> Z -> Z.
Definition me (s : bq) : Z := m (q_items s) (q_size s) (q_cap s).
Hypothesis M_take : forall x r size cap, 0 <= size - szf x -> m r (size - szf x) cap <= m (x :: r) size cap + 1.
Hypothesis M_put : forall l x size cap, m (l ++ [x]) (size + szf x) cap <= Z.max (m l size cap - 1) 0.
Variable good : Z -> Prop.
Hypothesis M_full : forall l x cap, good cap -> cap < szf x + total szf l -> m l (total szf l) cap <= 0.

Record pinv (s : bq) : Prop := {
  p_good : good (q_cap s);
  p_go : q_stop s = false -> 1 <= N ugo s -> me s <= 0;
  p_sl : q_stop s = false -> 1 <= N usl s -> me s <= N onot s + N uw s }.

Lemma p_init cap n : good cap -> pinv (bq_new cap n).
Proof. intros G. constructor; [exact G|..]; intros _; cbn [bq_new q_pcs]; rewrite zc_repeat by reflexivity; lia. Qed.

Ltac simp := cbn [go set_mx set_stop set_cap put take q_items q_size q_cap q_stop q_mx q_pcs q_in q_out] in *.
Ltac pfacts H P s :=
  pose proof (b_mx _ _ _ _ s H) as Fmx; pose proof (bz_le (q_mx s)) as B1; pose proof (p_go s P) as Fgo; pose proof (p_sl s P) as Fsl;
  pose proof (parts (q_pcs s)) as (G1 & G2);
  pose proof (zc_pos hold (q_pcs s)) as Phold; pose proof (zc_pos otk (q_pcs s)) as Potk; pose proof (zc_pos ogo (q_pcs s)) as Pogo;
  pose proof (zc_pos ugo (q_pcs s)) as Pugo; pose proof (zc_pos usl (q_pcs s)) as Pusl; pose proof (zc_pos onot (q_pcs s)) as Ponot;
  pose proof (zc_pos uw (q_pcs s)) as Puw; pose proof (zc_pos hoth (q_pcs s)) as Photh.
Ltac mine c0 s i L E :=
  let M := fresh in
  assert (M : forall f, f c0 = true -> 1 <= zc f (q_pcs s)) by (intros ? ?; apply (zc_nth _ _ i Idle L); rewrite E; assumption);
  try pose proof (M hold eq_refl) as Mhold; try pose proof (M otk eq_refl) as Motk; try pose proof (M ogo eq_refl) as Mogo;
  try pose proof (M ugo eq_refl) as Mugo; try pose proof (M usl eq_refl) as Musl; try pose proof (M onot eq_refl) as Monot;
  try pose proof (M uw eq_refl) as Muw; try pose proof (M hoth eq_refl) as Mhoth; clear M.
Ltac pstep :=
  match goal with
  | A : at_pc ?i ?c0 ?s, H : inv _ _ _ _ ?s, P : pinv ?s |- pinv (go ?i ?c _) =>
      let L := fresh "L" in let E := fresh "E" in let ES := fresh "ES" in
      pose proof A as (L & E); mine c0 s i L E; pfacts H P s;
      repeat match goal with K : q_mx _ = _ |- _ => rewrite K in *; clear K end; cbn [bz] in *;
      constructor; [first [apply P|assumption]|..]; unfold me in *; simp; rewrite ?(zc_lset _ (q_pcs s) i c Idle L), ?E; cbn [ugo usl onot uw bz];
      intros ES; first [discriminate ES|congruence|idtac]; repeat match goal with F : q_stop _ = false -> _ |- _ => specialize (F ES) end; intros; try zl; try lia
  end.
Lemma p_told s i : inv szf stops resizes top s -> pinv s -> (q_stop s = false -> 1 <= N usl s -> me s + 1 <= N onot s + N uw s) -> at_pc i ONot s -> pinv (go i Idle s).
Proof. intros H P K A. pstep. Qed.
Lemma p_popper s j k : inv szf stops resizes top s -> pinv s -> at_pc j (OSleep k) s -> pinv (go j (OWant k) s).
Proof. intros H P A. pstep. Qed.
Lemma p_pusher s j k x : inv szf stops resizes top s -> pinv s -> at_pc j (USleep k x) s -> pinv (go j (UWant k x) s).
Proof. intros H P A. pstep. Qed.
Lemma no_usl s : (forall j k x, nth j (q_pcs s) Idle <> USleep k x) -> N usl s = 0.
Proof. intros K. unfold zc. rewrite (cnt_none _ _ Idle); [reflexivity|]. intros j Hj. destruct (nth j (q_pcs s) Idle) eqn:E; try reflexivity. elim (K j _ _ E). Qed.
Lemma full s x : inv szf stops resizes top s -> pinv s -> can_push szf x s = false -> q_stop s = false -> me s <= 0.
Proof.
  intros H P K E. rewrite (can_push_spec szf stops resizes top Hs s x H E) in K. unfold me. rewrite (b_size _ _ _ _ s H) in *.
  apply (M_full _ x); [apply P|lia].
Qed.
Lemma p_step s s' : inv szf stops resizes top s -> pinv s -> step szf stops resizes top s s' -> pinv s'.
Proof.
  intros H P St. destruct St as [i s s' T| | | | ].
  { destruct T.
    all: try match goal with K : can_push _ ?x ?s = false |- _ => pose proof (full s x H P K) as Cp
                           | K : forall _ _ _, nth _ _ _ <> USleep _ _ |- _ => pose proof (no_usl s K) end.
    all: try (match goal with |- pinv (go _ _ (go _ _ _)) => fail 1 | |- pinv (go _ _ (set_mx _ (put _ _ _))) => fail 1 | |- pinv (go _ _ (set_mx _ (take _ _ _ _))) => fail 1
                            | _ => idtac end; pstep; fail).
    - (* u_put *) pose proof (b_put _ _ _ _ s H i x H0 H1) as (Q1 & Q2). destruct (Hs x) as (Z1 & Z2). pose proof (b_top _ _ _ _ s H) as Q3.
      assert (Eu : u64 (q_size s + szf x) = q_size s + szf x) by (apply u64_small; lia). pose proof (M_put (q_items s) x (q_size s) (q_cap s)) as Mp. rewrite <- Eu in Mp. pstep.
    - (* u_notify *) destruct (Nat.eq_dec i j) as [->|Ne]; [destruct H0, H1; congruence|]. pose proof (wake_popper szf stops resizes top s j k H H1) as H2.
      pose proof (p_popper s j k H P H1) as P2. pose proof (at_other s i j _ (OWant k) H0 Ne) as A. clear H0 H1 H P. remember (go j (OWant k) s) as t. clear Heqt. pstep.
    - (* o_take *) destruct (Hs x) as (Z1 & Z2). pose proof (b_top _ _ _ _ s H) as Q3. pose proof (b_size _ _ _ _ s H) as Q4. rewrite H2 in Q4. cbn [total] in Q4.
      assert (Zp : 0 <= total szf r) by (apply total_pos; intros y; apply Hs).
      assert (Eu : u64 (q_size s - szf x) = q_size s - szf x) by (apply u64_small; lia). pose proof (M_take x r (q_size s) (q_cap s) ltac:(lia)) as Mp.
      rewrite <- Eu, <- H2 in Mp. pstep.
    - (* o_notify *) destruct (Nat.eq_dec i j) as [->|Ne]; [destruct H0, H1; congruence|]. apply p_told;
        [exact (wake_pusher szf stops resizes top s j k x H H1)|exact (p_pusher s j k x H P H1)| |apply at_other; assumption].
      unfold me. simp. intros ES K. pose proof H1 as (L & E). pfacts H P s. pose proof (zc_nth usl (q_pcs s) j Idle L ltac:(rewrite E; reflexivity)).
      rewrite !(zc_lset _ (q_pcs s) j (UWant k x) Idle L), !E in *. cbn [usl onot uw bz] in *. specialize (Fsl ES). unfold me in *. lia.
    - destruct (Nat.eq_dec i j) as [->|Ne]; [destruct H0, H1; congruence|]. pose proof (wake_pusher szf stops resizes top s j k x H H1) as H2.
      pose proof (p_pusher s j k x H P H1) as P2. pose proof (at_other s i j _ (UWant k x) H0 Ne) as A. clear H0 H1 H P. remember (go j (UWant k x) s) as t. clear Heqt. pstep. }
  - pstep.
  - pstep.
  - pstep.
  - congruence.
Qed.
Lemma p_run cap n s : 0 <= cap <= top -> good cap -> run szf stops resizes top cap n s -> pinv s.
Proof.
  intros Hc G R. induction R as [|s s' R IH St]; [exact (p_init cap n G)|].
  exact (p_step s s' (proj1 (run_inv szf stops resizes top Hs cap n s Hc R)) IH St).
Qed.
End Pushers.

(** TryPush and TryPop do not wait. *)
Definition trb (c : pc) : bool := match c with UGo Try _ | USleep Try _ | OGo Try | OSleep Try => true | _ => false end.
Lemma trb_go t j c : (forall i, trb (nth i (q_pcs t) Idle) = false) -> trb c = false -> forall i, trb (nth i (q_pcs (go j c t)) Idle) = false.
Proof.
  intros A B i. cbn [go q_pcs]. destruct (Nat.eq_dec j i) as [->|Ne]; [|rewrite nth_lset_other by congruence; apply A].
  destruct (Nat.lt_ge_cases i (length (q_pcs t))) as [L|L]; [rewrite nth_lset_same by exact L; exact B|].
  rewrite nth_overflow by (rewrite lset_length; exact L). reflexivity.
Qed.
Lemma trb_run szf stops resizes top cap n s : run szf stops resizes top cap n s -> forall i, trb (nth i (q_pcs s) Idle) = false.
Proof.
  intros R. induction R as [|a b R1 IH St]; intros i; [cbn; rewrite nth_repeat; reflexivity|].
  assert (G : forall j c, at_pc j c a -> trb c = false) by (intros j c (_ & <-); apply IH).
  revert i. destruct St as [j a b T| | | |]; [destruct T|..]; repeat apply trb_go; try exact IH; try reflexivity;
    repeat match goal with A : at_pc _ _ _ |- _ => apply G in A end; try assumption.
  - destruct k; [reflexivity..|congruence].
  - destruct k; [reflexivity..|congruence].
  - destruct (_ <? _); reflexivity.
Qed.

(** ** What holds in all runs *)
Section Props.
Variables (szf : nat -> Z) (stops resizes : bool) (top cap : Z) (n : nat) (s : bq).
Hypothesis Hs : sane szf top.
Hypothesis Hc : 0 <= cap <= top.
Hypothesis R : run szf stops resizes top cap n s.
Local Notation at_ i := (nth i (q_pcs s) Idle).
Lemma H : inv szf stops resizes top s.
Proof. exact (proj1 (run_inv szf stops resizes top Hs cap n s Hc R)). Qed.
Lemma Len : length (q_pcs s) = n.
Proof. exact (proj2 (run_inv szf stops resizes top Hs cap n s Hc R)). Qed.
Lemma some f i : (i < n)%nat -> f (at_ i) = true -> 1 <= N f s.
Proof. intros L E. apply (zc_nth f _ i Idle); [rewrite Len; exact L|exact E]. Qed.
Lemma none f : (forall i, (i < n)%nat -> f (at_ i) = false) -> N f s = 0.
Proof. intros E. unfold zc. rewrite (cnt_none f _ Idle); [reflexivity|]. intros i L. apply E. rewrite <- Len. exact L. Qed.
Lemma ex f : 1 <= N f s -> exists i, (i < n)%nat /\ f (at_ i) = true.
Proof. intros E. destruct (zc_ex f (q_pcs s) Idle ltac:(lia)) as (i & L & K). rewrite Len in L. eauto. Qed.

Lemma fifo : q_in s = q_out s ++ q_items s /\ q_size s = total szf (q_items s).
Proof. split; apply H. Qed.
Lemma bound : resizes = false -> q_size s <= q_cap s.
Proof. apply H. Qed.
Lemma cap_same : resizes = false -> q_cap s = cap.
Proof.
  intros E. clear Hc Hs. induction R as [|a b R1 IH St]; [reflexivity|]. rewrite <- (IH R1). destruct St as [i a b T| | | |]; [destruct T|..]; try reflexivity. congruence.
Qed.
Lemma no_crash i : at_ i <> Crash.
Proof.
  intros E. destruct (Nat.lt_ge_cases i n) as [L|L]; [|rewrite nth_overflow in E by (rewrite Len; exact L); discriminate].
  pose proof (some cr i L ltac:(rewrite E; reflexivity)). pose proof (b_cr _ _ _ _ s H). lia.
Qed.

Lemma moves i : (i < n)%nat -> at_ i <> Idle -> (forall x, at_ i <> USleep Block x /\ at_ i <> USleep Try x) -> at_ i <> OSleep Block -> at_ i <> OSleep Try ->
  q_mx s = false \/ hold (at_ i) = true -> exists s', tstep szf i s s'.
Proof.
  intros Li N1 N2 N3 N4 K. pose proof Li as Li2. rewrite <- Len in Li2.
  destruct (at_ i) as [|k x|k x|k x|k x|x| |k|k|k|k| | | |] eqn:P; try (exfalso; tauto); try (destruct K as [K|K]; [|discriminate K]).
  - eexists. eapply u_lock; [split; eassumption|exact K].
  - destruct (can_push szf x s) eqn:G; [eexists; eapply u_room; [split; eassumption|exact G]|].
    destruct k; eexists; [eapply u_full|eapply u_full|eapply u_try]; try (split; eassumption); try exact G; discriminate.
  - eexists. eapply u_wait; split; eassumption.
  - destruct k; try (exfalso; destruct (N2 x); congruence). eexists. eapply u_timeout; split; eassumption.
  - destruct (q_stop s) eqn:G; eexists; [eapply u_drop|eapply u_put]; try split; eassumption.
  - destruct (Z.le_gt_cases 1 (N osl s)) as [G|G].
    + destruct (ex osl G) as (j & Lj & Ej). rewrite <- Len in Lj. destruct (at_ j) eqn:Pj; try discriminate. eexists. eapply (u_notify _ i s j); split; eassumption.
    + eexists. eapply u_notify_none; [split; eassumption|]. intros j k Ej.
      destruct (Nat.lt_ge_cases j n) as [L|L]; [|rewrite nth_overflow in Ej by (rewrite Len; exact L); discriminate].
      pose proof (some osl j L ltac:(rewrite Ej; reflexivity)). lia.
  - eexists. eapply o_lock; [split; eassumption|exact K].
  - destruct (can_pop s) eqn:G; [eexists; eapply o_some; [split; eassumption|exact G]|].
    destruct k; eexists; [eapply o_none|eapply o_none|eapply o_try]; try (split; eassumption); try exact G; discriminate.
  - eexists. eapply o_wait; split; eassumption.
  - destruct k; try (exfalso; congruence). eexists. eapply o_timeout; split; eassumption.
  - destruct (q_stop s) eqn:G; [eexists; eapply o_drop; [split; eassumption|exact G]|].
    destruct (q_items s) as [|x r] eqn:Q; eexists; [eapply o_take_bad|eapply o_take]; try split; eassumption.
  - destruct (Z.le_gt_cases 1 (N usl s)) as [G|G].
    + destruct (ex usl G) as (j & Lj & Ej). rewrite <- Len in Lj. destruct (at_ j) eqn:Pj; try discriminate. eexists. eapply (o_notify _ i s j); split; eassumption.
    + eexists. eapply o_notify_none; [split; eassumption|]. intros j k x Ej.
      destruct (Nat.lt_ge_cases j n) as [L|L]; [|rewrite nth_overflow in Ej by (rewrite Len; exact L); discriminate].
      pose proof (some usl j L ltac:(rewrite Ej; reflexivity)). lia.
  - destruct (Z.le_gt_cases 1 (N usl s)) as [G|G].
    + destruct (ex usl G) as (j & Lj & Ej). rewrite <- Len in Lj. destruct (at_ j) eqn:Pj; try discriminate. eexists. eapply (st_notify _ i s j); split; eassumption.
    + eexists. eapply st_notify_none; [split; eassumption|]. intros j k x Ej.
      destruct (Nat.lt_ge_cases j n) as [L|L]; [|rewrite nth_overflow in Ej by (rewrite Len; exact L); discriminate].
      pose proof (some usl j L ltac:(rewrite Ej; reflexivity)). lia.
  - exfalso. exact (no_crash i P).
Qed.

(** A fiber that nothing inside of the calls can bring forward. *)
Lemma no_try i : trb (at_ i) = false.
Proof. exact (trb_run _ _ _ _ _ _ _ R i). Qed.
Lemma hold_moves i : (i < n)%nat -> hold (at_ i) = true -> exists s', tstep szf i s s'.
Proof.
  intros L K. apply moves; auto; destruct (at_ i); try discriminate; intros; split; discriminate.
Qed.
Lemma quiet : stuck szf s -> q_mx s = false /\ forall i, (i < n)%nat -> at_ i = Idle \/ at_ i = OSleep Block \/ exists x, at_ i = USleep Block x.
Proof.
  intros S. pose proof (b_mx _ _ _ _ s H) as M. assert (Em : q_mx s = false).
  { destruct (q_mx s) eqn:E; [|reflexivity]. exfalso. cbn [bz] in M. destruct (ex hold ltac:(lia)) as (i & L & K).
    destruct (hold_moves i L K) as (s' & T). exact (S i s' T). }
  split; [exact Em|]. intros i L. pose proof (no_try i) as T. pose proof (moves i L) as Mv. revert T Mv.
  destruct (at_ i) as [|k x|k x|k x|[| |] x|x| |k|k|k|[| |]| | | |] eqn:E; intros T Mv; eauto; try discriminate;
    (exfalso; assert (W : exists s', tstep szf i s s') by (apply Mv; [discriminate|intros; split; discriminate|discriminate|discriminate|left; exact Em]);
     destruct W as (s' & W); exact (S i s' W)).
Qed.
Lemma progress i : (i < n)%nat -> (exists s', tstep szf i s s') \/ at_ i = Idle \/ at_ i = OSleep Block \/ (exists x, at_ i = USleep Block x) \/
  q_mx s = true /\ exists j s', j <> i /\ tstep szf j s s'.
Proof.
  intros L. pose proof (no_try i) as T. pose proof (moves i L) as Mv. pose proof (b_mx _ _ _ _ s H) as M. revert T Mv.
  destruct (at_ i) as [|k x|k x|k x|[| |] x|x| |k|k|k|[| |]| | | |] eqn:E; intros T Mv; try (solve [eauto 10]); try discriminate.
  all: try (left; apply Mv; [discriminate|intros; split; discriminate|discriminate|discriminate|right; reflexivity]).
  all: destruct (q_mx s) eqn:Em; [|left; apply Mv; [discriminate|intros; split; discriminate|discriminate|discriminate|left; reflexivity]].
  all: right; right; right; right; split; [reflexivity|]; cbn [bz] in M; destruct (ex hold ltac:(lia)) as (j & Lj & K).
  all: destruct (hold_moves j Lj K) as (s' & W).
  all: exists j, s'; split; [intros ->; rewrite E in K; discriminate|exact W].
Qed.

Lemma quiet_none f : stuck szf s -> f Idle = false -> f (OSleep Block) = false -> (forall x, f (USleep Block x) = false) -> N f s = 0.
Proof. intros S F1 F2 F3. apply none. intros i L. destruct (proj2 (quiet S) i L) as [->|[->|(x & ->)]]; auto. Qed.
Lemma poppers i : q_stop s = false -> stuck szf s -> popping (at_ i) -> q_items s = [].
Proof.
  intros Es S (k & E). destruct (Nat.lt_ge_cases i n) as [L|L]; [|rewrite nth_overflow in E by (rewrite Len; exact L); discriminate].
  pose proof (b_osl _ _ _ _ s H Es (some osl i L ltac:(rewrite E; reflexivity))) as B.
  rewrite (quiet_none unot S) in B by reflexivity. rewrite (quiet_none ow S) in B by reflexivity. destruct (q_items s); [reflexivity|cbn [length] in B; lia].
Qed.
Lemma pushers_gen (m : list nat -> Z -> Z -> Z) (good : Z -> Prop) : resizes = false -> good cap ->
  (forall x r size cap, 0 <= size - szf x -> m r (size - szf x) cap <= m (x :: r) size cap + 1) ->
  (forall l x size cap, m (l ++ [x]) (size + szf x) cap <= Z.max (m l size cap - 1) 0) ->
  (forall l x cap, good cap -> cap < szf x + total szf l -> m l (total szf l) cap <= 0) ->
  forall i, q_stop s = false -> stuck szf s -> pushing (at_ i) -> m (q_items s) (q_size s) (q_cap s) <= 0.
Proof.
  intros Er G M1 M2 M3 i Es S (k & x & E). destruct (Nat.lt_ge_cases i n) as [L|L]; [|rewrite nth_overflow in E by (rewrite Len; exact L); discriminate].
  pose proof (p_run szf stops resizes top Hs Er m M1 M2 good M3 cap n s Hc G R) as P.
  pose proof (p_sl _ _ s P Es (some usl i L ltac:(rewrite E; reflexivity))) as B.
  rewrite (quiet_none onot S) in B by reflexivity. rewrite (quiet_none uw S) in B by reflexivity. exact B.
Qed.
Lemma pushers_unit i : resizes = false -> (forall x, szf x = 1) -> q_stop s = false -> stuck szf s -> pushing (at_ i) -> q_size s = q_cap s.
Proof.
  intros Er U Es S P. pose proof (bound Er).
  enough (q_cap s - q_size s <= 0) by lia.
  apply (pushers_gen (fun _ size cap => cap - size) (fun _ => True) Er I) with (i := i); try assumption.
  - intros x r z c. rewrite U. lia.
  - intros l x z c. rewrite U. lia.
  - intros l x c _. rewrite U. lia.
Qed.
Lemma pushers_some i : resizes = false -> (forall x, szf x <= cap) -> q_stop s = false -> stuck szf s -> pushing (at_ i) -> q_items s <> [].
Proof.
  intros Er U Es S P. enough (1 - len (q_items s) <= 0) by (intros E; rewrite E in *; cbn in *; lia).
  apply (pushers_gen (fun l _ _ => 1 - len l) (fun c => c = cap) Er eq_refl) with (i := i); try assumption.
  - intros x r z c _. cbn [length]. lia.
  - intros l x z c. rewrite app_length. cbn [length]. lia.
  - intros l x c -> K. destruct l as [|y l]; cbn [length total] in *; [specialize (U x)|]; lia.
Qed.
Lemma no_deadlock i j : resizes = false -> (forall x, szf x <= cap) -> q_stop s = false -> stuck szf s -> pushing (at_ i) -> popping (at_ j) -> False.
Proof. intros Er U Es S P1 P2. exact (pushers_some i Er U Es S P1 (poppers j Es S P2)). Qed.

(** Pushes and pops that nobody disturbs. *)
Lemma calls i s' : tstep szf i s s' ->
  (forall k x, at_ i = UIn k x -> q_stop s = false ->
     (szf x + q_size s <= q_cap s -> nth i (q_pcs s') Idle = UPut x) /\
     (q_cap s < szf x + q_size s -> nth i (q_pcs s') Idle = match k with Try => Idle | _ => UGo k x end)) /\
  (forall k, at_ i = OIn k -> q_stop s = false ->
     (q_items s <> [] -> nth i (q_pcs s') Idle = OTake) /\ (q_items s = [] -> nth i (q_pcs s') Idle = match k with Try => Idle | _ => OGo k end)) /\
  (forall x, at_ i = UPut x -> q_stop s = false -> q_items s' = q_items s ++ [x] /\ nth i (q_pcs s') Idle = UNot) /\
  (at_ i = OTake -> q_stop s = false -> q_items s = hd 0%nat (q_items s) :: q_items s' /\ q_out s' = q_out s ++ [hd 0%nat (q_items s)] /\ nth i (q_pcs s') Idle = ONot).
Proof.
  intros T. assert (Li : (i < length (q_pcs s))%nat) by (destruct T; match goal with A : at_pc i _ _ |- _ => apply A end).
  pose proof no_crash as NC. pose proof H as HI.
  assert (Cp : forall x, q_stop s = false -> can_push szf x s = (szf x + q_size s <=? q_cap s)) by (intros x Es; exact (can_push_spec szf stops resizes top Hs s x HI Es)).
  assert (Bt : q_stop s = false -> 1 <= N otk s -> q_items s <> []).
  { intros Es O Q. pose proof (b_take _ _ _ _ s HI Es O) as K. rewrite Q in K. cbn in K. lia. }
  repeat split.
  all: intros; destruct T; repeat match goal with A : at_pc _ _ _ |- _ => destruct A as (? & ?) end; try congruence.
  all: cbn [go set_mx put take q_pcs q_items q_out]; rewrite ?nth_lset_same by exact Li; try congruence.
  all: repeat match goal with A : ?x = _, B : ?x = _ |- _ => rewrite A in B; first [injection B as ? ?|injection B as ?|clear B]; subst end.
  all: try match goal with K : can_push _ _ _ = _ |- _ => rewrite Cp in K by assumption; exfalso; lia end.
  all: try match goal with K : can_pop _ = _ |- _ => unfold can_pop in K; exfalso; destruct (q_items s); congruence end.
  all: try reflexivity; try congruence.
  all: try (destruct k; [reflexivity..|congruence]).
  all: try (match goal with K : q_items _ = _ :: _ |- _ => rewrite K end; reflexivity).
  all: exfalso; apply (Bt ltac:(assumption)); [apply (zc_nth otk _ i Idle Li)|assumption]; match goal with K : _ = OTake |- _ => rewrite K end; reflexivity.
Qed.
End Props.

(** After Stop. *)
Lemma stop_calls szf s i s' : tstep szf i s s' -> q_stop s = true ->
  q_items s' = q_items s /\ q_in s' = q_in s /\ q_out s' = q_out s /\ q_size s' = q_size s /\ q_stop s' = true /\
  (forall k x, nth i (q_pcs s) Idle = UIn k x -> nth i (q_pcs s') Idle = UPut x) /\ (forall x, nth i (q_pcs s) Idle = UPut x -> nth i (q_pcs s') Idle = UNot) /\
  (forall k, nth i (q_pcs s) Idle = OIn k -> nth i (q_pcs s') Idle = OTake) /\ (nth i (q_pcs s) Idle = OTake -> nth i (q_pcs s') Idle = ONot) /\
  (forall k x, nth i (q_pcs s') Idle = USleep k x -> nth i (q_pcs s) Idle = UGo k x) /\ (forall k, nth i (q_pcs s') Idle = OSleep k -> nth i (q_pcs s) Idle = OGo k).
Proof.
  intros T Es. assert (Li : (i < length (q_pcs s))%nat) by (destruct T; match goal with A : at_pc i _ _ |- _ => apply A end).
  assert (Cp : forall x, can_push szf x s = true) by (intros x; unfold can_push; rewrite Es; apply Bool.orb_true_r).
  assert (Co : can_pop s = true) by (unfold can_pop; rewrite Es; destruct (q_items s); reflexivity).
  destruct T; try match goal with K : can_push _ ?x _ = false |- _ => rewrite Cp in K; discriminate K | K : can_pop _ = false |- _ => congruence | K : q_stop _ = false |- _ => congruence end;
    repeat match goal with A : at_pc _ _ _ |- _ => destruct A as (? & ?) end.
  all: cbn [go set_mx q_pcs q_items q_in q_out q_size q_stop]; repeat (split; [first [reflexivity|exact Es]|]).
  all: rewrite ?nth_lset_same by (rewrite ?lset_length; exact Li); repeat split; intros; congruence.
Qed.

(** Stop wakes one pusher and one popper. *)
Lemma stop_wakes szf i s s' : tstep szf i s s' -> nth i (q_pcs s) Idle = SFull ->
  nth i (q_pcs s') Idle = UNot /\
  ((forall j, ~ pushing (nth j (q_pcs s) Idle)) -> forall j, j <> i -> nth j (q_pcs s') Idle = nth j (q_pcs s) Idle) /\
  ((exists j, pushing (nth j (q_pcs s) Idle)) -> exists j k x, nth j (q_pcs s) Idle = USleep k x /\ nth j (q_pcs s') Idle = UWant k x).
Proof.
  intros T E. destruct T; repeat match goal with A : at_pc _ _ _ |- _ => destruct A as (? & ?) end; try congruence; cbn [go q_pcs].
  - assert (Ne : i <> j) by congruence. rewrite nth_lset_same by (rewrite lset_length; assumption). split; [reflexivity|]. split.
    + intros K. exfalso. apply (K j). exists k, x. assumption.
    + intros _. exists j, k, x. split; [assumption|]. rewrite nth_lset_other by congruence. apply nth_lset_same. assumption.
  - rewrite nth_lset_same by assumption. split; [reflexivity|]. split.
    + intros _ j Ne. apply nth_lset_other. congruence.
    + intros (j & k & x & K). exfalso. eapply H1. exact K.
Qed.
Lemma notify_wakes szf i s s' : tstep szf i s s' -> nth i (q_pcs s) Idle = UNot ->
  nth i (q_pcs s') Idle = Idle /\
  ((forall j, ~ popping (nth j (q_pcs s) Idle)) -> forall j, j <> i -> nth j (q_pcs s') Idle = nth j (q_pcs s) Idle) /\
  ((exists j, popping (nth j (q_pcs s) Idle)) -> exists j k, nth j (q_pcs s) Idle = OSleep k /\ nth j (q_pcs s') Idle = OWant k).
Proof.
  intros T E. destruct T; repeat match goal with A : at_pc _ _ _ |- _ => destruct A as (? & ?) end; try congruence; cbn [go q_pcs].
  - assert (Ne : i <> j) by congruence. rewrite nth_lset_same by (rewrite lset_length; assumption). split; [reflexivity|]. split.
    + intros K. exfalso. apply (K j). exists k. assumption.
    + intros _. exists j, k. split; [assumption|]. rewrite nth_lset_other by congruence. apply nth_lset_same. assumption.
  - rewrite nth_lset_same by assumption. split; [reflexivity|]. split.
    + intros _ j Ne. apply nth_lset_other. congruence.
    + intros (j & k & K). exfalso. eapply H1. exact K.
Qed.

(** ** Runs *)
Lemma sz3_sane top : 0 <= top < 2 ^ 63 -> sane sz3 top.
Proof. intros H x. unfold sz3. lia. Qed.
Ltac side := try (split; [cbn; lia|reflexivity]); try reflexivity; try discriminate; try (cbn; lia); try (intros [|[|[|[|[|?]]]]]; cbn; intros; discriminate).
Ltac view R := unfold bq_new in R; cbn [go set_mx set_stop set_cap put take q_items q_size q_cap q_stop q_mx q_pcs q_in q_out lset repeat app] in R;
  repeat match type of R with context [u64 ?x] => let y := eval vm_compute in (u64 x) in change (u64 x) with y in R end.
Ltac st R c := let R' := fresh in eassert (R' : run _ _ _ _ _ _ _) by (eapply run_step; [exact R|eapply c; side]); clear R; rename R' into R; view R.
Ltac ti R c := let R' := fresh in eassert (R' : run _ _ _ _ _ _ _) by (eapply run_step; [exact R|eapply s_inner; eapply c; side]); clear R; rename R' into R; view R.
Ltac still := let i := fresh in let T := fresh in intros i ? T; destruct i as [|[|[|[|[|i]]]]]; inversion T;
  repeat match goal with A : at_pc _ _ _ |- _ => destruct A as (? & ?) end; cbn in *; solve [discriminate|lia].
Ltac pushed R i x := st R (fun f a b c s => s_push f a b c i s Block x); ti R (u_lock sz3 i); ti R (u_room sz3 i); ti R (u_put sz3 i); ti R (u_notify_none sz3 i).
Ltac push_waits R i x := st R (fun f a b c s => s_push f a b c i s Block x); ti R (u_lock sz3 i); ti R (u_full sz3 i); ti R (u_wait sz3 i).
Ltac pop_waits R i := st R (fun f a b c s => s_pop f a b c i s Block); ti R (o_lock sz3 i); ti R (o_none sz3 i); ti R (o_wait sz3 i).

Lemma stop_two : exists s, run sz3 true false 3 3 3 s /\ q_stop s = true /\ stuck sz3 s /\ q_pcs s = [Idle; OSleep Block; Idle].
Proof.
  pose proof (run_new sz3 true false 3 3 3) as R. view R.
  pop_waits R 0%nat. pop_waits R 1%nat. st R (s_stop sz3 true false 3 2%nat). ti R (st_notify_none sz3 2%nat). ti R (fun s => u_notify sz3 2%nat s 0%nat).
  ti R (o_lock sz3 0%nat). ti R (o_some sz3 0%nat). ti R (o_drop sz3 0%nat). ti R (o_notify_none sz3 0%nat).
  eexists. split; [exact R|]. split; [reflexivity|]. split; [still|reflexivity].
Qed.
Lemma stop_race : exists s, run sz3 true false 3 3 2 s /\ q_stop s = true /\ stuck sz3 s /\ q_pcs s = [OSleep Block; Idle].
Proof.
  pose proof (run_new sz3 true false 3 3 2) as R. view R.
  st R (fun s => s_pop sz3 true false 3 0%nat s Block). ti R (o_lock sz3 0%nat). ti R (o_none sz3 0%nat).
  st R (s_stop sz3 true false 3 1%nat). ti R (st_notify_none sz3 1%nat). ti R (u_notify_none sz3 1%nat). ti R (o_wait sz3 0%nat).
  eexists. split; [exact R|]. split; [reflexivity|]. split; [still|reflexivity].
Qed.
Lemma weighted : exists s, run sz3 false false 2 2 3 s /\ stuck sz3 s /\ q_pcs s = [Idle; Idle; USleep Block 1%nat] /\ q_size s + sz3 1 <= q_cap s.
Proof.
  pose proof (run_new sz3 false false 2 2 3) as R. view R.
  pushed R 0%nat 2%nat. push_waits R 1%nat 1%nat. push_waits R 2%nat 1%nat.
  st R (fun s => s_pop sz3 false false 2 0%nat s Block). ti R (o_lock sz3 0%nat). ti R (o_some sz3 0%nat). ti R (o_take sz3 0%nat). ti R (fun s => o_notify sz3 0%nat s 1%nat).
  ti R (u_lock sz3 1%nat). ti R (u_room sz3 1%nat). ti R (u_put sz3 1%nat). ti R (u_notify_none sz3 1%nat).
  eexists. split; [exact R|]. split; [still|]. split; [reflexivity|]. cbn. lia.
Qed.
Lemma set_capacity : exists s, run sz3 false true 3 1 4 s /\ stuck sz3 s /\ q_pcs s = [Idle; Idle; USleep Block 1%nat; Idle] /\ q_size s + sz3 1 <= q_cap s.
Proof.
  pose proof (run_new sz3 false true 3 1 4) as R. view R.
  pushed R 0%nat 1%nat. push_waits R 1%nat 1%nat. push_waits R 2%nat 1%nat. st R (fun s => s_cap sz3 false true 3 3%nat s 3). cbn [Z.ltb Z.compare Pos.compare Pos.compare_cont] in R.
  ti R (fun s => o_notify sz3 3%nat s 1%nat). ti R (u_lock sz3 1%nat). ti R (u_room sz3 1%nat). ti R (u_put sz3 1%nat). ti R (u_notify_none sz3 1%nat).
  eexists. split; [exact R|]. split; [still|]. split; [reflexivity|]. cbn. lia.
Qed.
Lemma too_large : exists s, run sz3 false false 2 2 2 s /\ stuck sz3 s /\ q_pcs s = [USleep Block 3%nat; OSleep Block] /\ q_items s = [].
Proof.
  pose proof (run_new sz3 false false 2 2 2) as R. view R. push_waits R 0%nat 3%nat. pop_waits R 1%nat.
  eexists. split; [exact R|]. split; [still|]. split; reflexivity.
Qed.
Lemma dropped : exists s1 s2 s3, run sz3 true false 3 3 2 s1 /\ q_stop s1 = true /\ q_items s1 = [1%nat] /\
  run sz3 true false 3 3 2 s2 /\ q_pcs s1 = [Idle; Idle] /\ nth 0 (q_pcs s2) Idle = UNot /\ q_items s2 = [1%nat] /\
  run sz3 true false 3 3 2 s3 /\ nth 0 (q_pcs s3) Idle = ONot /\ q_items s3 = [1%nat] /\ q_out s3 = [].
Proof.
  pose proof (run_new sz3 true false 3 3 2) as R. view R. pushed R 0%nat 1%nat. st R (s_stop sz3 true false 3 1%nat). ti R (st_notify_none sz3 1%nat). ti R (u_notify_none sz3 1%nat).
  pose proof R as R1. eexists. eexists. eexists. split; [exact R1|]. split; [reflexivity|]. split; [reflexivity|].
  st R (fun s => s_push sz3 true false 3 0%nat s Try 2%nat). ti R (u_lock sz3 0%nat). ti R (u_room sz3 0%nat). ti R (u_drop sz3 0%nat).
  split; [exact R|]. split; [reflexivity|]. split; [reflexivity|]. split; [reflexivity|].
  st R1 (fun s => s_pop sz3 true false 3 0%nat s Try). ti R1 (o_lock sz3 0%nat). ti R1 (o_some sz3 0%nat). ti R1 (o_drop sz3 0%nat).
  split; [exact R1|]. split; [reflexivity|]. split; reflexivity.
Qed.
(** Two items through a queue with one place. *)
Lemma handed : exists s1 s2, run (fun _ => 1) false false 1 1 2 s1 /\ q_pcs s1 = [USleep Block 8%nat; Idle] /\ q_items s1 = [7%nat] /\
  run (fun _ => 1) false false 1 1 2 s2 /\ q_pcs s2 = [Idle; Idle] /\ q_items s2 = [8%nat] /\ q_out s2 = [7%nat] /\ q_size s2 = 1.
Proof.
  pose proof (run_new (fun _ => 1) false false 1 1 2) as R. view R.
  st R (fun s => s_push (fun _ => 1) false false 1 0%nat s Block 7%nat). ti R (u_lock (fun _ => 1) 0%nat). ti R (u_room (fun _ => 1) 0%nat). ti R (u_put (fun _ => 1) 0%nat). ti R (u_notify_none (fun _ => 1) 0%nat).
  st R (fun s => s_push (fun _ => 1) false false 1 0%nat s Block 8%nat). ti R (u_lock (fun _ => 1) 0%nat). ti R (u_full (fun _ => 1) 0%nat). ti R (u_wait (fun _ => 1) 0%nat).
  eexists. eexists. split; [exact R|]. split; [reflexivity|]. split; [reflexivity|].
  st R (fun s => s_pop (fun _ => 1) false false 1 1%nat s Block). ti R (o_lock (fun _ => 1) 1%nat). ti R (o_some (fun _ => 1) 1%nat). ti R (o_take (fun _ => 1) 1%nat).
  ti R (fun s => o_notify (fun _ => 1) 1%nat s 0%nat). ti R (u_lock (fun _ => 1) 0%nat). ti R (u_room (fun _ => 1) 0%nat). ti R (u_put (fun _ => 1) 0%nat). ti R (u_notify_none (fun _ => 1) 0%nat).
  split; [exact R|]. repeat split; reflexivity.
Qed.
