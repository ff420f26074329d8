(** Proofs about the bounded queues. *)
From Coq Require Import Permutation.
From Verif.Lib Require Import Base ListX.
From Verif.Queue Require Import ModelMpmc SpecMpmc.
Local Open Scope Z_scope.

Lemma nth_error_lset {A} (l : list A) i j x :
  nth_error (lset l i x) j = if (i =? j)%nat then (match nth_error l i with Some _ => Some x | None => None end) else nth_error l j.
Proof.
  revert i j; induction l as [|y l IH]; intros [|i] [|j]; cbn; try reflexivity.
  - destruct (i =? j)%nat; reflexivity.
  - apply IH.
Qed.

Section Queue.
Context {V : Type}.
Variable k : Z.
Hypothesis Hk : 1 <= k.
Variable single : bool.
Notation cap := (2 ^ k).
Notation slot := (slot cap).
Notation acc_at := (@accepted_at V).
Implicit Types (s : queue V) (c : pc V).

Lemma cap_ge : 2 <= cap.
Proof. change 2 with (2 ^ 1) at 1. apply Z.pow_le_mono_r; lia. Qed.
Lemma slot_mod p : slot p = p mod cap.
Proof. unfold ModelMpmc.slot. rewrite <- (Z.land_ones p k) by lia. f_equal. rewrite Z.ones_equiv. lia. Qed.
Lemma slot_cap p : slot (p + cap) = slot p.
Proof. rewrite !slot_mod. pose proof cap_ge. rewrite <- (Z.mul_1_l cap) at 1. apply Z_mod_plus_full. Qed.
Lemma slot_inj p q : - cap < p - q < cap -> slot p = slot q -> p = q.
Proof.
  rewrite !slot_mod. pose proof cap_ge as C. intros B H.
  pose proof (Z.div_mod p cap ltac:(lia)) as D1. pose proof (Z.div_mod q cap ltac:(lia)) as D2. rewrite H in D1.
  assert (p / cap = q / cap) by nia. lia.
Qed.
Lemma slot_small p : 0 <= p < cap -> slot p = p.
Proof. intros H. rewrite slot_mod. apply Z.mod_small. exact H. Qed.

Definition wpos c : option Z := match c with PWrite _ p | PPub _ p => Some p | _ => None end.
Definition rpos c : option Z := match c with QRead p | QPub p _ => Some p | _ => None end.
Definition consumer c : Prop := match c with QLoad | QSeq _ | QCas _ | QEmpty _ | QRead _ | QPub _ _ => True | _ => False end.

Definition pc_ok s c : Prop :=
  match c with
  | Idle | PLoad _ | QLoad => True
  | PSeq _ pos | PFull _ pos => 0 <= pos <= q_enq s
  | PCas _ pos => 0 <= pos <= q_enq s /\ (pos = q_enq s -> pos < q_deq s + cap /\ q_seq s (slot pos) = pos)
  | PWrite v p => q_deq s <= p < q_enq s /\ q_seq s (slot p) = p /\ acc_at s p = Some v
  | PPub v p => q_deq s <= p < q_enq s /\ q_seq s (slot p) = p /\ acc_at s p = Some v /\ q_data s (slot p) = Some v
  | QSeq pos => 0 <= pos <= q_deq s /\ (single = true -> pos = q_deq s)
  | QEmpty pos => 0 <= pos <= q_deq s
  | QCas pos => 0 <= pos <= q_deq s /\ (single = true -> pos = q_deq s) /\ (pos = q_deq s -> pos < q_enq s /\ q_seq s (slot pos) = pos + 1)
  | QRead p => 0 <= p < q_deq s /\ q_enq s - cap <= p /\ q_seq s (slot p) = p + 1 /\ q_data s (slot p) = acc_at s p
  | QPub p x => 0 <= p < q_deq s /\ q_enq s - cap <= p /\ q_seq s (slot p) = p + 1 /\ x = acc_at s p
  end.

Definition cell_ok s p : Prop :=
  if p <? q_enq s then
    (q_seq s (slot p) = p /\ exists i c, nth_error (q_thr s) i = Some c /\ wpos c = Some p) \/
    (q_seq s (slot p) = p + 1 /\ q_data s (slot p) = acc_at s p)
  else
    q_seq s (slot p) = p \/ (q_seq s (slot p) = p - cap + 1 /\ exists i c, nth_error (q_thr s) i = Some c /\ rpos c = Some (p - cap)).

Record inv s : Prop := {
  v_range : 0 <= q_deq s <= q_enq s /\ q_enq s <= q_deq s + cap;
  v_acc : Z.of_nat (length (q_acc s)) = q_enq s;
  v_cells : forall p, q_deq s <= p < q_deq s + cap -> cell_ok s p;
  v_pcs : forall i c, nth_error (q_thr s) i = Some c -> pc_ok s c;
  v_wu : forall i j c d p, nth_error (q_thr s) i = Some c -> nth_error (q_thr s) j = Some d -> wpos c = Some p -> wpos d = Some p -> i = j;
  v_ru : forall i j c d p, nth_error (q_thr s) i = Some c -> nth_error (q_thr s) j = Some d -> rpos c = Some p -> rpos d = Some p -> i = j;
  v_single : single = true -> forall i c, nth_error (q_thr s) i = Some c -> consumer c -> i = 0%nat;
  v_out : NoDup (map fst (q_out s));
  v_outs : forall p x, In (p, x) (q_out s) -> 0 <= p < q_deq s /\ x = acc_at s p;
  v_outr : forall i c p, nth_error (q_thr s) i = Some c -> rpos c = Some p -> ~ In p (map fst (q_out s));
  v_all : forall p, 0 <= p < q_deq s -> In p (map fst (q_out s)) \/ exists i c, nth_error (q_thr s) i = Some c /\ rpos c = Some p }.

Lemma inv_init n : inv (init n).
Proof.
  assert (I : forall i c, nth_error (repeat (@Idle V) n) i = Some c -> c = Idle)
    by (intros i c H; apply nth_error_In in H; apply repeat_spec in H; exact H).
  pose proof cap_ge.
  constructor; cbn.
  - lia.
  - reflexivity.
  - intros p Hp. unfold cell_ok. cbn. destruct (p <? 0) eqn:E; [lia|]. left. apply slot_small. lia.
  - intros i c H0. apply I in H0. subst. exact Logic.I.
  - intros i j c d p H0 _ H1. apply I in H0. subst. discriminate.
  - intros i j c d p H0 _ H1. apply I in H0. subst. discriminate.
  - intros _ i c H0 H1. apply I in H0. subst. destruct H1.
  - constructor.
  - intros p x [].
  - intros i c p H0 _ [].
  - intros p Hp. lia.
Qed.

(** A thread moves between places without a claim. *)
Lemma move_inv s i c0 c : inv s -> nth_error (q_thr s) i = Some c0 -> wpos c0 = wpos c -> rpos c0 = rpos c ->
  pc_ok s c -> (single = true -> consumer c -> i = 0%nat) -> inv (with_pc i c s).
Proof.
  intros [A1 A2 A3 A4 A5 A6 A7 A8 A9 A10 A11] H Hw Hr Hok Hs.
  assert (T : forall j d, nth_error (lset (q_thr s) i c) j = Some d ->
    (j = i /\ d = c) \/ (j <> i /\ nth_error (q_thr s) j = Some d)).
  { intros j d Hj. rewrite nth_error_lset in Hj. destruct (i =? j)%nat eqn:E.
    - apply Nat.eqb_eq in E. rewrite H in Hj. left. split; congruence.
    - apply Nat.eqb_neq in E. right. split; congruence. }
  assert (T0 : forall j d, nth_error (q_thr s) j = Some d ->
    exists d', nth_error (lset (q_thr s) i c) j = Some d' /\ wpos d' = wpos d /\ rpos d' = rpos d).
  { intros j d Hj. rewrite nth_error_lset. destruct (i =? j)%nat eqn:E; [|eauto].
    apply Nat.eqb_eq in E. subst j. rewrite H in *. injection Hj as <-. exists c. auto. }
  constructor; cbn; auto.
  - intros p Hp. specialize (A3 p Hp). unfold cell_ok in *. cbn. destruct (p <? q_enq s).
    + destruct A3 as [(K1 & j & d & K2 & K3)|K]; [|auto]. left. split; [exact K1|].
      destruct (T0 j d K2) as (d' & Q1 & Q2 & _). exists j, d'. split; congruence.
    + destruct A3 as [K|(K1 & j & d & K2 & K3)]; [auto|]. right. split; [exact K1|].
      destruct (T0 j d K2) as (d' & Q1 & _ & Q2). exists j, d'. split; congruence.
  - intros j d Hj. destruct (T j d Hj) as [(-> & ->)|(Hn & Hj2)]; [exact Hok|exact (A4 j d Hj2)].
  - intros j1 j2 d1 d2 p H1 H2 P1 P2. destruct (T j1 d1 H1) as [(-> & ->)|(N1 & Q1)], (T j2 d2 H2) as [(-> & ->)|(N2 & Q2)]; auto.
    + apply (A5 i j2 c0 d2 p); congruence.
    + apply (A5 j1 i d1 c0 p); congruence.
    + apply (A5 j1 j2 d1 d2 p); congruence.
  - intros j1 j2 d1 d2 p H1 H2 P1 P2. destruct (T j1 d1 H1) as [(-> & ->)|(N1 & Q1)], (T j2 d2 H2) as [(-> & ->)|(N2 & Q2)]; auto.
    + apply (A6 i j2 c0 d2 p); congruence.
    + apply (A6 j1 i d1 c0 p); congruence.
    + apply (A6 j1 j2 d1 d2 p); congruence.
  - intros S j d Hj Hc. destruct (T j d Hj) as [(-> & ->)|(Hn & Hj2)]; [auto|exact (A7 S j d Hj2 Hc)].
  - intros j d p Hj Hp. destruct (T j d Hj) as [(-> & ->)|(Hn & Hj2)]; [|exact (A10 j d p Hj2 Hp)].
    apply (A10 i c0 p H). congruence.
  - intros p Hp. destruct (A11 p Hp) as [K|(j & d & K1 & K2)]; [auto|right].
    destruct (T0 j d K1) as (d' & Q1 & _ & Q2). exists j, d'. split; congruence.
Qed.

Lemma thr_cases s i c0 c : nth_error (q_thr s) i = Some c0 -> forall j d, nth_error (lset (q_thr s) i c) j = Some d ->
  (j = i /\ d = c) \/ (j <> i /\ nth_error (q_thr s) j = Some d).
Proof.
  intros H j d Hj. rewrite nth_error_lset in Hj. destruct (i =? j)%nat eqn:E.
  - apply Nat.eqb_eq in E. rewrite H in Hj. left. split; congruence.
  - apply Nat.eqb_neq in E. right. split; congruence.
Qed.
Lemma thr_same s i c0 c : nth_error (q_thr s) i = Some c0 -> nth_error (lset (q_thr s) i c) i = Some c.
Proof. intros H. rewrite nth_error_lset, Nat.eqb_refl, H. reflexivity. Qed.
Lemma thr_other s i c j : j <> i -> nth_error (lset (q_thr s) i c) j = nth_error (q_thr s) j.
Proof. intros H. rewrite nth_error_lset. destruct (i =? j)%nat eqn:E; [apply Nat.eqb_eq in E; congruence|reflexivity]. Qed.

(** Witnesses survive if thread [i] did not have that claim. *)
Lemma keep_w s i c0 c p : nth_error (q_thr s) i = Some c0 -> (wpos c0 = Some p -> wpos c = Some p) ->
  (exists j d, nth_error (q_thr s) j = Some d /\ wpos d = Some p) ->
  exists j d, nth_error (lset (q_thr s) i c) j = Some d /\ wpos d = Some p.
Proof.
  intros H W (j & d & K1 & K2). destruct (Nat.eq_dec j i) as [->|N].
  - exists i, c. split; [eapply thr_same; eauto|apply W; congruence].
  - exists j, d. rewrite thr_other by exact N. auto.
Qed.
Lemma keep_r s i c0 c p : nth_error (q_thr s) i = Some c0 -> (rpos c0 = Some p -> rpos c = Some p) ->
  (exists j d, nth_error (q_thr s) j = Some d /\ rpos d = Some p) ->
  exists j d, nth_error (lset (q_thr s) i c) j = Some d /\ rpos d = Some p.
Proof.
  intros H W (j & d & K1 & K2). destruct (Nat.eq_dec j i) as [->|N].
  - exists i, c. split; [eapply thr_same; eauto|apply W; congruence].
  - exists j, d. rewrite thr_other by exact N. auto.
Qed.
Lemma zset_same {A} (f : Z -> A) i x : zset f i x i = x.
Proof. unfold zset. rewrite Z.eqb_refl. reflexivity. Qed.
Lemma zset_other {A} (f : Z -> A) i x j : j <> i -> zset f i x j = f j.
Proof. unfold zset. destruct (j =? i) eqn:E; [lia|reflexivity]. Qed.

Lemma acc_app s v p : 0 <= p < Z.of_nat (length (q_acc s)) -> nth_error (q_acc s ++ [v]) (Z.to_nat p) = acc_at s p.
Proof. intros H. unfold accepted_at. apply nth_error_app1. lia. Qed.

Lemma p_cas_inv i v s : inv s -> nth_error (q_thr s) i = Some (PCas v (q_enq s)) ->
  inv {| q_enq := q_enq s + 1; q_deq := q_deq s; q_seq := q_seq s; q_data := q_data s;
         q_thr := lset (q_thr s) i (PWrite v (q_enq s)); q_acc := q_acc s ++ [v]; q_out := q_out s |}.
Proof.
  intros I H. pose proof I as [A1 A2 A3 A4 A5 A6 A7 A8 A9 A10 A11]. pose proof cap_ge as C.
  destruct (A4 i _ H) as (_ & K). destruct (K eq_refl) as (K1 & K2). clear K.
  match goal with |- inv ?x => assert (Ea : forall p, 0 <= p < q_enq s -> acc_at x p = acc_at s p) by (intros p Hp; apply acc_app; lia) end.
  pose proof (thr_cases s i _ (PWrite v (q_enq s)) H) as T.
  constructor; cbn [q_enq q_deq q_seq q_data q_thr q_acc q_out]; try lia; auto.
  - rewrite app_length. cbn [length]. lia.
  - intros p Hp. specialize (A3 p Hp). unfold cell_ok in *. cbn [q_enq q_deq q_seq q_data q_thr].
    destruct (p <? q_enq s) eqn:E1.
    + replace (p <? q_enq s + 1) with true by lia. destruct A3 as [(B1 & B2)|(B1 & B2)].
      * left. split; [exact B1|]. eapply keep_w; [exact H|discriminate|exact B2].
      * right. rewrite Ea by lia. auto.
    + destruct (p <? q_enq s + 1) eqn:E2.
      * assert (p = q_enq s) by lia. subst p. left. split; [exact K2|]. exists i, (PWrite v (q_enq s)).
        split; [eapply thr_same; eauto|reflexivity].
      * destruct A3 as [B|(B1 & B2)]; [auto|]. right. split; [exact B1|]. eapply keep_r; [exact H|discriminate|exact B2].
  - intros j d Hj. destruct (T j d Hj) as [(-> & ->)|(Hn & Hj2)].
    + cbn. split; [lia|]. split; [exact K2|]. unfold accepted_at. cbn. rewrite nth_error_app2 by lia.
      replace (Z.to_nat (q_enq s) - length (q_acc s))%nat with 0%nat by lia. reflexivity.
    + pose proof (A4 j d Hj2) as Q. destruct d; cbn [pc_ok] in *; cbn [q_enq q_deq q_seq q_data]; rewrite ?Ea by lia; try solve [auto|intuition lia].
      * destruct Q as (Q1 & Q2 & Q3 & Q4). repeat split; auto; try lia.
        destruct (Z.eq_dec pos (q_enq s - cap)) as [E|E]; [|lia]. exfalso. rewrite <- (slot_cap pos) in Q3.
        replace (pos + cap) with (q_enq s) in Q3 by lia. lia.
      * destruct Q as (Q1 & Q2 & Q3 & Q4). repeat split; auto; try lia.
        destruct (Z.eq_dec pos (q_enq s - cap)) as [E|E]; [|lia]. exfalso. rewrite <- (slot_cap pos) in Q3.
        replace (pos + cap) with (q_enq s) in Q3 by lia. lia.
  - intros j1 j2 d1 d2 p H1 H2 P1 P2. destruct (T j1 d1 H1) as [(-> & ->)|(N1 & Q1)], (T j2 d2 H2) as [(-> & ->)|(N2 & Q2)]; auto.
    + exfalso. cbn in P1. injection P1 as <-. pose proof (A4 _ _ Q2) as Q. destruct d2; try discriminate; cbn in *; injection P2 as ->; lia.
    + exfalso. cbn in P2. injection P2 as <-. pose proof (A4 _ _ Q1) as Q. destruct d1; try discriminate; cbn in *; injection P1 as ->; lia.
    + apply (A5 j1 j2 d1 d2 p); congruence.
  - intros j1 j2 d1 d2 p H1 H2 P1 P2. destruct (T j1 d1 H1) as [(-> & ->)|(N1 & Q1)], (T j2 d2 H2) as [(-> & ->)|(N2 & Q2)]; auto; try discriminate.
    apply (A6 j1 j2 d1 d2 p); congruence.
  - intros S j d Hj Hc. destruct (T j d Hj) as [(-> & ->)|(Hn & Hj2)]; [destruct Hc|exact (A7 S j d Hj2 Hc)].
  - intros p x Hx. destruct (A9 p x Hx) as (B1 & B2). split; [exact B1|]. rewrite Ea by lia. exact B2.
  - intros j d p Hj Hp. destruct (T j d Hj) as [(-> & ->)|(Hn & Hj2)]; [discriminate|exact (A10 j d p Hj2 Hp)].
  - intros p Hp. destruct (A11 p Hp) as [B|B]; [auto|right]. eapply keep_r; [exact H|discriminate|exact B].
Qed.

Lemma p_write_inv i v pos s : inv s -> nth_error (q_thr s) i = Some (PWrite v pos) ->
  inv {| q_enq := q_enq s; q_deq := q_deq s; q_seq := q_seq s; q_data := zset (q_data s) (slot pos) (Some v);
         q_thr := lset (q_thr s) i (PPub v pos); q_acc := q_acc s; q_out := q_out s |}.
Proof.
  intros I H. pose proof I as [A1 A2 A3 A4 A5 A6 A7 A8 A9 A10 A11]. pose proof cap_ge as C.
  destruct (A4 i _ H) as (K1 & K2 & K3).
  pose proof (thr_cases s i _ (PPub v pos) H) as T.
  constructor; cbn [q_enq q_deq q_seq q_data q_thr q_acc q_out]; try lia; auto.
  - intros p Hp. specialize (A3 p Hp). unfold cell_ok in *. cbn [q_enq q_deq q_seq q_data q_thr].
    destruct (p <? q_enq s) eqn:E1.
    + destruct A3 as [(B1 & B2)|(B1 & B2)].
      * left. split; [exact B1|]. eapply keep_w; [exact H|auto|exact B2].
      * right. split; [exact B1|]. rewrite zset_other; [exact B2|]. intros E. apply slot_inj in E; [|lia]. subst p. lia.
    + destruct A3 as [B|(B1 & B2)]; [auto|]. right. split; [exact B1|]. eapply keep_r; [exact H|discriminate|exact B2].
  - intros j d Hj. destruct (T j d Hj) as [(-> & ->)|(Hn & Hj2)].
    + cbn. rewrite zset_same. auto.
    + pose proof (A4 j d Hj2) as Q. destruct d as [|v0|v0 pos0|v0 pos0|v0 pos0|v0 pos0|v0 pos0| |pos0|pos0|pos0|pos0|pos0 x0]; cbn [pc_ok] in *; cbn [q_enq q_deq q_seq q_data]; auto.
      * destruct Q as (Q1 & Q2 & Q3 & Q4). repeat split; auto; try lia. rewrite zset_other; [exact Q4|].
        intros E. apply slot_inj in E; [|lia]. subst pos0. apply Hn. apply (A5 j i _ _ pos Hj2 H); reflexivity.
      * destruct Q as (Q1 & Q2 & Q3 & Q4). repeat split; auto; try lia. rewrite zset_other; [exact Q4|].
        intros E. apply slot_inj in E; lia.
  - intros j1 j2 d1 d2 p H1 H2 P1 P2. destruct (T j1 d1 H1) as [(-> & ->)|(N1 & Q1)], (T j2 d2 H2) as [(-> & ->)|(N2 & Q2)]; auto.
    + apply (A5 i j2 (PWrite v pos) d2 p); auto.
    + apply (A5 j1 i d1 (PWrite v pos) p); auto.
    + apply (A5 j1 j2 d1 d2 p); congruence.
  - intros j1 j2 d1 d2 p H1 H2 P1 P2. destruct (T j1 d1 H1) as [(-> & ->)|(N1 & Q1)], (T j2 d2 H2) as [(-> & ->)|(N2 & Q2)]; auto; try discriminate.
    apply (A6 j1 j2 d1 d2 p); congruence.
  - intros S j d Hj Hc. destruct (T j d Hj) as [(-> & ->)|(Hn & Hj2)]; [destruct Hc|exact (A7 S j d Hj2 Hc)].
  - intros j d p Hj Hp. destruct (T j d Hj) as [(-> & ->)|(Hn & Hj2)]; [discriminate|exact (A10 j d p Hj2 Hp)].
  - intros p Hp. destruct (A11 p Hp) as [B|B]; [auto|right]. eapply keep_r; [exact H|discriminate|exact B].
Qed.

Lemma p_pub_inv i v pos s : inv s -> nth_error (q_thr s) i = Some (PPub v pos) ->
  inv {| q_enq := q_enq s; q_deq := q_deq s; q_seq := zset (q_seq s) (slot pos) (pos + 1); q_data := q_data s;
         q_thr := lset (q_thr s) i Idle; q_acc := q_acc s; q_out := q_out s |}.
Proof.
  intros I H. pose proof I as [A1 A2 A3 A4 A5 A6 A7 A8 A9 A10 A11]. pose proof cap_ge as C.
  destruct (A4 i _ H) as (K1 & K2 & K3 & K4).
  pose proof (thr_cases s i _ Idle H) as T.
  constructor; cbn [q_enq q_deq q_seq q_data q_thr q_acc q_out]; try lia; auto.
  - intros p Hp. specialize (A3 p Hp). unfold cell_ok in *. cbn [q_enq q_deq q_seq q_data q_thr].
    destruct (Z.eq_dec p pos) as [->|N].
    + replace (pos <? q_enq s) with true by lia. right. rewrite zset_same. split; [reflexivity|].
      unfold accepted_at in *. cbn. congruence.
    + rewrite zset_other by (intros E; apply slot_inj in E; lia).
      destruct (p <? q_enq s) eqn:E1.
      * destruct A3 as [(B1 & B2)|(B1 & B2)]; [|auto].
        left. split; [exact B1|]. eapply keep_w; [exact H|cbn; congruence|exact B2].
      * destruct A3 as [B|(B1 & B2)]; [auto|]. right. split; [exact B1|]. eapply keep_r; [exact H|discriminate|exact B2].
  - intros j d Hj. destruct (T j d Hj) as [(-> & ->)|(Hn & Hj2)]; [exact Logic.I|].
    pose proof (A4 j d Hj2) as Q. destruct d as [|v0|v0 pos0|v0 pos0|v0 pos0|v0 pos0|v0 pos0| |pos0|pos0|pos0|pos0|pos0 x0]; cbn [pc_ok] in *; cbn [q_enq q_deq q_seq q_data]; auto.
    + destruct Q as (Q1 & Q2). split; [exact Q1|]. intros E. destruct (Q2 E) as (Q3 & Q4). split; [exact Q3|].
      rewrite zset_other; [exact Q4|]. intros E2. apply slot_inj in E2; lia.
    + destruct Q as (Q1 & Q2 & Q3). repeat split; auto; try lia. rewrite zset_other; [exact Q2|].
      intros E. apply slot_inj in E; [|lia]. subst pos0. apply Hn. apply (A5 j i _ _ pos Hj2 H); reflexivity.
    + destruct Q as (Q1 & Q2 & Q3 & Q4). repeat split; auto; try lia. rewrite zset_other; [exact Q2|].
      intros E. apply slot_inj in E; [|lia]. subst pos0. apply Hn. apply (A5 j i _ _ pos Hj2 H); reflexivity.
    + destruct Q as (Q1 & Qs & Q2). split; [exact Q1|]. split; [exact Qs|]. intros E. destruct (Q2 E) as (Q3 & Q4). split; [exact Q3|].
      rewrite zset_other; [exact Q4|]. intros E2. apply slot_inj in E2; [|lia]. subst pos. lia.
    + destruct Q as (Q1 & Q2 & Q3 & Q4). repeat split; auto; try lia. rewrite zset_other; [exact Q3|].
      intros E. apply slot_inj in E; lia.
    + destruct Q as (Q1 & Q2 & Q3 & Q4). repeat split; auto; try lia. rewrite zset_other; [exact Q3|].
      intros E. apply slot_inj in E; lia.
  - intros j1 j2 d1 d2 p H1 H2 P1 P2. destruct (T j1 d1 H1) as [(-> & ->)|(N1 & Q1)], (T j2 d2 H2) as [(-> & ->)|(N2 & Q2)]; auto; try discriminate.
    apply (A5 j1 j2 d1 d2 p); congruence.
  - intros j1 j2 d1 d2 p H1 H2 P1 P2. destruct (T j1 d1 H1) as [(-> & ->)|(N1 & Q1)], (T j2 d2 H2) as [(-> & ->)|(N2 & Q2)]; auto; try discriminate.
    apply (A6 j1 j2 d1 d2 p); congruence.
  - intros S j d Hj Hc. destruct (T j d Hj) as [(-> & ->)|(Hn & Hj2)]; [destruct Hc|exact (A7 S j d Hj2 Hc)].
  - intros j d p Hj Hp. destruct (T j d Hj) as [(-> & ->)|(Hn & Hj2)]; [discriminate|exact (A10 j d p Hj2 Hp)].
  - intros p Hp. destruct (A11 p Hp) as [B|B]; [auto|right]. eapply keep_r; [exact H|discriminate|exact B].
Qed.

Lemma q_cas_inv i s : inv s -> nth_error (q_thr s) i = Some (QCas (q_deq s)) ->
  inv {| q_enq := q_enq s; q_deq := q_deq s + 1; q_seq := q_seq s; q_data := q_data s;
         q_thr := lset (q_thr s) i (QRead (q_deq s)); q_acc := q_acc s; q_out := q_out s |}.
Proof.
  intros I H. pose proof I as [A1 A2 A3 A4 A5 A6 A7 A8 A9 A10 A11]. pose proof cap_ge as C.
  destruct (A4 i _ H) as (_ & _ & K). destruct (K eq_refl) as (K1 & K2). clear K.
  assert (D : q_data s (slot (q_deq s)) = acc_at s (q_deq s)).
  { pose proof (A3 (q_deq s) ltac:(lia)) as B. unfold cell_ok in B. replace (q_deq s <? q_enq s) with true in B by lia.
    destruct B as [(B & _)|(_ & B)]; [lia|exact B]. }
  pose proof (thr_cases s i _ (QRead (q_deq s)) H) as T.
  constructor; cbn [q_enq q_deq q_seq q_data q_thr q_acc q_out]; try lia; auto.
  - intros p Hp. destruct (Z.eq_dec p (q_deq s + cap)) as [->|N].
    + unfold cell_ok. cbn [q_enq q_deq q_seq q_data q_thr]. replace (q_deq s + cap <? q_enq s) with false by lia.
      right. rewrite slot_cap. split; [lia|]. exists i, (QRead (q_deq s)). split; [eapply thr_same; eauto|cbn; f_equal; lia].
    + specialize (A3 p ltac:(lia)). unfold cell_ok in *. cbn [q_enq q_deq q_seq q_data q_thr]. destruct (p <? q_enq s) eqn:E1.
      * destruct A3 as [(B1 & B2)|(B1 & B2)]; [|auto].
        left. split; [exact B1|]. eapply keep_w; [exact H|discriminate|exact B2].
      * destruct A3 as [B|(B1 & B2)]; [auto|]. right. split; [exact B1|]. eapply keep_r; [exact H|discriminate|exact B2].
  - intros j d Hj. destruct (T j d Hj) as [(-> & ->)|(Hn & Hj2)].
    + cbn. repeat split; auto; lia.
    + pose proof (A4 j d Hj2) as Q.
      assert (Sg : single = true -> consumer d -> False).
      { intros S Hc. apply Hn. rewrite (A7 S j d Hj2 Hc). symmetry. apply (A7 S i _ H). exact Logic.I. }
      destruct d as [|v0|v0 pos0|v0 pos0|v0 pos0|v0 pos0|v0 pos0| |pos0|pos0|pos0|pos0|pos0 x0]; cbn [pc_ok] in *; cbn [q_enq q_deq q_seq q_data]; auto; try lia.
      * destruct Q as (Q1 & Q2 & Q3). split; [|auto]. destruct (Z.eq_dec pos0 (q_deq s)) as [->|]; lia.
      * destruct Q as (Q1 & Q2 & Q3 & Q4). split; [|auto]. destruct (Z.eq_dec pos0 (q_deq s)) as [->|]; lia.
      * destruct Q as (Q1 & Q2). split; [lia|]. intros S. destruct (Sg S Logic.I).
      * destruct Q as (Q1 & Q2 & Q3). split; [lia|]. split; [intros S; destruct (Sg S Logic.I)|]. lia.
      * destruct Q as (Q1 & Q2 & Q3 & Q4). repeat split; auto; lia.
      * destruct Q as (Q1 & Q2 & Q3 & Q4). repeat split; auto; lia.
  - intros j1 j2 d1 d2 p H1 H2 P1 P2. destruct (T j1 d1 H1) as [(-> & ->)|(N1 & Q1)], (T j2 d2 H2) as [(-> & ->)|(N2 & Q2)]; auto; try discriminate.
    apply (A5 j1 j2 d1 d2 p); congruence.
  - intros j1 j2 d1 d2 p H1 H2 P1 P2. destruct (T j1 d1 H1) as [(-> & ->)|(N1 & Q1)], (T j2 d2 H2) as [(-> & ->)|(N2 & Q2)]; auto.
    + exfalso. cbn in P1. injection P1 as <-. pose proof (A4 _ _ Q2) as Q. destruct d2; try discriminate; cbn in *; injection P2 as ->; lia.
    + exfalso. cbn in P2. injection P2 as <-. pose proof (A4 _ _ Q1) as Q. destruct d1; try discriminate; cbn in *; injection P1 as ->; lia.
    + apply (A6 j1 j2 d1 d2 p); congruence.
  - intros S j d Hj Hc. destruct (T j d Hj) as [(-> & ->)|(Hn & Hj2)]; [apply (A7 S i _ H); exact Logic.I|exact (A7 S j d Hj2 Hc)].
  - intros p x Hx. destruct (A9 p x Hx) as (B1 & B2). split; [lia|]. exact B2.
  - intros j d p Hj Hp. destruct (T j d Hj) as [(-> & ->)|(Hn & Hj2)]; [|exact (A10 j d p Hj2 Hp)].
    cbn in Hp. injection Hp as <-. intros Hi. apply in_map_iff in Hi. destruct Hi as ([p x] & E & Hi). cbn in E. subst p.
    destruct (A9 _ _ Hi). lia.
  - intros p Hp. destruct (Z.eq_dec p (q_deq s)) as [->|N].
    + right. exists i, (QRead (q_deq s)). split; [eapply thr_same; eauto|reflexivity].
    + destruct (A11 p ltac:(lia)) as [B|B]; [auto|right]. eapply keep_r; [exact H|discriminate|exact B].
Qed.

Lemma q_pub_inv i pos x s : inv s -> nth_error (q_thr s) i = Some (QPub pos x) ->
  inv {| q_enq := q_enq s; q_deq := q_deq s; q_seq := zset (q_seq s) (slot pos) (pos + cap); q_data := q_data s;
         q_thr := lset (q_thr s) i Idle; q_acc := q_acc s; q_out := q_out s ++ [(pos, x)] |}.
Proof.
  intros I H. pose proof I as [A1 A2 A3 A4 A5 A6 A7 A8 A9 A10 A11]. pose proof cap_ge as C.
  destruct (A4 i _ H) as (K1 & K2 & K3 & K4).
  pose proof (thr_cases s i _ Idle H) as T.
  constructor; cbn [q_enq q_deq q_seq q_data q_thr q_acc q_out]; try lia; auto.
  - intros p Hp. specialize (A3 p Hp). unfold cell_ok in *. cbn [q_enq q_deq q_seq q_data q_thr].
    destruct (Z.eq_dec p (pos + cap)) as [->|N].
    + replace (pos + cap <? q_enq s) with false by lia. left. rewrite slot_cap, zset_same. reflexivity.
    + rewrite zset_other by (rewrite <- (slot_cap pos); intros E; apply slot_inj in E; lia).
      destruct (p <? q_enq s) eqn:E1.
      * destruct A3 as [(B1 & B2)|(B1 & B2)]; [|auto].
        left. split; [exact B1|]. eapply keep_w; [exact H|discriminate|exact B2].
      * destruct A3 as [B|(B1 & B2)]; [auto|]. right. split; [exact B1|]. eapply keep_r; [exact H|cbn; intros Q; injection Q; lia|exact B2].
  - intros j d Hj. destruct (T j d Hj) as [(-> & ->)|(Hn & Hj2)]; [exact Logic.I|].
    pose proof (A4 j d Hj2) as Q. destruct d as [|v0|v0 pos0|v0 pos0|v0 pos0|v0 pos0|v0 pos0| |pos0|pos0|pos0|pos0|pos0 x0]; cbn [pc_ok] in *; cbn [q_enq q_deq q_seq q_data]; auto.
    + destruct Q as (Q1 & Q2). split; [exact Q1|]. intros E. destruct (Q2 E) as (Q3 & Q4). split; [exact Q3|].
      destruct (Z.eq_dec pos0 (pos + cap)) as [->|N]; [rewrite slot_cap, zset_same; reflexivity|].
      rewrite zset_other; [exact Q4|]. rewrite <- (slot_cap pos). intros E2. apply slot_inj in E2; lia.
    + destruct Q as (Q1 & Q2 & Q3). repeat split; auto; try lia. rewrite zset_other; [exact Q2|].
      intros E. apply slot_inj in E; lia.
    + destruct Q as (Q1 & Q2 & Q3 & Q4). repeat split; auto; try lia. rewrite zset_other; [exact Q2|].
      intros E. apply slot_inj in E; lia.
    + destruct Q as (Q1 & Qs & Q2). split; [exact Q1|]. split; [exact Qs|]. intros E. destruct (Q2 E) as (Q3 & Q4). split; [exact Q3|].
      rewrite zset_other; [exact Q4|]. intros E2. apply slot_inj in E2; lia.
    + destruct Q as (Q1 & Q2 & Q3 & Q4). repeat split; auto; try lia. rewrite zset_other; [exact Q3|].
      intros E. apply slot_inj in E; [|lia]. subst pos0. apply Hn. apply (A6 j i _ _ pos Hj2 H); reflexivity.
    + destruct Q as (Q1 & Q2 & Q3 & Q4). repeat split; auto; try lia. rewrite zset_other; [exact Q3|].
      intros E. apply slot_inj in E; [|lia]. subst pos0. apply Hn. apply (A6 j i _ _ pos Hj2 H); reflexivity.
  - intros j1 j2 d1 d2 p H1 H2 P1 P2. destruct (T j1 d1 H1) as [(-> & ->)|(N1 & Q1)], (T j2 d2 H2) as [(-> & ->)|(N2 & Q2)]; auto; try discriminate.
    apply (A5 j1 j2 d1 d2 p); congruence.
  - intros j1 j2 d1 d2 p H1 H2 P1 P2. destruct (T j1 d1 H1) as [(-> & ->)|(N1 & Q1)], (T j2 d2 H2) as [(-> & ->)|(N2 & Q2)]; auto; try discriminate.
    apply (A6 j1 j2 d1 d2 p); congruence.
  - intros S j d Hj Hc. destruct (T j d Hj) as [(-> & ->)|(Hn & Hj2)]; [destruct Hc|exact (A7 S j d Hj2 Hc)].
  - rewrite map_app. eapply Permutation_NoDup; [apply Permutation_app_comm|]. cbn. constructor; [|exact A8].
    apply (A10 i _ pos H). reflexivity.
  - intros p y Hx. apply in_app_or in Hx. destruct Hx as [Hx|[Hx|[]]]; [exact (A9 p y Hx)|]. injection Hx as <- <-. auto.
  - intros j d p Hj Hp. destruct (T j d Hj) as [(-> & ->)|(Hn & Hj2)]; [discriminate|].
    rewrite map_app. intros Hi. apply in_app_or in Hi. destruct Hi as [Hi|[<-|[]]]; [exact (A10 j d p Hj2 Hp Hi)|].
    apply Hn. apply (A6 j i _ _ pos Hj2 H Hp). reflexivity.
  - intros p Hp. rewrite map_app. destruct (Z.eq_dec p pos) as [->|N]; [left; apply in_or_app; right; left; reflexivity|].
    destruct (A11 p Hp) as [B|B]; [left; apply in_or_app; auto|right]. eapply keep_r; [exact H|cbn; congruence|exact B].
Qed.

Lemma inv_step s s' : inv s -> step cap single s s' -> inv s'.
Proof.
  intros I St. pose proof cap_ge as C. revert I.
  destruct St; intros I; pose proof (v_pcs s I _ _ H) as Q; pose proof (v_range s I) as R.
  - apply (move_inv s i Idle); auto; try reflexivity; try exact Logic.I. intros _ [].
  - apply (move_inv s i (PLoad v)); auto; try reflexivity; [cbn; lia|intros _ []].
  - apply (move_inv s i (PSeq v pos)); auto.
    1-2: destruct (_ =? 0); [|destruct (_ <? 0)]; reflexivity.
    2: destruct (_ =? 0); [|destruct (_ <? 0)]; intros _ [].
    destruct (dif =? 0) eqn:E1; [|destruct (dif <? 0); cbn; [exact Q|exact Logic.I]].
    unfold dif in E1. cbn in Q |- *. split; [exact Q|]. intros E. assert (Sq : q_seq s (slot pos) = pos) by lia. split; [|exact Sq].
    destruct (Z.eq_dec pos (q_deq s + cap)) as [Ep|]; [|lia]. exfalso. rewrite Ep, slot_cap in Sq.
    pose proof (v_cells s I (q_deq s) ltac:(lia)) as B. unfold cell_ok in B. replace (q_deq s <? q_enq s) with true in B by lia. lia.
  - subst pos. apply p_cas_inv; assumption.
  - apply (move_inv s i (PCas v pos)); auto; try reflexivity; try exact Logic.I. intros _ [].
  - apply (move_inv s i (PFull v pos)); auto; try reflexivity; try exact Logic.I. intros _ [].
  - apply (move_inv s i (PFull v pos)); auto; try reflexivity; try exact Logic.I. intros _ [].
  - apply p_write_inv; assumption.
  - eapply p_pub_inv; eassumption.
  - apply (move_inv s i Idle); auto; try reflexivity; try exact Logic.I.
  - apply (move_inv s i QLoad); auto; try reflexivity; [cbn; split; [lia|reflexivity]|]. intros S _. apply (v_single s I S i _ H). exact Logic.I.
  - apply (move_inv s i (QSeq pos)); auto.
    1-2: destruct (_ =? 0); [|destruct (_ <? 0)]; reflexivity.
    2: congruence.
    destruct (dif =? 0) eqn:E1; [|destruct (dif <? 0); cbn; [apply Q|exact Logic.I]].
    unfold dif in E1. cbn in Q |- *. destruct Q as (Q1 & Q2). split; [exact Q1|]. split; [exact Q2|]. intros ->.
    pose proof (v_cells s I (q_deq s) ltac:(lia)) as B. unfold cell_ok in B. destruct (q_deq s <? q_enq s) eqn:E2; lia.
  - apply (move_inv s i (QSeq pos)); auto.
    1-2: destruct (_ =? 0); reflexivity.
    2: intros S _; apply (v_single s I S i _ H); exact Logic.I.
    destruct (dif =? 0) eqn:E1; [|exact Logic.I].
    unfold dif in E1. cbn in Q |- *. destruct Q as (Q1 & Q2). split; [exact Q1|]. split; [exact Q2|]. intros ->.
    pose proof (v_cells s I (q_deq s) ltac:(lia)) as B. unfold cell_ok in B. destruct (q_deq s <? q_enq s) eqn:E2; lia.
  - subst pos. apply q_cas_inv; assumption.
  - assert (pos = q_deq s) by (apply Q; assumption). subst pos. apply q_cas_inv; assumption.
  - apply (move_inv s i (QCas pos)); auto; try reflexivity; try exact Logic.I. congruence.
  - apply (move_inv s i (QEmpty pos)); auto; try reflexivity; try exact Logic.I. intros _ [].
  - apply (move_inv s i (QEmpty pos)); auto; try reflexivity; try exact Logic.I. intros S _. apply (v_single s I S i _ H). exact Logic.I.
  - apply (move_inv s i (QRead pos)); auto; try reflexivity.
    intros S _. apply (v_single s I S i _ H). exact Logic.I.
  - apply q_pub_inv; assumption.
Qed.

Lemma reach_inv n s : reach cap single n s -> inv s.
Proof. induction 1; [apply inv_init|eapply inv_step; eassumption]. Qed.

Lemma queue_correct n s : reach cap single n s ->
  0 <= q_deq s <= q_enq s /\ q_enq s <= q_deq s + cap /\ Z.of_nat (length (q_acc s)) = q_enq s /\
  NoDup (map fst (q_out s)) /\
  (forall p x, In (p, x) (q_out s) -> 0 <= p < q_deq s /\ x = acc_at s p /\ x <> None).
Proof.
  intros R. pose proof (reach_inv n s R) as I. destruct (v_range s I) as (R1 & R2).
  split; [exact R1|]. split; [exact R2|]. split; [apply (v_acc s I)|]. split; [apply (v_out s I)|].
  intros p x H. destruct (v_outs s I p x H) as (K1 & K2). split; [exact K1|]. split; [exact K2|]. rewrite K2.
  unfold accepted_at. apply nth_error_Some. pose proof (v_acc s I). lia.
Qed.

Lemma queue_quiet n s : reach cap single n s -> quiet s ->
  (forall p, 0 <= p < q_deq s -> In (p, acc_at s p) (q_out s)) /\
  (forall p, q_deq s <= p < q_enq s -> q_seq s (slot p) = p + 1 /\ q_data s (slot p) = acc_at s p).
Proof.
  intros R Qt. pose proof (reach_inv n s R) as I. unfold quiet in Qt. rewrite Forall_forall in Qt.
  assert (N : forall i c, nth_error (q_thr s) i = Some c -> c = Idle) by (intros i c H; apply Qt; eapply nth_error_In; eauto).
  split.
  - intros p Hp. destruct (v_all s I p Hp) as [K|(i & c & K1 & K2)].
    + apply in_map_iff in K. destruct K as ([p' x] & E & K). cbn in E. subst p'. destruct (v_outs s I p x K) as (_ & ->). exact K.
    + rewrite (N i c K1) in K2. discriminate.
  - intros p Hp. pose proof (v_range s I) as Rg. pose proof (v_cells s I p ltac:(lia)) as B. unfold cell_ok in B.
    replace (p <? q_enq s) with true in B by lia. destruct B as [(_ & i & c & K1 & K2)|B]; [|exact B].
    rewrite (N i c K1) in K2. discriminate.
Qed.

Lemma full_exact n s i v pos : reach cap single n s -> nth_error (q_thr s) i = Some (PFull v pos) -> pos - q_deq s = cap ->
  q_enq s - q_deq s = cap.
Proof.
  intros R H E. pose proof (reach_inv n s R) as I. pose proof (v_pcs s I _ _ H) as Q. cbn in Q. pose proof (v_range s I). lia.
Qed.
Lemma empty_exact n s i pos : reach cap single n s -> nth_error (q_thr s) i = Some (QEmpty pos) -> pos - q_enq s = 0 ->
  q_enq s = q_deq s.
Proof.
  intros R H E. pose proof (reach_inv n s R) as I. pose proof (v_pcs s I _ _ H) as Q. cbn in Q. pose proof (v_range s I). lia.
Qed.
(** BoundedMPSCQueue: false is returned only if the next item is not there (completely). *)
Lemma single_false n s i pos : single = true -> reach cap single n s -> nth_error (q_thr s) i = Some (QSeq pos) ->
  q_seq s (slot pos) - (pos + 1) <> 0 ->
  q_enq s = q_deq s \/ exists j c, nth_error (q_thr s) j = Some c /\ (exists v, c = PWrite v (q_deq s) \/ c = PPub v (q_deq s)).
Proof.
  intros S R H E. pose proof (reach_inv n s R) as I. pose proof (v_pcs s I _ _ H) as Q. cbn in Q. destruct Q as (Q1 & Q2).
  specialize (Q2 S). subst pos. pose proof (v_range s I) as Rg. pose proof cap_ge.
  pose proof (v_cells s I (q_deq s) ltac:(lia)) as B. unfold cell_ok in B. destruct (q_deq s <? q_enq s) eqn:Ed; [|left; lia].
  right. destruct B as [(_ & j & c & K1 & K2)|B]; [|lia]. exists j, c. split; [exact K1|].
  destruct c; try discriminate; cbn in K2; injection K2 as ->; eauto.
Qed.

Lemma steps_reach n s s' : reach cap single n s -> steps (step cap single) s s' -> reach cap single n s'.
Proof. intros R H. induction H as [s|s s1 s2 H IH St]; [exact R|]. eapply r_step; [apply IH; exact R|exact St]. Qed.

Lemma step_mono s s' : step cap single s s' -> exists acc out, q_acc s' = q_acc s ++ acc /\ q_out s' = q_out s ++ out.
Proof.
  intros St. destruct St; cbn; try (exists [], []; rewrite !app_nil_r; auto; fail);
    [exists [v], []|exists [], [(pos, x)]]; rewrite ?app_nil_r; auto.
Qed.

(** The same as properties of the steps that return. *)
Lemma return_step s s' i c : step cap single s s' -> nth_error (q_thr s) i = Some c -> c <> Idle -> nth_error (q_thr s') i = Some Idle ->
  match c with
  | PFull _ pos => pos - q_deq s = cap
  | QEmpty pos => pos - q_enq s = 0
  | QSeq pos => single = true /\ q_seq s (slot pos) - (pos + 1) <> 0
  | PPub _ _ | QPub _ _ => True
  | _ => False
  end.
Proof.
  intros St Hs Nc Hs'. destruct St; cbn in Hs';
    match goal with H : nth_error (q_thr ?s) ?j = Some _ |- _ =>
      destruct (Nat.eq_dec j i) as [<-|N];
      [rewrite Hs in H; injection H as ->; rewrite nth_error_lset, Nat.eqb_refl, Hs in Hs'
      |rewrite nth_error_lset in Hs'; destruct (Nat.eqb_spec j i); congruence] end;
    try congruence; auto;
    repeat match type of Hs' with context [if ?b then _ else _] => destruct b eqn:?; try discriminate Hs' end.
  split; [assumption|lia].
Qed.
Lemma full_return n s s' i v pos : reach cap single n s -> step cap single s s' -> nth_error (q_thr s) i = Some (PFull v pos) ->
  nth_error (q_thr s') i = Some Idle -> q_enq s - q_deq s = cap.
Proof. intros R St H H'. pose proof (return_step _ _ _ _ St H ltac:(discriminate) H'). eapply full_exact; eauto. Qed.
Lemma empty_return n s s' i pos : reach cap single n s -> step cap single s s' -> nth_error (q_thr s) i = Some (QEmpty pos) ->
  nth_error (q_thr s') i = Some Idle -> q_enq s = q_deq s.
Proof. intros R St H H'. pose proof (return_step _ _ _ _ St H ltac:(discriminate) H'). eapply empty_exact; eauto. Qed.
Lemma single_return n s s' i pos : reach cap single n s -> step cap single s s' -> nth_error (q_thr s) i = Some (QSeq pos) ->
  nth_error (q_thr s') i = Some Idle ->
  single = true /\ (q_enq s = q_deq s \/ exists j c, nth_error (q_thr s) j = Some c /\ (exists v, c = PWrite v (q_deq s) \/ c = PPub v (q_deq s))).
Proof.
  intros R St H H'. destruct (return_step _ _ _ _ St H ltac:(discriminate) H') as (E & N). split; [exact E|].
  eapply single_false; eauto.
Qed.
(** A call returns in no other way. *)
Lemma other_return s s' i c : step cap single s s' -> nth_error (q_thr s) i = Some c -> c <> Idle -> nth_error (q_thr s') i = Some Idle ->
  (exists v p, c = PFull v p \/ c = PPub v p) \/ (exists p, c = QEmpty p \/ c = QSeq p) \/ exists p x, c = QPub p x.
Proof.
  intros St H N H'. pose proof (return_step _ _ _ _ St H N H') as K. destruct c; try contradiction; eauto 8.
Qed.
Lemma queue_order n s s' : reach cap single n s -> steps (step cap single) s s' -> exists acc out,
  q_acc s' = q_acc s ++ acc /\ q_out s' = q_out s ++ out /\
  forall p x, In (p, x) out -> q_deq s <= p \/ popping s p.
Proof.
  intros R H. assert (K : exists acc out, q_acc s' = q_acc s ++ acc /\ q_out s' = q_out s ++ out).
  { clear R. induction H as [s|s s1 s2 H (a & o & E1 & E2) St]; [exists [], []; rewrite !app_nil_r; auto|].
    destruct (step_mono _ _ St) as (a2 & o2 & F1 & F2). exists (a ++ a2), (o ++ o2). rewrite F1, F2, E1, E2, !app_assoc. auto. }
  destruct K as (a & o & E1 & E2). exists a, o. split; [exact E1|]. split; [exact E2|]. intros p x Hp.
  pose proof (reach_inv n s R) as I. pose proof (reach_inv n s' (steps_reach n s s' R H)) as I'.
  destruct (Z.le_gt_cases (q_deq s) p) as [L|L]; [left; exact L|]. right.
  assert (Hi : In (p, x) (q_out s')) by (rewrite E2; apply in_or_app; auto).
  destruct (v_outs s' I' p x Hi) as (B & _). destruct (v_all s I p ltac:(lia)) as [K|(i & c & K1 & K2)].
  - exfalso. pose proof (v_out s' I') as N. rewrite E2, map_app in N. apply (in_map fst) in Hp. cbn in Hp.
    clear - N K Hp. induction (map fst (q_out s)) as [|y l IH]; [destruct K|]. cbn in N. inversion N; subst.
    destruct K as [->|K]; [apply H1; apply in_or_app; auto|auto].
  - exists i. destruct c; try discriminate; cbn in K2; injection K2 as ->; [left; exact K1|right; eexists; exact K1].
Qed.
End Queue.

(** ** RoundUpPowerOf2 *)
Lemma pow_land n : 2 <= n -> Z.land n (n - 1) = 0 -> n = 2 ^ Z.log2 n.
Proof.
  intros H L. pose proof (Z.log2_spec n ltac:(lia)) as S. destruct (Z.eq_dec n (2 ^ Z.log2 n)) as [E|E]; [exact E|exfalso].
  assert (El : Z.log2 (n - 1) = Z.log2 n) by (apply Z.log2_unique; [apply Z.log2_nonneg|lia]).
  assert (B : Z.testbit (Z.land n (n - 1)) (Z.log2 n) = true).
  { rewrite Z.land_spec, Z.bit_log2 by lia. rewrite <- El, Z.bit_log2 by lia. reflexivity. }
  rewrite L, Z.bits_0 in B. discriminate.
Qed.
Lemma land_pow j : 0 <= j -> Z.land (2 ^ j) (2 ^ j - 1) = 0.
Proof.
  intros H. replace (2 ^ j - 1) with (Z.ones j) by (rewrite Z.ones_equiv; lia).
  rewrite Z.land_ones by exact H. apply Z_mod_same_full.
Qed.
Lemma round_loop_ok n : 1 <= n < 2 ^ 63 -> forall f j, 0 <= j <= Z.log2 n + 1 -> Z.log2 n + 1 - j < Z.of_nat f ->
  round_loop f (2 ^ j) n = Ok (2 ^ (Z.log2 n + 1)).
Proof.
  intros H. pose proof (Z.log2_spec n ltac:(lia)) as S. replace (Z.succ (Z.log2 n)) with (Z.log2 n + 1) in S by lia.
  pose proof (Z.log2_nonneg n). assert (Lb : Z.log2 n < 63) by (apply Z.log2_lt_pow2; lia).
  induction f as [|f IH]; intros j Hj Hf; [lia|]. cbn [round_loop].
  destruct (Z.eq_dec j (Z.log2 n + 1)) as [->|Nj].
  - replace (2 ^ (Z.log2 n + 1) <=? n) with false by lia. reflexivity.
  - assert (2 ^ j <= 2 ^ Z.log2 n) by (apply Z.pow_le_mono_r; lia). replace (2 ^ j <=? n) with true by lia.
    rewrite Z.shiftl_mul_pow2 by lia. rewrite <- Z.pow_add_r by lia. rewrite Z.mod_small.
    + apply IH; lia.
    + split; [apply Z.pow_nonneg; lia|]. apply Z.pow_lt_mono_r; lia.
Qed.
Lemma round_zero f n : 0 <= n -> round_loop f 0 n = NoFuel.
Proof. intros H. induction f as [|f IH]; [reflexivity|]. cbn [round_loop]. replace (0 <=? n) with true by lia. exact IH. Qed.
Lemma round_diverge n : 2 ^ 63 <= n -> forall f j, 0 <= j <= 63 -> round_loop f (2 ^ j) n = NoFuel.
Proof.
  intros H. induction f as [|f IH]; intros j Hj; [reflexivity|]. cbn [round_loop].
  assert (2 ^ j <= 2 ^ 63) by (apply Z.pow_le_mono_r; lia). replace (2 ^ j <=? n) with true by lia.
  rewrite Z.shiftl_mul_pow2 by lia. rewrite <- Z.pow_add_r by lia. destruct (Z.eq_dec j 63) as [->|].
  - change (2 ^ (63 + 1) mod 2 ^ 64) with 0. apply round_zero. lia.
  - rewrite Z.mod_small; [apply IH; lia|]. split; [apply Z.pow_nonneg; lia|]. apply Z.pow_lt_mono_r; lia.
Qed.

Lemma round_up_correct n : 2 <= n <= 2 ^ 63 -> exists c, round_up 65 n = Ok c /\ least_power n c.
Proof.
  intros H. unfold round_up. replace (2 <=? n) with true by lia. cbn [andb].
  pose proof (Z.log2_spec n ltac:(lia)) as S. pose proof (Z.log2_nonneg n) as P.
  destruct (Z.land n (n - 1) =? 0) eqn:E.
  - exists n. split; [reflexivity|]. pose proof (pow_land n ltac:(lia) ltac:(lia)) as Pn. exists (Z.log2 n). split; [lia|]. split; [exact Pn|].
    split; [lia|]. intros j Hj Hn. rewrite Pn in Hn. apply Z.pow_le_mono_r_iff in Hn; lia.
  - assert (N : n <> 2 ^ Z.log2 n) by (intros Q; rewrite Q, land_pow in E by exact P; discriminate).
    assert (n <> 2 ^ 63) by (intros ->; apply N; reflexivity).
    exists (2 ^ (Z.log2 n + 1)). split.
    + change 1 with (2 ^ 0). apply round_loop_ok; try lia.
      assert (Z.log2 n < 63) by (apply Z.log2_lt_pow2; lia). lia.
    + exists (Z.log2 n + 1). split; [lia|]. split; [reflexivity|]. split; [lia|]. intros j Hj Hn.
      destruct (Z.le_gt_cases (Z.log2 n + 1) j) as [|L]; [assumption|exfalso].
      assert (2 ^ j <= 2 ^ Z.log2 n) by (apply Z.pow_le_mono_r; lia). lia.
Qed.
Lemma round_up_diverges n f : 2 ^ 63 < n < 2 ^ 64 -> round_up f n = NoFuel.
Proof.
  intros H. unfold round_up. replace (2 <=? n) with true by lia. cbn [andb].
  destruct (Z.land n (n - 1) =? 0) eqn:E.
  - exfalso. pose proof (pow_land n ltac:(lia) ltac:(lia)) as Pn. assert (El : Z.log2 n = 63) by (apply Z.log2_unique; lia).
    rewrite El in Pn. lia.
  - change 1 with (2 ^ 0). apply round_diverge; lia.
Qed.

(** ** No thread is stuck *)
Lemma thread_step {V} cap (single : bool) (s : queue V) i c : nth_error (q_thr s) i = Some c -> c <> Idle ->
  exists s' c', step cap single s s' /\ q_thr s' = lset (q_thr s) i c'.
Proof.
  intros H N. destruct c as [|v|v pos|v pos|v pos|v pos|v pos| |pos|pos|pos|pos|pos x]; [congruence|..].
  - eexists _, _. split; [eapply p_load; eauto|reflexivity].
  - eexists _, _. split; [eapply p_seq; eauto|reflexivity].
  - eexists _, _. split; [eapply p_cas_fail; eauto|reflexivity].
  - eexists _, _. split; [eapply p_again; eauto|reflexivity].
  - eexists _, _. split; [eapply p_write; eauto|reflexivity].
  - eexists _, _. split; [eapply p_pub; eauto|reflexivity].
  - eexists _, _. split; [eapply q_load; eauto|reflexivity].
  - destruct single; eexists _, _; (split; [first [eapply q_seq_multi; solve [eauto]|eapply q_seq_single; eauto]|reflexivity]).
  - destruct single; eexists _, _; (split; [first [eapply q_cas_fail; solve [eauto]|eapply q_store; eauto]|reflexivity]).
  - eexists _, _. split; [eapply q_again; eauto|reflexivity].
  - eexists _, _. split; [eapply q_read; eauto|reflexivity].
  - eexists _, _. split; [eapply q_pub; eauto|reflexivity].
Qed.
Lemma lset_lset {A} (l : list A) i x y : lset (lset l i x) i y = lset l i y.
Proof. revert i; induction l as [|z l IH]; intros [|i]; cbn; [reflexivity..|]. f_equal. apply IH. Qed.
Lemma lset_id {A} (l : list A) i x : nth_error l i = Some x -> lset l i x = l.
Proof. revert i; induction l as [|z l IH]; intros [|i]; cbn; intros H; try congruence. f_equal. apply IH. exact H. Qed.
Lemma nth_lset_eq {A} (l : list A) i x y : nth_error l i = Some y -> nth_error (lset l i x) i = Some x.
Proof. intros H. rewrite nth_error_lset, Nat.eqb_refl, H. reflexivity. Qed.

(** ** A thread that runs alone *)
Section Alone.
Context {V : Type}.
Variable k : Z.
Hypothesis Hk : 1 <= k.
Variable single : bool.
Notation cap := (2 ^ k).
Implicit Types s : queue V.
Definition put_thr (l : list (pc V)) s : queue V :=
  {| q_enq := q_enq s; q_deq := q_deq s; q_seq := q_seq s; q_data := q_data s; q_thr := l; q_acc := q_acc s; q_out := q_out s |}.
Notation go := (SpecMpmc.steps (step cap single)).
Lemma go_trans s1 s2 s3 : go s1 s2 -> go s2 s3 -> go s1 s3.
Proof. intros H H2. induction H2 as [|a b d H2 IH St]; [exact H|]. eapply steps_S; [apply IH; exact H|exact St]. Qed.
Lemma go_step s1 s2 s3 : step cap single s1 s2 -> go s2 s3 -> go s1 s3.
Proof. intros St H. eapply go_trans; [|exact H]. eapply steps_S; [apply steps_0|exact St]. Qed.
Lemma quiet_idle s i : quiet s -> (i < length (q_thr s))%nat -> nth_error (q_thr s) i = Some Idle.
Proof.
  intros Qt Hi. destruct (nth_error (q_thr s) i) as [c|] eqn:E; [|apply nth_error_None in E; lia]. unfold quiet in Qt. rewrite Forall_forall in Qt.
  rewrite (Qt c (nth_error_In _ _ E)). reflexivity.
Qed.
Lemma quiet_thr s c : quiet s -> In c (q_thr s) -> c = Idle.
Proof. unfold quiet. rewrite Forall_forall. auto. Qed.
Lemma enq_cell n s : reach cap single n s -> quiet s -> q_seq s (slot cap (q_enq s)) = if q_enq s - q_deq s <? cap then q_enq s else q_enq s - cap + 1.
Proof.
  intros R Qt. pose proof (reach_inv k Hk single n s R) as I. pose proof (v_range _ _ s I) as Rg. pose proof (cap_ge k Hk) as C.
  destruct (Z.ltb_spec (q_enq s - q_deq s) cap) as [Lt|Ge].
  - pose proof (v_cells _ _ s I (q_enq s) ltac:(lia)) as K. unfold cell_ok in K. rewrite Z.ltb_irrefl in K.
    destruct K as [K|(_ & i & c & H & Hr)]; [exact K|]. apply nth_error_In, (quiet_thr s c Qt) in H. subst c. discriminate.
  - assert (E : q_enq s = q_deq s + cap) by lia. rewrite E, (slot_cap k Hk). pose proof (v_cells _ _ s I (q_deq s) ltac:(lia)) as K.
    unfold cell_ok in K. replace (q_deq s <? q_enq s) with true in K by lia.
    destruct K as [(_ & i & c & H & Hr)|(K & _)]; [|lia]. apply nth_error_In, (quiet_thr s c Qt) in H. subst c. discriminate.
Qed.
Ltac nth := cbn; first [eassumption|eapply nth_lset_eq; nth].

(** A push on a queue in which nothing is going on. *)
Lemma push_alone n s i v : reach cap single n s -> quiet s -> (i < length (q_thr s))%nat -> exists s', go s s' /\ quiet s' /\
  q_acc s' = (if q_enq s - q_deq s <? cap then q_acc s ++ [v] else q_acc s) /\ q_deq s' = q_deq s /\ q_out s' = q_out s.
Proof.
  intros R Qt Hi. pose proof (quiet_idle s i Qt Hi) as H. pose proof (enq_cell n s R Qt) as Sq. pose proof (cap_ge k Hk) as C.
  destruct (queue_correct k Hk single n s R) as (Rg & Rg2 & _).
  assert (Back : lset (q_thr s) i Idle = q_thr s) by (apply lset_id; exact H).
  destruct (Z.ltb_spec (q_enq s - q_deq s) cap) as [Lt|Ge].
  - eexists. split.
    { eapply go_step; [eapply push_start; nth|]. eapply go_step; [eapply (p_load _ _ _ v); nth|]. eapply go_step; [eapply p_seq; nth|].
      cbn. rewrite Sq, Z.sub_diag. cbn [Z.eqb].
      eapply go_step; [eapply p_cas; [nth|reflexivity]|]. cbn. eapply go_step; [eapply p_write; nth|]. eapply go_step; [eapply p_pub; nth|]. apply steps_0. }
    cbn. split; [|auto]. unfold quiet. cbn. rewrite !lset_lset, Back. exact Qt.
  - eexists. split.
    { eapply go_step; [eapply push_start; nth|]. eapply go_step; [eapply (p_load _ _ _ v); nth|]. eapply go_step; [eapply p_seq; nth|].
      cbn -[Z.sub]. rewrite Sq. replace (q_enq s - cap + 1 - q_enq s =? 0) with false by lia. replace (q_enq s - cap + 1 - q_enq s <? 0) with true by lia.
      eapply go_step; [eapply p_full; [nth|cbn; lia]|]. apply steps_0. }
    cbn. split; [|auto]. unfold quiet. cbn. rewrite !lset_lset, Back. exact Qt.
Qed.
(** A pop. *)
Lemma pop_alone n s i : reach cap single n s -> quiet s -> (i < length (q_thr s))%nat -> (single = true -> i = 0%nat) -> exists s', go s s' /\ quiet s' /\
  q_acc s' = q_acc s /\
  q_out s' = (if q_deq s <? q_enq s then q_out s ++ [(q_deq s, accepted_at s (q_deq s))] else q_out s).
Proof.
  intros R Qt Hi Hs. pose proof (quiet_idle s i Qt Hi) as H. pose proof (cap_ge k Hk) as C.
  destruct (queue_correct k Hk single n s R) as (Rg & Rg2 & _). destruct (queue_quiet k Hk single n s R Qt) as (_ & Qh).
  assert (Back : lset (q_thr s) i Idle = q_thr s) by (apply lset_id; exact H).
  destruct (Z.ltb_spec (q_deq s) (q_enq s)) as [Lt|Ge].
  - destruct (Qh (q_deq s) ltac:(lia)) as (Sq & Dt). rewrite <- Dt.
    assert (exists s1, go (with_pc i (QSeq (q_deq s)) (with_pc i QLoad s)) s1 /\ s1 =
      {| q_enq := q_enq s; q_deq := q_deq s + 1; q_seq := q_seq s; q_data := q_data s; q_thr := lset (q_thr s) i (QRead (q_deq s)); q_acc := q_acc s; q_out := q_out s |}) as (s1 & G & E1).
    { assert (Es : single = true \/ single = false) by (destruct single; auto). destruct Es as [Es|Es].
      - eexists. split; [eapply go_step; [eapply q_seq_single; [nth|exact Es]|]; cbn -[Z.sub]; rewrite Sq, Z.sub_diag; cbn [Z.eqb];
          eapply go_step; [eapply q_store; [nth|exact Es]|apply steps_0]|]. cbn. rewrite !lset_lset. reflexivity.
      - eexists. split; [eapply go_step; [eapply q_seq_multi; [nth|exact Es]|]; cbn -[Z.sub]; rewrite Sq, Z.sub_diag; cbn [Z.eqb];
          eapply go_step; [eapply q_cas; [nth|reflexivity|exact Es]|apply steps_0]|]. cbn. rewrite !lset_lset. reflexivity. }
    subst s1. eexists. split.
    { eapply go_step; [eapply pop_start; [nth|exact Hs]|]. eapply go_step; [eapply q_load; nth|]. eapply go_trans; [exact G|].
      eapply go_step; [eapply q_read; nth|]. eapply go_step; [eapply q_pub; nth|]. apply steps_0. }
    cbn. split; [|auto]. unfold quiet. cbn. rewrite !lset_lset, Back. exact Qt.
  - assert (E : q_enq s = q_deq s) by lia. pose proof (enq_cell n s R Qt) as Sq. replace (q_enq s - q_deq s <? cap) with true in Sq by lia. rewrite E in Sq.
    assert (exists s1, go (with_pc i (QSeq (q_deq s)) (with_pc i QLoad s)) s1 /\ s1 = s) as (s1 & G & E1).
    { assert (Es : single = true \/ single = false) by (destruct single; auto). destruct Es as [Es|Es].
      - eexists. split; [eapply go_step; [eapply q_seq_single; [nth|exact Es]|]; cbn -[Z.sub]; rewrite Sq;
          replace (q_deq s - (q_deq s + 1) =? 0) with false by lia; apply steps_0|]. unfold with_pc. cbn. rewrite !lset_lset, Back. destruct s; reflexivity.
      - eexists. split; [eapply go_step; [eapply q_seq_multi; [nth|exact Es]|]; cbn -[Z.sub]; rewrite Sq;
          replace (q_deq s - (q_deq s + 1) =? 0) with false by lia; replace (q_deq s - (q_deq s + 1) <? 0) with true by lia;
          eapply go_step; [eapply q_empty; [nth|cbn; lia]|apply steps_0]|]. unfold with_pc. cbn. rewrite !lset_lset, Back. destruct s; reflexivity. }
    exists s. split; [|auto]. eapply go_step; [eapply pop_start; [nth|exact Hs]|]. eapply go_step; [eapply q_load; nth|]. rewrite E1 in G. exact G.
Qed.
End Alone.

(** ** Concrete runs *)
Ltac st R c := let R' := fresh in
  eassert (R' : reach _ _ _ _) by (eapply r_step; [exact R|eapply c; solve [reflexivity|discriminate|lia]]);
  clear R; rename R' into R; cbn [with_pc q_enq q_deq q_seq q_data q_thr q_acc q_out lset Z.add] in R.

Lemma capacity_one : exists s : queue Z, reach 1 false 1 s /\ quiet s /\ q_acc s = [7; 8] /\ q_out s = [] /\ q_deq s = 0 /\
  q_data s 0 = Some 8 /\ q_seq s 0 = 2.
Proof.
  pose proof (r_init (V := Z) 1 false 1) as R. cbn in R.
  do 2 (let v := match type of R with context [7] => constr:(8) | _ => constr:(7) end in
        st R (push_start 1 false 0 v); st R (p_load 1 false 0 v); st R (p_seq 1 false 0 v); st R (p_cas 1 false 0 v);
        st R (p_write 1 false 0 v); st R (p_pub 1 false 0 v)).
  eexists. split; [exact R|]. split; [repeat constructor|]. repeat split.
Qed.

Lemma mpsc_behind : exists s : queue Z, reach 2 true 3 s /\ nth_error (q_thr s) 0 = Some (QSeq 0) /\ q_seq s (slot 2 0) - (0 + 1) <> 0 /\
  nth_error (q_thr s) 1 = Some (PWrite 7 0) /\ nth_error (q_thr s) 2 = Some Idle /\ q_acc s = [7; 8].
Proof.
  pose proof (r_init (V := Z) 2 true 3) as R. cbn in R.
  st R (push_start 2 true 1 7). st R (p_load 2 true 1 7). st R (p_seq 2 true 1 7). st R (p_cas 2 true 1 7).
  st R (push_start 2 true 2 8). st R (p_load 2 true 2 8). st R (p_seq 2 true 2 8). st R (p_cas 2 true 2 8).
  st R (p_write 2 true 2 8). st R (p_pub 2 true 2 8).
  st R (pop_start (V := Z) 2 true 0). st R (q_load (V := Z) 2 true 0).
  eexists. split; [exact R|]. cbn. repeat split. discriminate.
Qed.

Lemma mpmc_run : exists s : queue Z, reach 2 false 2 s /\ quiet s /\ q_acc s = [7; 8] /\ q_out s = [(0, Some 7)] /\ q_enq s = 2 /\ q_deq s = 1.
Proof.
  pose proof (r_init (V := Z) 2 false 2) as R. cbn in R.
  st R (push_start 2 false 0 7). st R (push_start 2 false 1 8). st R (p_load 2 false 1 8). st R (p_load 2 false 0 7).
  st R (p_seq 2 false 1 8). st R (p_seq 2 false 0 7). st R (p_cas 2 false 0 7). st R (p_cas_fail 2 false 1 8).
  st R (p_load 2 false 1 8). st R (p_write 2 false 0 7). st R (p_seq 2 false 1 8). st R (p_cas 2 false 1 8).
  st R (p_pub 2 false 0 7). st R (pop_start (V := Z) 2 false 0). st R (q_load (V := Z) 2 false 0). st R (q_seq_multi (V := Z) 2 false 0).
  st R (q_cas (V := Z) 2 false 0). st R (p_write 2 false 1 8). st R (q_read (V := Z) 2 false 0). st R (p_pub 2 false 1 8).
  st R (q_pub (V := Z) 2 false 0).
  eexists. split; [exact R|]. split; [repeat constructor|]. repeat split.
Qed.
