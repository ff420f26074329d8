(** Proofs about the run queue. *)
From Coq Require Import Permutation.
From Verif.Lib Require Import Base ListX.
From Verif.Queue Require Import ModelMpmc SpecMpmc ProofsMpmc ModelRun SpecRun.
Local Open Scope Z_scope.

Section Run.
Context {V : Type}.
Variable k : Z.
Hypothesis Hk : 1 <= k.
Notation cap := (2 ^ k).
Notation slot := (rslot cap).
Implicit Types (s : runq V) (c : rpc V).

Lemma rcap_ge : 2 <= cap.
Proof. exact (cap_ge k Hk). Qed.
Lemma rslot_cap p : slot (p + cap) = slot p.
Proof. exact (ProofsMpmc.slot_cap k Hk p). Qed.
Lemma rslot_inj p q : - cap < p - q < cap -> slot p = slot q -> p = q.
Proof. exact (ProofsMpmc.slot_inj k Hk p q). Qed.
Lemma rslot_small p : 0 <= p < cap -> slot p = p.
Proof. exact (ProofsMpmc.slot_small k Hk p). Qed.
Lemma rslot_mod p : slot p = p mod cap.
Proof. exact (ProofsMpmc.slot_mod k Hk p). Qed.
(** Every position has a representative in the window. *)
Lemma window t q : exists q', t <= q' < t + cap /\ slot q' = slot q /\ exists m, q = q' + m * cap.
Proof.
  pose proof rcap_ge as C. exists (t + (q - t) mod cap). pose proof (Z.mod_pos_bound (q - t) cap ltac:(lia)) as B.
  pose proof (Z.div_mod (q - t) cap ltac:(lia)) as D.
  split; [lia|]. split.
  - rewrite !rslot_mod. replace q with (t + (q - t) mod cap + ((q - t) / cap) * cap) at 2 by lia. rewrite Z_mod_plus_full. reflexivity.
  - exists ((q - t) / cap). lia.
Qed.

Definition wcl c (p : Z) : Prop :=
  match c with WCheck l _ pos | WData l _ pos | WFlag l _ pos | WPub l _ pos => pos <= p < pos + len l | _ => False end.
Definition rcl c (p : Z) : Prop := match c with QRead _ t | QPub _ t _ => p = t | _ => False end.

Definition writing s (l : list V) (f : bool) (pos : Z) : Prop :=
  r_tail s <= pos /\ pos + len l <= r_head s /\ l <> [] /\ (forall p, pos <= p < pos + len l -> r_seq s (slot p) = p) /\
  (forall j e, nth_error l j = Some e -> fiber_at s (pos + Z.of_nat j) = Some (e, f)).
Definition clean s (h b : Z) (j : nat) : Prop :=
  h + b < r_tail s + cap /\ forall p, h <= p < h + Z.of_nat j -> r_seq s (slot p) = p.

Definition pc_ok s c : Prop :=
  match c with
  | RIdle | PLoad _ _ | BLoad _ _ | QLoad _ => True
  | PSeq _ _ h | BSeq _ _ h => 0 <= h <= r_head s
  | PCas _ _ h => 0 <= h <= r_head s /\ (h = r_head s -> h < r_tail s + cap /\ r_seq s (slot h) = h)
  | BTest l _ h j => 0 <= h <= r_head s /\ (j <= length l)%nat /\ (h = r_head s -> clean s h (len l) j)
  | BCas l _ h => 0 <= h <= r_head s /\ (h = r_head s -> clean s h (len l) (length l))
  | WCheck l f pos | WData l f pos => writing s l f pos
  | WFlag l f pos => writing s l f pos /\ r_data s (slot pos) = hd_error l
  | WPub l f pos => writing s l f pos /\ r_data s (slot pos) = hd_error l /\ r_flag s (slot pos) = f
  | QSeq _ t => 0 <= t <= r_tail s
  | QTest t => 0 <= t <= r_tail s /\ (t = r_tail s -> t < r_head s /\ r_seq s (slot t) = t + 1)
  | QCas st t => 0 <= t <= r_tail s /\ (t = r_tail s -> t < r_head s /\ r_seq s (slot t) = t + 1 /\ (st = true -> r_flag s (slot t) = false))
  | QRead st t => 0 <= t < r_tail s /\ r_head s - cap <= t /\ r_seq s (slot t) = t + 1 /\
      exists e f, fiber_at s t = Some (e, f) /\ r_data s (slot t) = Some e /\ (st = true -> f = false)
  | QPub st t x => 0 <= t < r_tail s /\ r_head s - cap <= t /\ r_seq s (slot t) = t + 1 /\
      exists e f, fiber_at s t = Some (e, f) /\ x = Some e /\ (st = true -> f = false)
  end.
Definition published s p : Prop :=
  r_seq s (slot p) = p + 1 /\ exists e f, fiber_at s p = Some (e, f) /\ r_data s (slot p) = Some e /\ r_flag s (slot p) = f.
Definition cell_ok s p : Prop :=
  if p <? r_head s then
    (r_seq s (slot p) = p /\ exists i c, nth_error (r_thr s) i = Some c /\ wcl c p) \/ published s p
  else
    r_seq s (slot p) = p \/ (r_seq s (slot p) = p - cap + 1 /\ exists i c, nth_error (r_thr s) i = Some c /\ rcl c (p - cap)).

Definition pos_of (o : Z * bool * option V) : Z := fst (fst o).
Record inv s : Prop := {
  v_range : 0 <= r_tail s <= r_head s /\ r_head s <= r_tail s + cap;
  v_acc : len (r_acc s) = r_head s;
  v_cells : forall p, r_tail s <= p < r_tail s + cap -> cell_ok s p;
  v_pcs : forall i c, nth_error (r_thr s) i = Some c -> pc_ok s c;
  v_wu : forall i j c d p, nth_error (r_thr s) i = Some c -> nth_error (r_thr s) j = Some d -> wcl c p -> wcl d p -> i = j;
  v_ru : forall i j c d p, nth_error (r_thr s) i = Some c -> nth_error (r_thr s) j = Some d -> rcl c p -> rcl d p -> i = j;
  v_abort : r_abort s = false;
  v_out : NoDup (map pos_of (r_out s));
  v_outs : forall p st x, In (p, st, x) (r_out s) -> 0 <= p < r_tail s /\
    exists e f, fiber_at s p = Some (e, f) /\ x = Some e /\ (st = true -> f = false);
  v_outr : forall i c p, nth_error (r_thr s) i = Some c -> rcl c p -> ~ In p (map pos_of (r_out s));
  v_all : forall p, 0 <= p < r_tail s -> In p (map pos_of (r_out s)) \/ exists i c, nth_error (r_thr s) i = Some c /\ rcl c p }.

Lemma inv_init n : inv (rinit n).
Proof.
  assert (I : forall i c, nth_error (repeat (@RIdle V) n) i = Some c -> c = RIdle)
    by (intros i c H; apply nth_error_In in H; apply repeat_spec in H; exact H).
  pose proof rcap_ge.
  constructor; cbn.
  - lia.
  - reflexivity.
  - intros p Hp. unfold cell_ok. cbn. destruct (p <? 0) eqn:E; [lia|]. left. apply rslot_small. lia.
  - intros i c H0. apply I in H0. subst. exact Logic.I.
  - intros i j c d p H0 _ H1. apply I in H0. subst. destruct H1.
  - intros i j c d p H0 _ H1. apply I in H0. subst. destruct H1.
  - reflexivity.
  - constructor.
  - intros p st x [].
  - intros i c p H0 _ [].
  - intros p Hp. lia.
Qed.

Lemma cases (l : list (rpc V)) i c0 c : nth_error l i = Some c0 -> forall j d, nth_error (lset l i c) j = Some d ->
  (j = i /\ d = c) \/ (j <> i /\ nth_error l j = Some d).
Proof.
  intros H j d Hj. rewrite nth_error_lset in Hj. destruct (i =? j)%nat eqn:E.
  - apply Nat.eqb_eq in E. rewrite H in Hj. left. split; congruence.
  - apply Nat.eqb_neq in E. right. split; congruence.
Qed.
(** Claims survive if thread [i] did not give them up. *)
Lemma keep (cl : rpc V -> Prop) (l : list (rpc V)) i c0 c : nth_error l i = Some c0 -> (cl c0 -> cl c) ->
  (exists j d, nth_error l j = Some d /\ cl d) -> exists j d, nth_error (lset l i c) j = Some d /\ cl d.
Proof.
  intros H W (j & d & K1 & K2). destruct (Nat.eq_dec j i) as [->|N].
  - exists i, c. split; [eapply nth_lset_eq; eauto|apply W; congruence].
  - exists j, d. rewrite nth_error_lset. destruct (Nat.eqb_spec i j); [congruence|auto].
Qed.

(** A step of thread [i] from [c0] to [c]. *)
Lemma frame s s' i c0 c : inv s -> nth_error (r_thr s) i = Some c0 -> r_thr s' = lset (r_thr s) i c ->
  0 <= r_tail s' <= r_head s' /\ r_head s' <= r_tail s' + cap -> len (r_acc s') = r_head s' ->
  (forall p, r_tail s' <= p < r_tail s' + cap -> cell_ok s' p) ->
  (forall j d, j <> i -> nth_error (r_thr s) j = Some d -> pc_ok s d -> pc_ok s' d) -> pc_ok s' c ->
  (forall p, wcl c p -> wcl c0 p \/ forall j d, nth_error (r_thr s) j = Some d -> ~ wcl d p) ->
  (forall p, rcl c p -> rcl c0 p \/ forall j d, nth_error (r_thr s) j = Some d -> ~ rcl d p) ->
  r_abort s' = false -> NoDup (map pos_of (r_out s')) ->
  (forall p st x, In (p, st, x) (r_out s') -> 0 <= p < r_tail s' /\ exists e f, fiber_at s' p = Some (e, f) /\ x = Some e /\ (st = true -> f = false)) ->
  (forall j d p, j <> i -> nth_error (r_thr s) j = Some d -> rcl d p -> ~ In p (map pos_of (r_out s'))) ->
  (forall p, rcl c p -> ~ In p (map pos_of (r_out s'))) ->
  (forall p, 0 <= p < r_tail s' -> In p (map pos_of (r_out s')) \/ rcl c p \/ (~ rcl c0 p /\ exists j d, nth_error (r_thr s) j = Some d /\ rcl d p)) ->
  inv s'.
Proof.
  intros I H Et R1 R2 R3 R4 R5 R6 R7 R8 R9 R10 R11 R12 R13.
  pose proof (cases _ i _ c H) as T. rewrite <- Et in T.
  constructor; auto.
  - intros j d Hj. destruct (T j d Hj) as [(-> & ->)|(Hn & Hj2)]; [exact R5|]. exact (R4 j d Hn Hj2 (v_pcs s I j d Hj2)).
  - intros j1 j2 d1 d2 p H1 H2 P1 P2. destruct (T j1 d1 H1) as [(-> & ->)|(N1 & Q1)], (T j2 d2 H2) as [(-> & ->)|(N2 & Q2)]; auto.
    + destruct (R6 p P1) as [W|W]; [exact (v_wu s I _ _ _ _ p H Q2 W P2)|destruct (W j2 d2 Q2 P2)].
    + destruct (R6 p P2) as [W|W]; [exact (v_wu s I _ _ _ _ p Q1 H P1 W)|destruct (W j1 d1 Q1 P1)].
    + exact (v_wu s I _ _ _ _ p Q1 Q2 P1 P2).
  - intros j1 j2 d1 d2 p H1 H2 P1 P2. destruct (T j1 d1 H1) as [(-> & ->)|(N1 & Q1)], (T j2 d2 H2) as [(-> & ->)|(N2 & Q2)]; auto.
    + destruct (R7 p P1) as [W|W]; [exact (v_ru s I _ _ _ _ p H Q2 W P2)|destruct (W j2 d2 Q2 P2)].
    + destruct (R7 p P2) as [W|W]; [exact (v_ru s I _ _ _ _ p Q1 H P1 W)|destruct (W j1 d1 Q1 P1)].
    + exact (v_ru s I _ _ _ _ p Q1 Q2 P1 P2).
  - intros j d p Hj Hp. destruct (T j d Hj) as [(-> & ->)|(Hn & Hj2)]; [auto|exact (R11 j d p Hn Hj2 Hp)].
  - intros p Hp. destruct (R13 p Hp) as [W|[W|(W & j & d & W1 & W2)]]; [auto| |]; right.
    + exists i, c. rewrite Et. split; [eapply nth_lset_eq; eauto|exact W].
    + exists j, d. split; [|exact W2]. rewrite Et, nth_error_lset. destruct (Nat.eqb_spec i j) as [->|]; [|exact W1].
      exfalso. apply W. congruence.
Qed.

(** A thread moves, with the same claims. *)
Lemma move_inv s i c0 c ab : inv s -> nth_error (r_thr s) i = Some c0 -> (forall p, wcl c0 p <-> wcl c p) -> (forall p, rcl c0 p <-> rcl c p) ->
  pc_ok s c -> ab = false ->
  inv {| r_head := r_head s; r_tail := r_tail s; r_seq := r_seq s; r_data := r_data s; r_flag := r_flag s; r_thr := lset (r_thr s) i c;
     r_abort := ab; r_acc := r_acc s; r_out := r_out s |}.
Proof.
  intros I H Hw Hr Hok Ha. pose proof I as [A1 A2 A3 A4 A5 A6 A7 A8 A9 A10 A11].
  eapply (frame s _ i c0 c I H); cbn; auto.
  - intros p Hp. specialize (A3 p Hp). unfold cell_ok in *. cbn. destruct (p <? r_head s).
    + destruct A3 as [(K1 & K2)|K]; [|auto]. left. split; [exact K1|]. eapply (keep (fun d => wcl d p)); eauto. apply Hw.
    + destruct A3 as [K|(K1 & K2)]; [auto|]. right. split; [exact K1|]. eapply (keep (fun d => rcl d (p - cap))); eauto. apply Hr.
  - intros p W. left. apply Hw. exact W.
  - intros p W. left. apply Hr. exact W.
  - intros j d p _ Hj Hp. exact (A10 j d p Hj Hp).
  - intros p Hp. apply (A10 i c0 p H). apply Hr. exact Hp.
  - intros p Hp. destruct (A11 p Hp) as [W|(j & d & W1 & W2)]; [auto|right].
    destruct (Nat.eq_dec j i) as [->|N]; [left; apply Hr; congruence|].
    right. split; [|eauto]. intros Q. apply N. exact (A6 j i d c0 p W1 H W2 Q).
Qed.

(** The sequence at a position that was claimed. *)
Lemma seq_ge s q : inv s -> 0 <= q < r_head s -> q <= r_seq s (slot q).
Proof.
  intros I B. pose proof rcap_ge as C. pose proof (v_range s I) as R. destruct (window (r_tail s) q) as (q' & W1 & W2 & m & W3).
  pose proof (v_cells s I q' W1) as K. unfold cell_ok, published in K. rewrite W2 in K.
  assert (m <= 0 \/ 1 <= m) as [M|M] by lia; [|nia].
  destruct (Z.eq_dec m 0) as [->|].
  - replace q' with q in * by lia. replace (q <? r_head s) with true in K by lia. destruct K as [(K & _)|(K & _)]; lia.
  - destruct (q' <? r_head s); [destruct K as [(K & _)|(K & _)]; nia|destruct K as [K|(K & _)]; nia].
Qed.
(** The position behind the range is free. *)
Lemma seq_free s q : inv s -> r_head s <= q -> r_seq s (slot q) = q -> q < r_tail s + cap.
Proof.
  intros I B E. pose proof rcap_ge as C. pose proof (v_range s I) as R. destruct (window (r_tail s) q) as (q' & W1 & W2 & m & W3).
  pose proof (v_cells s I q' W1) as K. unfold cell_ok, published in K. rewrite W2 in K.
  assert (m <= 0 \/ 1 <= m) as [M|M] by lia; [nia|]. exfalso.
  destruct (q' <? r_head s); [destruct K as [(K & _)|(K & _)]; nia|destruct K as [K|(K & _)]; nia].
Qed.

Lemma fiber_app s x p : 0 <= p < len (r_acc s) -> nth_error (r_acc s ++ x) (Z.to_nat p) = fiber_at s p.
Proof. intros H. unfold fiber_at. apply nth_error_app1. unfold len in H. lia. Qed.

(** Both ways to push: claim the positions from the head on. *)
Lemma claim_inv i c0 c l f s : inv s -> nth_error (r_thr s) i = Some c0 -> (forall p, ~ wcl c0 p) -> (forall p, ~ rcl c0 p) ->
  l <> [] -> c = WCheck l f (r_head s) \/ c = WData l f (r_head s) ->
  r_head s + len l <= r_tail s + cap -> (forall p, r_head s <= p < r_head s + len l -> r_seq s (slot p) = p) ->
  inv {| r_head := r_head s + len l; r_tail := r_tail s; r_seq := r_seq s; r_data := r_data s; r_flag := r_flag s;
         r_thr := lset (r_thr s) i c; r_abort := r_abort s; r_acc := r_acc s ++ map (fun e => (e, f)) l; r_out := r_out s |}.
Proof.
  intros I H N1 N2 Nl Hc K1 K2. pose proof I as [A1 A2 A3 A4 A5 A6 A7 A8 A9 A10 A11]. pose proof rcap_ge as C.
  assert (Lp : 1 <= len l) by (unfold len; destruct l; [congruence|cbn; lia]).
  assert (Wc : forall p, wcl c p <-> r_head s <= p < r_head s + len l) by (intros p; destruct Hc as [Hc|Hc]; subst c; reflexivity).
  assert (Rc : forall p, ~ rcl c p) by (intros p; destruct Hc as [Hc|Hc]; subst c; intros []).
  match goal with |- inv ?x => set (s' := x);
    assert (Ea : forall p, 0 <= p < r_head s -> fiber_at s' p = fiber_at s p) by (intros p Hp; apply fiber_app; lia) end.
  eapply (frame s s' i c0 c I H); subst s'; cbn [r_head r_tail r_seq r_data r_flag r_thr r_abort r_acc r_out]; auto; try lia.
  - unfold len in *. rewrite app_length, map_length. lia.
  - intros p Hp. specialize (A3 p Hp). unfold cell_ok, published in *. cbn [r_head r_tail r_seq r_data r_flag r_thr].
    destruct (p <? r_head s) eqn:E1.
    + replace (p <? r_head s + len l) with true by lia. destruct A3 as [(B1 & B2)|(B1 & B2)].
      * left. split; [exact B1|]. eapply (keep (fun d => wcl d p)); [exact H|intros Q; destruct (N1 p Q)|exact B2].
      * right. rewrite Ea by lia. auto.
    + destruct (p <? r_head s + len l) eqn:E2.
      * left. split; [apply K2; lia|]. exists i, c. split; [eapply nth_lset_eq; eauto|apply Wc; lia].
      * destruct A3 as [B|(B1 & B2)]; [auto|]. right. split; [exact B1|]. eapply (keep (fun d => rcl d (p - cap))); [exact H|intros Q; destruct (N2 _ Q)|exact B2].
  - intros j d Hn Hj2 Q.
    assert (Wr : forall l0 f0 p0, writing s l0 f0 p0 ->
      writing {| r_head := r_head s + len l; r_tail := r_tail s; r_seq := r_seq s; r_data := r_data s; r_flag := r_flag s;
         r_thr := lset (r_thr s) i c; r_abort := r_abort s; r_acc := r_acc s ++ map (fun e => (e, f)) l; r_out := r_out s |} l0 f0 p0).
    { intros l0 f0 p0 (W1 & W2 & W3 & W4 & W5). unfold writing. cbn [r_head r_tail r_seq].
      split; [lia|]. split; [lia|]. split; [exact W3|]. split; [exact W4|]. intros j0 e0 He.
      assert (j0 < length l0)%nat by (apply nth_error_Some; congruence).
      rewrite Ea by (unfold len in *; lia). apply W5. exact He. }
    assert (Rd : forall t, 0 <= t < r_tail s -> r_head s - cap <= t -> r_seq s (slot t) = t + 1 -> r_head s + len l - cap <= t).
    { intros t T1 T2 T3. destruct (Z.le_gt_cases (r_head s + len l - cap) t) as [|L]; [assumption|exfalso].
      rewrite <- (rslot_cap t) in T3. rewrite K2 in T3; lia. }
    destruct d as [|e0 f0|e0 f0 h0|e0 f0 h0|l0 f0|l0 f0 h0|l0 f0 h0 j0|l0 f0 h0|l0 f0 p0|l0 f0 p0|l0 f0 p0|l0 f0 p0|st0|st0 t0|t0|st0 t0|st0 t0|st0 t0 x0];
      cbn [pc_ok] in *; cbn [r_head r_tail r_seq r_data r_flag]; auto; try lia.
    + destruct Q as (Q1 & Q2). split; [apply Wr; exact Q1|exact Q2].
    + destruct Q as (Q1 & Q2). split; [apply Wr; exact Q1|exact Q2].
    + destruct Q as (Q1 & Q2 & Q3 & Q4). rewrite Ea by lia. auto.
    + destruct Q as (Q1 & Q2 & Q3 & Q4). rewrite Ea by lia. auto.
  - assert (Wc2 : writing {| r_head := r_head s + len l; r_tail := r_tail s; r_seq := r_seq s; r_data := r_data s; r_flag := r_flag s;
         r_thr := lset (r_thr s) i c; r_abort := r_abort s; r_acc := r_acc s ++ map (fun e => (e, f)) l; r_out := r_out s |} l f (r_head s)).
    { unfold writing. cbn [r_head r_tail r_seq]. split; [lia|]. split; [lia|]. split; [exact Nl|]. split; [exact K2|].
      intros j e He. unfold fiber_at. cbn [r_acc]. unfold len in *. rewrite nth_error_app2 by lia.
      replace (Z.to_nat (r_head s + Z.of_nat j) - length (r_acc s))%nat with j by lia. apply map_nth_error with (f := fun e => (e, f)). exact He. }
    destruct Hc as [Hc|Hc]; subst c; exact Wc2.
  - intros p Hp. right. apply Wc in Hp. intros j d Hj Hd. pose proof (A4 j d Hj) as Q.
    assert (Wh : forall l0 f0 p0, writing s l0 f0 p0 -> p0 + len l0 <= r_head s) by (intros l0 f0 p0 W; apply W).
    destruct d; cbn in Hd, Q; try contradiction; try (apply Wh in Q; lia); destruct Q as (Q & _); apply Wh in Q; lia.
  - intros p Hp. destruct (Rc p Hp).
  - intros p st x Hx. destruct (A9 p st x Hx) as (B1 & B2). split; [exact B1|]. rewrite Ea by lia. exact B2.
  - intros j d p _ Hj Hd. exact (A10 j d p Hj Hd).
  - intros p Hp. destruct (Rc p Hp).
  - intros p Hp. destruct (A11 p Hp) as [B|B]; [auto|right; right]. split; [apply N2|exact B].
Qed.

(** What two threads that write hold is disjoint. *)
Lemma writing_apart s i j c d l f p q : inv s -> nth_error (r_thr s) i = Some c -> nth_error (r_thr s) j = Some d -> j <> i ->
  writing s l f p -> wcl c p -> wcl d q -> r_tail s <= q < r_head s -> slot q <> slot p.
Proof.
  intros I Hi Hj N W Wc Wd B E. destruct W as (W1 & W2 & W3 & W4 & W5). pose proof (v_range s I).
  assert (1 <= len l) by (unfold len; destruct l; [congruence|cbn; lia]).
  apply rslot_inj in E; [|lia]. subst q. apply N. exact (v_wu s I j i d c p Hj Hi Wd Wc).
Qed.
Lemma writing_hd s l f p : writing s l f p -> 1 <= len l.
Proof. intros (_ & _ & N & _). unfold len. destruct l; [congruence|cbn; lia]. Qed.

(** A thread writes into the node that it will publish next. *)
Lemma write_inv i c0 c l f pos data flag s : inv s -> nth_error (r_thr s) i = Some c0 -> (forall p, wcl c0 p <-> pos <= p < pos + len l) ->
  (forall p, wcl c p <-> pos <= p < pos + len l) -> (forall p, ~ rcl c0 p) -> (forall p, ~ rcl c p) -> writing s l f pos ->
  (forall q, q <> slot pos -> data q = r_data s q /\ flag q = r_flag s q) ->
  let s' := {| r_head := r_head s; r_tail := r_tail s; r_seq := r_seq s; r_data := data; r_flag := flag;
         r_thr := lset (r_thr s) i c; r_abort := r_abort s; r_acc := r_acc s; r_out := r_out s |} in
  pc_ok s' c -> inv s'.
Proof.
  intros I H N1 N2 N3 N4 W D s' Ok. pose proof I as [A1 A2 A3 A4 A5 A6 A7 A8 A9 A10 A11]. pose proof rcap_ge as C.
  pose proof (writing_hd _ _ _ _ W) as Lp. pose proof W as (W1 & W2 & W3 & W4 & W5).
  assert (Sp : r_seq s (slot pos) = pos) by (apply W4; lia).
  eapply (frame s s' i c0 c I H); subst s'; cbn [r_head r_tail r_seq r_data r_flag r_thr r_abort r_acc r_out]; auto; try lia.
  - intros p Hp. specialize (A3 p Hp). unfold cell_ok, published in *. cbn [r_head r_tail r_seq r_data r_flag r_thr].
    destruct (p <? r_head s) eqn:E1.
    + destruct A3 as [(B1 & B2)|(B1 & B2)].
      * left. split; [exact B1|]. eapply (keep (fun d => wcl d p)); [exact H|rewrite N1, N2; auto|exact B2].
      * right. split; [exact B1|]. destruct (D (slot p)) as (-> & ->); [|exact B2]. intros E. rewrite E in B1. apply rslot_inj in E; lia.
    + destruct A3 as [B|(B1 & B2)]; [auto|]. right. split; [exact B1|]. eapply (keep (fun d => rcl d (p - cap))); [exact H|intros Q; destruct (N3 _ Q)|exact B2].
  - intros j d Hn Hj2 Q.
    assert (Ap : forall q, wcl d q -> r_tail s <= q < r_head s -> slot q <> slot pos).
    { intros q Wd B. eapply (writing_apart s i j c0 d l f pos q); eauto. apply N1. lia. }
    destruct d as [|e0 f0|e0 f0 h0|e0 f0 h0|l0 f0|l0 f0 h0|l0 f0 h0 j0|l0 f0 h0|l0 f0 p0|l0 f0 p0|l0 f0 p0|l0 f0 p0|st0|st0 t0|t0|st0 t0|st0 t0|st0 t0 x0];
      cbn [pc_ok] in *; cbn [r_head r_tail r_seq r_data r_flag]; auto.
    + destruct Q as (Q1 & Q2). split; [exact Q1|]. pose proof (writing_hd _ _ _ _ Q1). pose proof Q1 as (R1 & R2 & _).
      destruct (D (slot p0)) as (-> & _); [|exact Q2]. apply Ap; [cbn; lia|lia].
    + destruct Q as (Q1 & Q2 & Q3). split; [exact Q1|]. pose proof (writing_hd _ _ _ _ Q1). pose proof Q1 as (R1 & R2 & _).
      destruct (D (slot p0)) as (-> & ->); [|auto]. apply Ap; [cbn; lia|lia].
    + destruct Q as (Q1 & Q2). split; [exact Q1|]. intros E. destruct (Q2 E) as (R1 & R2 & R3). split; [exact R1|]. split; [exact R2|].
      destruct (D (slot t0)) as (_ & ->); [|exact R3]. intros E2. rewrite E2 in R2. apply rslot_inj in E2; lia.
    + destruct Q as (Q1 & Q2 & Q3 & Q4). split; [exact Q1|]. split; [exact Q2|]. split; [exact Q3|].
      destruct (D (slot t0)) as (-> & _); [|exact Q4]. intros E2. rewrite E2 in Q3. apply rslot_inj in E2; lia.
  - intros p Hp. left. apply N1, N2. exact Hp.
  - intros p Hp. destruct (N4 p Hp).
  - intros j d p _ Hj Hd. exact (A10 j d p Hj Hd).
  - intros p Hp. destruct (N4 p Hp).
  - intros p Hp. destruct (A11 p Hp) as [B|B]; [auto|right; right]. split; [apply N3|exact B].
Qed.

Lemma wpub_inv i e l f pos s : inv s -> nth_error (r_thr s) i = Some (WPub (e :: l) f pos) ->
  inv {| r_head := r_head s; r_tail := r_tail s; r_seq := zset (r_seq s) (slot pos) (pos + 1); r_data := r_data s; r_flag := r_flag s;
         r_thr := lset (r_thr s) i (match l with [] => RIdle | _ => WCheck l f (pos + 1) end);
         r_abort := r_abort s; r_acc := r_acc s; r_out := r_out s |}.
Proof.
  intros I H. pose proof I as [A1 A2 A3 A4 A5 A6 A7 A8 A9 A10 A11]. pose proof rcap_ge as C.
  pose proof (A4 i _ H) as (W & K1 & K2). pose proof W as (W1 & W2 & W3 & W4 & W5). cbn in K1.
  assert (Ll : len (e :: l) = len l + 1) by (unfold len; cbn; lia). rewrite Ll in *.
  assert (Lp : 0 <= len l) by (unfold len; lia).
  assert (Sp : r_seq s (slot pos) = pos) by (apply W4; lia).
  set (c := match l with [] => RIdle | _ => WCheck l f (pos + 1) end).
  assert (Wc : forall p, wcl c p <-> pos + 1 <= p < pos + 1 + len l)
    by (intros p; subst c; destruct l; cbn; [unfold len in *; cbn in *; lia|reflexivity]).
  assert (Rc : forall p, ~ rcl c p) by (intros p; subst c; destruct l; intros []).
  assert (Fe : fiber_at s pos = Some (e, f)) by (rewrite <- (W5 0%nat e eq_refl); f_equal; lia).
  match goal with |- inv ?x => set (s' := x) end.
  eapply (frame s s' i _ c I H); subst s'; cbn [r_head r_tail r_seq r_data r_flag r_thr r_abort r_acc r_out]; auto; try lia.
  - intros p Hp. specialize (A3 p Hp). unfold cell_ok, published in *. cbn [r_head r_tail r_seq r_data r_flag r_thr].
    destruct (Z.eq_dec p pos) as [->|N].
    + replace (pos <? r_head s) with true by lia. right. rewrite zset_same. split; [reflexivity|]. exists e, f. auto.
    + rewrite zset_other by (intros E; apply rslot_inj in E; lia).
      destruct (p <? r_head s) eqn:E1.
      * destruct A3 as [(B1 & B2)|B]; [|right; exact B].
        left. split; [exact B1|]. eapply (keep (fun d => wcl d p)); [exact H|cbn [wcl]; rewrite Ll, Wc; lia|exact B2].
      * destruct A3 as [B|(B1 & B2)]; [auto|]. right. split; [exact B1|]. eapply (keep (fun d => rcl d (p - cap))); [exact H|intros []|exact B2].
  - intros j d Hn Hj2 Q.
    assert (Ap : forall q, wcl d q -> r_tail s <= q < r_head s -> slot q <> slot pos).
    { intros q Wd B. eapply (writing_apart s i j _ d _ f pos q); eauto. cbn [wcl]. lia. }
    assert (Wr : forall l0 f0 p0, (forall p, p0 <= p < p0 + len l0 -> wcl d p) -> writing s l0 f0 p0 ->
      writing {| r_head := r_head s; r_tail := r_tail s; r_seq := zset (r_seq s) (slot pos) (pos + 1); r_data := r_data s; r_flag := r_flag s;
         r_thr := lset (r_thr s) i c; r_abort := r_abort s; r_acc := r_acc s; r_out := r_out s |} l0 f0 p0).
    { intros l0 f0 p0 Hw (X1 & X2 & X3 & X4 & X5). unfold writing. cbn [r_head r_tail r_seq]. repeat (split; [assumption|]). split; [|exact X5].
      intros p Hp. rewrite zset_other; [apply X4; exact Hp|]. apply Ap; [apply Hw; exact Hp|lia]. }
    assert (Cl : forall h b j0, h = r_head s -> Z.of_nat j0 <= b -> clean s h b j0 ->
      clean {| r_head := r_head s; r_tail := r_tail s; r_seq := zset (r_seq s) (slot pos) (pos + 1); r_data := r_data s; r_flag := r_flag s;
         r_thr := lset (r_thr s) i c; r_abort := r_abort s; r_acc := r_acc s; r_out := r_out s |} h b j0).
    { intros h b j0 Eh Hb (X1 & X2). unfold clean. cbn [r_head r_tail r_seq]. split; [exact X1|]. intros p Hp.
      rewrite zset_other; [apply X2; exact Hp|]. intros E. apply rslot_inj in E; lia. }
    assert (Sq : forall t, r_head s - cap <= t -> t <= r_tail s -> r_seq s (slot t) = t + 1 -> zset (r_seq s) (slot pos) (pos + 1) (slot t) = t + 1).
    { intros t T1 T2 T3. rewrite zset_other; [exact T3|]. intros E. rewrite E in T3. apply rslot_inj in E; lia. }
    destruct d as [|e0 f0|e0 f0 h0|e0 f0 h0|l0 f0|l0 f0 h0|l0 f0 h0 j0|l0 f0 h0|l0 f0 p0|l0 f0 p0|l0 f0 p0|l0 f0 p0|st0|st0 t0|t0|st0 t0|st0 t0|st0 t0 x0];
      cbn [pc_ok] in *; cbn [r_head r_tail r_seq r_data r_flag]; auto.
    + destruct Q as (Q1 & Q2). split; [exact Q1|]. intros E. destruct (Q2 E) as (Q3 & Q4). split; [exact Q3|].
      rewrite zset_other; [exact Q4|]. intros E2. apply rslot_inj in E2; lia.
    + destruct Q as (Q1 & Q2 & Q3). split; [exact Q1|]. split; [exact Q2|]. intros E. apply Cl; [exact E|unfold len; lia|auto].
    + destruct Q as (Q1 & Q2). split; [exact Q1|]. intros E. apply Cl; [exact E|unfold len; lia|auto].
    + destruct Q as (Q1 & Q2). split; [apply Wr; auto|exact Q2].
    + destruct Q as (Q1 & Q2). split; [apply Wr; auto|exact Q2].
    + destruct Q as (Q1 & Q2). split; [exact Q1|]. intros E. destruct (Q2 E) as (Q3 & Q4). split; [exact Q3|]. apply Sq; [lia|lia|exact Q4].
    + destruct Q as (Q1 & Q2). split; [exact Q1|]. intros E. destruct (Q2 E) as (Q3 & Q4 & Q5). split; [exact Q3|]. split; [apply Sq; [lia|lia|exact Q4]|exact Q5].
    + destruct Q as (Q1 & Q2 & Q3 & Q4). split; [exact Q1|]. split; [exact Q2|]. split; [apply Sq; [lia|lia|exact Q3]|exact Q4].
    + destruct Q as (Q1 & Q2 & Q3 & Q4). split; [exact Q1|]. split; [exact Q2|]. split; [apply Sq; [lia|lia|exact Q3]|exact Q4].
  - subst c. destruct l as [|e1 l]; [exact Logic.I|]. cbn [pc_ok]. unfold writing. cbn [r_head r_tail r_seq]. split; [lia|]. split; [lia|].
    split; [discriminate|]. split.
    + intros p Hp. rewrite zset_other by (intros E; apply rslot_inj in E; lia). apply W4. lia.
    + intros j e2 He. rewrite <- (W5 (S j) e2 He). unfold fiber_at. cbn [r_acc]. replace (pos + Z.of_nat (S j)) with (pos + 1 + Z.of_nat j) by lia. reflexivity.
  - intros p Hp. left. cbn [wcl]. apply Wc in Hp. lia.
  - intros p Hp. destruct (Rc p Hp).
  - intros j d p _ Hj Hd. exact (A10 j d p Hj Hd).
  - intros p Hp. destruct (Rc p Hp).
  - intros p Hp. destruct (A11 p Hp) as [B|B]; [auto|right; right]. split; [intros []|exact B].
Qed.

Lemma qcas_inv i st s : inv s -> nth_error (r_thr s) i = Some (QCas st (r_tail s)) ->
  inv {| r_head := r_head s; r_tail := r_tail s + 1; r_seq := r_seq s; r_data := r_data s; r_flag := r_flag s;
         r_thr := lset (r_thr s) i (QRead st (r_tail s)); r_abort := r_abort s; r_acc := r_acc s; r_out := r_out s |}.
Proof.
  intros I H. pose proof I as [A1 A2 A3 A4 A5 A6 A7 A8 A9 A10 A11]. pose proof rcap_ge as C.
  pose proof (A4 i _ H) as (_ & K). destruct (K eq_refl) as (K1 & K2 & K3). clear K.
  assert (P : published s (r_tail s)).
  { pose proof (A3 (r_tail s) ltac:(lia)) as B. unfold cell_ok in B. replace (r_tail s <? r_head s) with true in B by lia.
    destruct B as [(B & _)|B]; [lia|exact B]. }
  destruct P as (_ & e & f & P1 & P2 & P3).
  match goal with |- inv ?x => set (s' := x) end.
  eapply (frame s s' i _ _ I H eq_refl); subst s'; cbn [r_head r_tail r_seq r_data r_flag r_thr r_abort r_acc r_out]; auto; try lia.
  - intros p Hp. destruct (Z.eq_dec p (r_tail s + cap)) as [->|N].
    + unfold cell_ok. cbn [r_head r_tail r_seq r_data r_thr]. replace (r_tail s + cap <? r_head s) with false by lia.
      right. rewrite rslot_cap. split; [lia|]. exists i, (QRead st (r_tail s)). split; [eapply nth_lset_eq; eauto|cbn; lia].
    + specialize (A3 p ltac:(lia)). unfold cell_ok, published in *. cbn [r_head r_tail r_seq r_data r_flag r_thr]. destruct (p <? r_head s) eqn:E1.
      * destruct A3 as [(B1 & B2)|B]; [|right; exact B].
        left. split; [exact B1|]. eapply (keep (fun d => wcl d p)); [exact H|intros []|exact B2].
      * destruct A3 as [B|(B1 & B2)]; [auto|]. right. split; [exact B1|]. eapply (keep (fun d => rcl d (p - cap))); [exact H|intros []|exact B2].
  - intros j d Hn Hj2 Q.
    assert (Wr : forall l0 f0 p0, writing s l0 f0 p0 ->
      writing {| r_head := r_head s; r_tail := r_tail s + 1; r_seq := r_seq s; r_data := r_data s; r_flag := r_flag s;
         r_thr := lset (r_thr s) i (QRead st (r_tail s)); r_abort := r_abort s; r_acc := r_acc s; r_out := r_out s |} l0 f0 p0).
    { intros l0 f0 p0 W. pose proof (writing_hd _ _ _ _ W). destruct W as (X1 & X2 & X3 & X4 & X5). unfold writing. cbn [r_head r_tail r_seq].
      split; [|auto]. destruct (Z.eq_dec p0 (r_tail s)) as [->|]; [|lia]. rewrite X4 in K2 by lia. lia. }
    destruct d as [|e0 f0|e0 f0 h0|e0 f0 h0|l0 f0|l0 f0 h0|l0 f0 h0 j0|l0 f0 h0|l0 f0 p0|l0 f0 p0|l0 f0 p0|l0 f0 p0|st0|st0 t0|t0|st0 t0|st0 t0|st0 t0 x0];
      cbn [pc_ok] in *; unfold clean in *; cbn [r_head r_tail r_seq r_data r_flag] in *; auto; try lia.
    + destruct Q as (Q1 & Q2 & Q3). split; [exact Q1|]. split; [exact Q2|]. intros E. destruct (Q3 E). split; [lia|auto].
    + destruct Q as (Q1 & Q3). split; [exact Q1|]. intros E. destruct (Q3 E). split; [lia|auto].
    + destruct Q as (Q1 & Q2). split; [apply Wr; exact Q1|exact Q2].
    + destruct Q as (Q1 & Q2). split; [apply Wr; exact Q1|exact Q2].
    + destruct Q as (Q1 & Q2 & Q3 & Q4). split; [lia|]. auto.
    + destruct Q as (Q1 & Q2 & Q3 & Q4). split; [lia|]. auto.
  - cbn. split; [lia|]. split; [lia|]. split; [exact K2|]. exists e, f. split; [exact P1|]. split; [exact P2|]. intros E. rewrite <- P3. auto.
  - intros p Hp. right. cbn in Hp. subst p. intros j d Hj Hd. pose proof (A4 j d Hj) as Q. destruct d; cbn in Hd, Q; try contradiction; lia.
  - intros p st0 x Hx. destruct (A9 p st0 x Hx) as (B1 & B2). split; [lia|exact B2].
  - intros j d p _ Hj Hd. exact (A10 j d p Hj Hd).
  - intros p Hp Hi. cbn in Hp. subst p. apply in_map_iff in Hi. destruct Hi as ([[p st0] x] & E & Hi). cbn in E. subst p.
    destruct (A9 _ _ _ Hi). lia.
  - intros p Hp. destruct (Z.eq_dec p (r_tail s)) as [->|N]; [right; left; reflexivity|].
    destruct (A11 p ltac:(lia)) as [B|B]; [auto|right; right]. split; [intros []|exact B].
Qed.

Lemma qpub_inv i st t x s : inv s -> nth_error (r_thr s) i = Some (QPub st t x) ->
  inv {| r_head := r_head s; r_tail := r_tail s; r_seq := zset (r_seq s) (slot t) (t + cap); r_data := r_data s; r_flag := r_flag s;
         r_thr := lset (r_thr s) i RIdle; r_abort := r_abort s; r_acc := r_acc s; r_out := r_out s ++ [(t, st, x)] |}.
Proof.
  intros I H. pose proof I as [A1 A2 A3 A4 A5 A6 A7 A8 A9 A10 A11]. pose proof rcap_ge as C.
  pose proof (A4 i _ H) as (K1 & K2 & K3 & K4).
  match goal with |- inv ?x => set (s' := x) end.
  eapply (frame s s' i _ _ I H eq_refl); subst s'; cbn [r_head r_tail r_seq r_data r_flag r_thr r_abort r_acc r_out]; auto; try lia.
  - intros p Hp. specialize (A3 p Hp). unfold cell_ok, published in *. cbn [r_head r_tail r_seq r_data r_flag r_thr].
    destruct (Z.eq_dec p (t + cap)) as [->|N].
    + replace (t + cap <? r_head s) with false by lia. left. rewrite rslot_cap, zset_same. reflexivity.
    + rewrite zset_other by (rewrite <- (rslot_cap t); intros E; apply rslot_inj in E; lia).
      destruct (p <? r_head s) eqn:E1.
      * destruct A3 as [(B1 & B2)|B]; [|right; exact B].
        left. split; [exact B1|]. eapply (keep (fun d => wcl d p)); [exact H|intros []|exact B2].
      * destruct A3 as [B|(B1 & B2)]; [auto|]. right. split; [exact B1|]. eapply (keep (fun d => rcl d (p - cap))); [exact H|cbn; lia|exact B2].
  - intros j d Hn Hj2 Q.
    assert (Nt : forall p, r_tail s <= p < r_head s -> zset (r_seq s) (slot t) (t + cap) (slot p) = r_seq s (slot p)).
    { intros p Hp. apply zset_other. intros E. apply rslot_inj in E; lia. }
    assert (Nh : forall p, r_head s <= p < r_tail s + cap -> r_seq s (slot p) = p -> zset (r_seq s) (slot t) (t + cap) (slot p) = p).
    { intros p Hp Ep. destruct (Z.eq_dec p (t + cap)) as [->|N]; [rewrite rslot_cap, zset_same; reflexivity|].
      rewrite zset_other by (rewrite <- (rslot_cap t); intros E; apply rslot_inj in E; lia). exact Ep. }
    assert (Wr : forall l0 f0 p0, writing s l0 f0 p0 ->
      writing {| r_head := r_head s; r_tail := r_tail s; r_seq := zset (r_seq s) (slot t) (t + cap); r_data := r_data s; r_flag := r_flag s;
         r_thr := lset (r_thr s) i RIdle; r_abort := r_abort s; r_acc := r_acc s; r_out := r_out s ++ [(t, st, x)] |} l0 f0 p0).
    { intros l0 f0 p0 (X1 & X2 & X3 & X4 & X5). unfold writing. cbn [r_head r_tail r_seq]. repeat (split; [assumption|]). split; [|exact X5].
      intros p Hp. rewrite Nt by lia. apply X4. exact Hp. }
    destruct d as [|e0 f0|e0 f0 h0|e0 f0 h0|l0 f0|l0 f0 h0|l0 f0 h0 j0|l0 f0 h0|l0 f0 p0|l0 f0 p0|l0 f0 p0|l0 f0 p0|st0|st0 t0|t0|st0 t0|st0 t0|st0 t0 x0];
      cbn [pc_ok] in *; unfold clean in *; cbn [r_head r_tail r_seq r_data r_flag] in *; auto.
    + destruct Q as (Q1 & Q2). split; [exact Q1|]. intros E. destruct (Q2 E) as (Q3 & Q4). split; [exact Q3|]. apply Nh; [lia|exact Q4].
    + destruct Q as (Q1 & Q2 & Q3). split; [exact Q1|]. split; [exact Q2|]. intros E. destruct (Q3 E) as (Q4 & Q5). split; [exact Q4|].
      intros p Hp. unfold len in *. apply Nh; [lia|auto].
    + destruct Q as (Q1 & Q3). split; [exact Q1|]. intros E. destruct (Q3 E) as (Q4 & Q5). split; [exact Q4|].
      intros p Hp. unfold len in *. apply Nh; [lia|auto].
    + destruct Q as (Q1 & Q2). split; [apply Wr; exact Q1|exact Q2].
    + destruct Q as (Q1 & Q2). split; [apply Wr; exact Q1|exact Q2].
    + destruct Q as (Q1 & Q2). split; [exact Q1|]. intros E. destruct (Q2 E) as (Q3 & Q4). split; [exact Q3|]. rewrite Nt by lia. exact Q4.
    + destruct Q as (Q1 & Q2). split; [exact Q1|]. intros E. destruct (Q2 E) as (Q3 & Q4). split; [exact Q3|]. rewrite Nt by lia. exact Q4.
    + destruct Q as (Q1 & Q2 & Q3 & Q4). split; [exact Q1|]. split; [exact Q2|]. rewrite zset_other; [auto|]. intros E. apply rslot_inj in E; [|lia].
      subst t0. apply Hn. apply (A6 j i _ _ t Hj2 H); reflexivity.
    + destruct Q as (Q1 & Q2 & Q3 & Q4). split; [exact Q1|]. split; [exact Q2|]. rewrite zset_other; [auto|]. intros E. apply rslot_inj in E; [|lia].
      subst t0. apply Hn. apply (A6 j i _ _ t Hj2 H); reflexivity.
  - exact Logic.I.
  - rewrite map_app. cbn. eapply Permutation_NoDup; [apply Permutation_app_comm|]. cbn. constructor; [|exact A8]. apply (A10 i _ t H). reflexivity.
  - intros p st0 x0 Hx. apply in_app_or in Hx. destruct Hx as [Hx|[Hx|[]]]; [exact (A9 p st0 x0 Hx)|]. injection Hx as <- <- <-. split; [lia|exact K4].
  - intros j d p Hn Hj Hd Hi. rewrite map_app in Hi. apply in_app_or in Hi. destruct Hi as [Hi|[Hi|[]]]; [exact (A10 j d p Hj Hd Hi)|].
    cbn in Hi. subst p. apply Hn. apply (A6 j i _ _ t Hj H Hd). reflexivity.
  - intros p Hp. rewrite map_app. destruct (Z.eq_dec p t) as [->|N]; [left; apply in_or_app; right; left; reflexivity|].
    destruct (A11 p Hp) as [B|B]; [left; apply in_or_app; auto|right; right]. split; [cbn; lia|exact B].
Qed.

Lemma step_inv s s' : inv s -> rstep cap s s' -> inv s'.
Proof.
  intros I St. pose proof rcap_ge as C. pose proof (v_range s I) as R. destruct St as
    [i e f s H|i e f s H|i e f h s H nseq|i e f h s H E|i e f h s H|i l f s H|i l f s H|i l f h s H head hseq|i l f h j s H Hj p seq|i l f h s H
    |i l f h s H E|i l f h s H|i l f p s H|i e l f p s H|i l f p s H|i e l f p s H|i st s H|i st s H|i st t s H nseq|i t s H|i st t s H E|i st t s H|i st t s H|i st t x s H];
    pose proof (v_pcs s I i _ H) as Q; cbn [pc_ok] in Q; pose proof (v_abort s I) as Ab.
  - eapply move_inv; eauto; try reflexivity; exact Logic.I.
  - eapply move_inv; eauto; try reflexivity. cbn. lia.
  - eapply move_inv; eauto; try (intros p; destruct (nseq =? h); [|destruct (nseq + cap =? h + 1)]; reflexivity).
    destruct (nseq =? h) eqn:E; [|destruct (nseq + cap =? h + 1); exact Logic.I]. cbn. split; [exact Q|]. intros Eh. subst nseq.
    split; [|lia]. apply seq_free; [exact I|lia|lia].
  - subst h. destruct Q as (Q1 & Q2). destruct (Q2 eq_refl) as (Q3 & Q4).
    apply (claim_inv i (PCas e f (r_head s)) (WData [e] f (r_head s)) [e] f s I H); auto; try discriminate; unfold len; cbn [length]; try lia.
    intros p Hp. replace p with (r_head s) by lia. exact Q4.
  - eapply move_inv; eauto; try reflexivity; exact Logic.I.
  - eapply move_inv; eauto; try reflexivity; exact Logic.I.
  - eapply move_inv; eauto; try reflexivity. cbn. lia.
  - eapply move_inv; eauto; try (intros p; destruct (hseq =? head); [|destruct (hseq + cap =? head + 1)]; reflexivity).
    destruct (hseq =? head) eqn:E; [|destruct (hseq + cap =? head + 1); exact Logic.I]. cbn [pc_ok]. split; [exact Q|]. split; [lia|]. intros Eh.
    subst hseq head. split; [|intros p Hp; lia]. apply seq_free; [exact I|unfold len; lia|lia].
  - eapply move_inv; eauto; try (intros q; destruct (negb (seq =? p) && (seq + cap =? p + 1)); reflexivity).
    destruct (negb (seq =? p) && (seq + cap =? p + 1)) eqn:E; [exact Logic.I|]. cbn [pc_ok]. destruct Q as (Q1 & Q2 & Q3).
    split; [exact Q1|]. split; [lia|]. intros Eh. destruct (Q3 Eh) as (Q4 & Q5). split; [exact Q4|]. intros q Hq.
    destruct (Z.eq_dec q p) as [->|N]; [|apply Q5; lia]. fold seq.
    pose proof (v_cells s I p ltac:(subst p; unfold len in *; lia)) as K. unfold cell_ok in K. fold seq in K.
    replace (p <? r_head s) with false in K by (subst p; lia). destruct K as [K|(K & _)]; lia.
  - eapply move_inv; eauto; try reflexivity. cbn [pc_ok]. split; apply Q.
  - subst h. destruct Q as (Q1 & Q2). destruct (Q2 eq_refl) as (Q3 & Q4). destruct l as [|e l].
    + unfold len. cbn [length map app Z.of_nat]. rewrite Z.add_0_r, app_nil_r. eapply move_inv; eauto; try reflexivity; exact Logic.I.
    + apply (claim_inv i _ (WCheck (e :: l) f (r_head s)) (e :: l) f s I H); auto; try discriminate; lia.
  - eapply move_inv; eauto; try reflexivity; exact Logic.I.
  - eapply move_inv; eauto; try reflexivity. pose proof (writing_hd _ _ _ _ Q). destruct Q as (_ & _ & _ & Q & _). rewrite Q by lia.
    rewrite Ab, Z.eqb_refl. reflexivity.
  - apply (write_inv i (WData (e :: l) f p) (WFlag (e :: l) f p) (e :: l) f p _ _ s I H); auto; try reflexivity.
    + intros q N. rewrite zset_other by exact N. auto.
    + cbn [pc_ok]. split; [exact Q|]. cbn [r_data]. apply zset_same.
  - destruct Q as (Q1 & Q2). apply (write_inv i (WFlag l f p) (WPub l f p) l f p _ _ s I H); auto; try reflexivity.
    + intros q N. rewrite zset_other by exact N. auto.
    + cbn [pc_ok]. split; [exact Q1|]. split; [exact Q2|]. apply zset_same.
  - exact (wpub_inv i e l f p s I H).
  - eapply move_inv; eauto; try reflexivity; exact Logic.I.
  - eapply move_inv; eauto; try reflexivity. cbn. lia.
  - eapply move_inv; eauto; try (intros p; destruct (nseq =? t + 1); [destruct st|destruct ((nseq =? t) || (nseq + cap =? t))]; reflexivity).
    destruct (nseq =? t + 1) eqn:E; [|destruct ((nseq =? t) || (nseq + cap =? t)); exact Logic.I].
    assert (L : t = r_tail s -> t < r_head s /\ r_seq s (slot t) = t + 1).
    { intros Et. split; [|subst nseq; lia]. destruct (Z.lt_ge_cases t (r_head s)) as [|L]; [assumption|exfalso].
      pose proof (v_cells s I t ltac:(lia)) as K. unfold cell_ok in K. fold nseq in K. replace (t <? r_head s) with false in K by lia.
      destruct K as [K|(K & _)]; lia. }
    destruct st; cbn [pc_ok]; (split; [exact Q|]); [exact L|]. intros Et. destruct (L Et). repeat split; auto. discriminate.
  - eapply move_inv; eauto; try (intros p; destruct (r_flag s (slot t)); reflexivity).
    destruct (r_flag s (slot t)) eqn:E; [exact Logic.I|]. cbn. destruct Q as (Q1 & Q2). split; [exact Q1|]. intros Et. destruct (Q2 Et). auto.
  - subst t. apply qcas_inv; assumption.
  - eapply move_inv; eauto; try reflexivity; exact Logic.I.
  - eapply move_inv; eauto; try reflexivity.
  - apply qpub_inv; assumption.
Qed.
Lemma reach_inv n s : rreach cap n s -> inv s.
Proof. intros R. induction R as [|s s' R IH St]; [apply inv_init|eapply step_inv; eauto]. Qed.

Lemma run_correct n s : rreach cap n s ->
  0 <= r_tail s <= r_head s /\ r_head s <= r_tail s + cap /\ Z.of_nat (length (r_acc s)) = r_head s /\ r_abort s = false /\
  NoDup (map (fun o => fst (fst o)) (r_out s)) /\
  (forall p st x, In (p, st, x) (r_out s) -> 0 <= p < r_tail s /\
    exists e f, fiber_at s p = Some (e, f) /\ x = Some e /\ (st = true -> f = false)).
Proof.
  intros R. pose proof (reach_inv n s R) as I. destruct (v_range s I) as (R1 & R2).
  split; [exact R1|]. split; [exact R2|]. split; [apply (v_acc s I)|]. split; [apply (v_abort s I)|]. split; [apply (v_out s I)|].
  apply (v_outs s I).
Qed.
Lemma quiet_none s i c : rquiet s -> nth_error (r_thr s) i = Some c -> c = RIdle.
Proof. unfold rquiet. rewrite Forall_forall. intros Q H. apply Q. eapply nth_error_In. exact H. Qed.
Lemma run_quiet n s : rreach cap n s -> rquiet s ->
  (forall p, 0 <= p < r_tail s -> exists st e f, fiber_at s p = Some (e, f) /\ In (p, st, Some e) (r_out s)) /\
  (forall p, r_tail s <= p < r_head s -> exists e f, fiber_at s p = Some (e, f) /\
    r_seq s (slot p) = p + 1 /\ r_data s (slot p) = Some e /\ r_flag s (slot p) = f).
Proof.
  intros R Qt. pose proof (reach_inv n s R) as I. split.
  - intros p Hp. destruct (v_all s I p Hp) as [K|(i & c & K1 & K2)].
    + apply in_map_iff in K. destruct K as ([[p' st] x] & E & K). cbn in E. subst p'. destruct (v_outs s I p st x K) as (_ & e & f & E1 & -> & _). eauto.
    + rewrite (quiet_none s i c Qt K1) in K2. destruct K2.
  - intros p Hp. pose proof (v_range s I) as Rg. pose proof (v_cells s I p ltac:(lia)) as B. unfold cell_ok in B.
    replace (p <? r_head s) with true in B by lia. destruct B as [(_ & i & c & K1 & K2)|(B & e & f & B1 & B2 & B3)].
    + rewrite (quiet_none s i c Qt K1) in K2. destruct K2.
    + exists e, f. auto.
Qed.
Lemma rcl_popping s p : (exists i c, nth_error (r_thr s) i = Some c /\ rcl c p) -> rpopping s p.
Proof. intros (i & c & H & R). exists i. destruct c; cbn in R; try contradiction; subst; exists steal; eauto. Qed.
Lemma popping_rcl s p : rpopping s p -> exists i c, nth_error (r_thr s) i = Some c /\ rcl c p.
Proof. intros (i & st & [H|(x & H)]); do 2 eexists; (split; [exact H|reflexivity]). Qed.
Lemma wcl_pushing s p : (exists i c, nth_error (r_thr s) i = Some c /\ wcl c p) -> rpushing s p.
Proof. intros (i & c & H & R). destruct c; cbn in R; try contradiction; exists i, l, f, pos; auto. Qed.

Lemma seq_gt s q : inv s -> 0 <= q < r_tail s -> q + 1 <= r_seq s (slot q).
Proof.
  intros I B. pose proof rcap_ge as C. pose proof (v_range s I) as R. destruct (window (r_tail s) q) as (q' & W1 & W2 & m & W3).
  pose proof (v_cells s I q' W1) as K. unfold cell_ok, published in K. rewrite W2 in K.
  assert (m <= -1 \/ 0 <= m) as [M|M] by lia; [|nia].
  destruct (q' <? r_head s); [destruct K as [(K & _)|(K & _)]; nia|destruct K as [K|(K & _)]; nia].
Qed.
Lemma seq_used s q : inv s -> 0 <= q -> r_seq s (slot q) + cap = q + 1 -> r_head s <= q /\ (r_tail s + cap <= q \/ rpopping s (q - cap)).
Proof.
  intros I B E. pose proof rcap_ge as C. pose proof (v_range s I) as R.
  assert (L : r_head s <= q). { destruct (Z.le_gt_cases (r_head s) q) as [|L]; [assumption|]. pose proof (seq_ge s q I ltac:(lia)). lia. }
  split; [exact L|]. destruct (Z.le_gt_cases (r_tail s + cap) q) as [|L2]; [auto|right]. apply rcl_popping.
  pose proof (v_cells s I q ltac:(lia)) as K. unfold cell_ok in K. replace (q <? r_head s) with false in K by lia.
  destruct K as [K|(_ & K)]; [lia|exact K].
Qed.

(** The steps with which a call returns without success. *)
Lemma return_step s s' i c : rstep cap s s' -> nth_error (r_thr s) i = Some c -> c <> RIdle -> nth_error (r_thr s') i = Some RIdle ->
  match c with
  | PSeq _ _ h => r_seq s (slot h) + cap = h + 1
  | BSeq l _ h => r_seq s (slot (h + len l)) + cap = h + len l + 1
  | BTest l _ h j => (j < length l)%nat /\ r_seq s (slot (h + Z.of_nat j)) + cap = h + Z.of_nat j + 1
  | BCas l _ _ => l = []
  | WPub l _ _ => length l = 1%nat
  | QSeq _ t => r_seq s (slot t) = t \/ r_seq s (slot t) + cap = t
  | QTest t => r_flag s (slot t) = true
  | QPub _ _ _ => True
  | _ => False
  end.
Proof.
  intros St Hs Nc Hs'. destruct St; cbn in Hs';
    match goal with H : nth_error (r_thr ?s) ?j = Some _ |- _ =>
      destruct (Nat.eq_dec j i) as [<-|N];
      [rewrite Hs in H; injection H as ->; rewrite nth_error_lset, Nat.eqb_refl, Hs in Hs'
      |rewrite nth_error_lset in Hs'; destruct (Nat.eqb_spec j i); congruence] end;
    try congruence; auto;
    repeat match type of Hs' with context [if ?b then _ else _] => destruct b eqn:?; try discriminate Hs' end;
    repeat match goal with H : _ && _ = true |- _ => apply andb_prop in H; destruct H | H : _ || _ = true |- _ => apply orb_prop in H end;
    repeat match goal with x := _ |- _ => subst x end; try lia; destruct l; try discriminate; reflexivity.
Qed.
Lemma push_false n s s' i e f h : rreach cap n s -> rstep cap s s' -> nth_error (r_thr s) i = Some (PSeq e f h) ->
  nth_error (r_thr s') i = Some RIdle -> all_used cap s.
Proof.
  intros R St H H'. pose proof (return_step _ _ _ _ St H ltac:(discriminate) H') as K. cbn in K.
  pose proof (reach_inv n s R) as I. pose proof (v_pcs s I _ _ H) as Q. cbn in Q. pose proof (v_range s I).
  destruct (seq_used s h I ltac:(lia) K) as (K1 & K2). assert (h = r_head s) by lia. subst h. unfold all_used.
  destruct K2; [left; lia|right; assumption].
Qed.
(** BatchPush does not wait for a pop that holds one of its places. *)
Lemma batch_busy n s s' i l f h j : rreach cap n s -> rstep cap s s' -> nth_error (r_thr s) i = Some (BTest l f h j) -> (j < length l)%nat ->
  rpopping s (h + Z.of_nat j - cap) -> nth_error (r_thr s') i = Some (BTest l f h j) \/ nth_error (r_thr s') i = Some RIdle.
Proof.
  intros R St Hs Lj Pop. pose proof (reach_inv n s R) as I. destruct (popping_rcl s _ Pop) as (m & c & Hm & Rc).
  assert (E : r_seq s (slot (h + Z.of_nat j)) + cap = h + Z.of_nat j + 1).
  { pose proof (v_pcs s I m c Hm) as Q. replace (h + Z.of_nat j) with (h + Z.of_nat j - cap + cap) at 1 by lia. rewrite rslot_cap.
    destruct c; cbn in Rc; try contradiction; cbn in Q; rewrite Rc; lia. }
  pose proof rcap_ge as C.
  destruct St; cbn;
    match goal with H : nth_error (r_thr ?s) ?k = Some _ |- _ =>
      destruct (Nat.eq_dec k i) as [<-|N];
      [rewrite Hs in H; try discriminate H; rewrite nth_error_lset, Nat.eqb_refl, Hs
      |left; rewrite nth_error_lset; destruct (Nat.eqb_spec k i); congruence] end.
  - injection H as -> -> -> ->. right. subst p seq. replace (r_seq s (slot (h0 + Z.of_nat j0)) =? h0 + Z.of_nat j0) with false by lia.
    replace (r_seq s (slot (h0 + Z.of_nat j0)) + cap =? h0 + Z.of_nat j0 + 1) with true by lia. reflexivity.
  - injection H as -> -> -> ->. lia.
Qed.
Lemma batch_false n s s' i c l f h : rreach cap n s -> rstep cap s s' -> nth_error (r_thr s) i = Some c ->
  (c = BSeq l f h \/ exists j, c = BTest l f h j) -> nth_error (r_thr s') i = Some RIdle -> no_room cap (Z.of_nat (length l)) s.
Proof.
  intros R St H Hc H'. pose proof (reach_inv n s R) as I. pose proof (v_pcs s I _ _ H) as Q. pose proof (v_range s I).
  assert (N : c <> RIdle) by (destruct Hc as [->|(j & ->)]; discriminate).
  pose proof (return_step _ _ _ _ St H N H') as K. destruct Hc as [->|(j & ->)]; cbn in K, Q.
  - destruct (seq_used s (h + len l) I ltac:(unfold len; lia) K) as (K1 & [K2|K2]); [left; unfold len in *; lia|right].
    eexists. split; [exact K2|]. unfold len in *. lia.
  - destruct K as (Lj & K). destruct Q as (Q & _). destruct (seq_used s (h + Z.of_nat j) I ltac:(lia) K) as (K1 & [K2|K2]); [left; unfold len in *; lia|right].
    eexists. split; [exact K2|]. lia.
Qed.
Lemma pop_none n s s' i st t : rreach cap n s -> rstep cap s s' -> nth_error (r_thr s) i = Some (QSeq st t) ->
  nth_error (r_thr s') i = Some RIdle -> r_head s = r_tail s \/ rpushing s (r_tail s).
Proof.
  intros R St H H'. pose proof (return_step _ _ _ _ St H ltac:(discriminate) H') as K. cbn in K.
  pose proof (reach_inv n s R) as I. pose proof (v_pcs s I _ _ H) as Q. cbn in Q. pose proof (v_range s I). pose proof rcap_ge.
  assert (t = r_tail s). { destruct (Z.eq_dec t (r_tail s)) as [|]; [assumption|]. pose proof (seq_gt s t I ltac:(lia)). lia. }
  subst t. pose proof (v_cells s I (r_tail s) ltac:(lia)) as B. unfold cell_ok in B. destruct (r_tail s <? r_head s) eqn:E; [|left; lia].
  right. destruct B as [(_ & B)|(B & _)]; [|lia]. apply wcl_pushing. exact B.
Qed.
Lemma steal_none n s s' i t : rreach cap n s -> rstep cap s s' -> nth_error (r_thr s) i = Some (QTest t) ->
  nth_error (r_thr s') i = Some RIdle -> t < r_tail s \/ (t = r_tail s /\ exists e, fiber_at s t = Some (e, true)).
Proof.
  intros R St H H'. pose proof (return_step _ _ _ _ St H ltac:(discriminate) H') as K. cbn in K.
  pose proof (reach_inv n s R) as I. pose proof (v_pcs s I _ _ H) as Q. cbn in Q. pose proof (v_range s I). pose proof rcap_ge. destruct Q as (Q1 & Q2).
  destruct (Z.eq_dec t (r_tail s)) as [E|]; [right|left; lia]. destruct (Q2 E) as (Q3 & Q4). split; [exact E|]. subst t.
  pose proof (v_cells s I (r_tail s) ltac:(lia)) as B. unfold cell_ok in B. replace (r_tail s <? r_head s) with true in B by lia.
  destruct B as [(B & _)|(_ & e & f & B1 & B2 & B3)]; [lia|]. exists e. congruence.
Qed.
(** A call returns in no other way. *)
Lemma run_returns s s' i c : rstep cap s s' -> nth_error (r_thr s) i = Some c -> c <> RIdle -> nth_error (r_thr s') i = Some RIdle ->
  (exists e f h, c = PSeq e f h) \/ (exists l f h, c = BSeq l f h \/ exists j, c = BTest l f h j) \/ (exists f h, c = BCas [] f h) \/
  (exists e f p, c = WPub [e] f p) \/ (exists st t, c = QSeq st t) \/ (exists t, c = QTest t) \/ exists st t x, c = QPub st t x.
Proof.
  intros St H N H'. pose proof (return_step _ _ _ _ St H N H') as K. destruct c; try contradiction; eauto 12.
  - subst l. eauto 8.
  - destruct l as [|e [|]]; try discriminate. eauto 12.
Qed.
(** BatchPush never accepts as many fibers as there are places. *)
Lemma batch_small n s i l f : rreach cap n s -> nth_error (r_thr s) i = Some (BCas l f (r_head s)) -> Z.of_nat (length l) < cap.
Proof.
  intros R H. pose proof (reach_inv n s R) as I. destruct (v_pcs s I _ _ H) as (_ & Q). destruct (Q eq_refl) as (Q1 & _).
  pose proof (v_range s I). unfold len in Q1. lia.
Qed.
Lemma rstep_mono s s' : rstep cap s s' -> exists acc out, r_acc s' = r_acc s ++ acc /\ r_out s' = r_out s ++ out.
Proof.
  intros St. destruct St; cbn; try (exists [], []; rewrite !app_nil_r; auto; fail);
    [exists [(e, f)], []|exists (map (fun e => (e, f)) l), []|exists [], [(t, st, x)]]; rewrite ?app_nil_r; auto.
Qed.
Lemma whole_batch s s' : rstep cap s s' -> r_acc s' = r_acc s \/ exists i c l f, nth_error (r_thr s) i = Some c /\
  (c = BCas l f (r_head s) \/ exists e, l = [e] /\ c = PCas e f (r_head s)) /\ r_acc s' = r_acc s ++ map (fun e => (e, f)) l.
Proof.
  intros St. destruct St; cbn; try (left; reflexivity).
  - right. subst h. exists i, (PCas e f (r_head s)), [e], f. split; [assumption|]. split; [eauto|reflexivity].
  - right. subst h. exists i, (BCas l f (r_head s)), l, f. auto.
Qed.
Lemma rsteps_reach n s s' : rreach cap n s -> steps (rstep cap) s s' -> rreach cap n s'.
Proof. intros R H. induction H as [s|s s1 s2 H IH St]; [exact R|]. eapply rr_step; [apply IH; exact R|exact St]. Qed.
Lemma run_order n s s' : rreach cap n s -> steps (rstep cap) s s' -> exists acc out,
  r_acc s' = r_acc s ++ acc /\ r_out s' = r_out s ++ out /\ forall p st x, In (p, st, x) out -> r_tail s <= p \/ rpopping s p.
Proof.
  intros R H. assert (K : exists acc out, r_acc s' = r_acc s ++ acc /\ r_out s' = r_out s ++ out).
  { clear R. induction H as [s|s s1 s2 H (a & o & E1 & E2) St]; [exists [], []; rewrite !app_nil_r; auto|].
    destruct (rstep_mono _ _ St) as (a2 & o2 & F1 & F2). exists (a ++ a2), (o ++ o2). rewrite F1, F2, E1, E2, !app_assoc. auto. }
  destruct K as (a & o & E1 & E2). exists a, o. split; [exact E1|]. split; [exact E2|]. intros p st x Hp.
  pose proof (reach_inv n s R) as I. pose proof (reach_inv n s' (rsteps_reach n s s' R H)) as I'.
  destruct (Z.le_gt_cases (r_tail s) p) as [L|L]; [left; exact L|]. right.
  assert (Hi : In (p, st, x) (r_out s')) by (rewrite E2; apply in_or_app; auto).
  destruct (v_outs s' I' p st x Hi) as (B & _). destruct (v_all s I p ltac:(lia)) as [K|K]; [|apply rcl_popping; exact K].
  exfalso. pose proof (v_out s' I') as N. rewrite E2, map_app in N. apply (in_map pos_of) in Hp. cbn in Hp.
  clear - N K Hp. induction (map pos_of (r_out s)) as [|y l IH]; [destruct K|]. cbn in N. inversion N; subst.
  destruct K as [->|K]; [apply H1; apply in_or_app; auto|auto].
Qed.
(** No thread is stuck. *)
Lemma run_progress n s i c : rreach cap n s -> nth_error (r_thr s) i = Some c -> c <> RIdle ->
  exists s' c', rstep cap s s' /\ r_thr s' = lset (r_thr s) i c'.
Proof.
  intros R H N. pose proof (v_pcs s (reach_inv n s R) i c H) as Q.
  destruct c as [|e0 f0|e0 f0 h0|e0 f0 h0|l0 f0|l0 f0 h0|l0 f0 h0 j0|l0 f0 h0|l0 f0 p0|l0 f0 p0|l0 f0 p0|l0 f0 p0|st0|st0 t0|t0|st0 t0|st0 t0|st0 t0 x0]; [congruence|..].
  - eexists _, _. split; [eapply r_pload; eauto|reflexivity].
  - eexists _, _. split; [eapply r_pseq; eauto|reflexivity].
  - eexists _, _. split; [eapply r_pfail; eauto|reflexivity].
  - eexists _, _. split; [eapply r_bload; eauto|reflexivity].
  - eexists _, _. split; [eapply r_bseq; eauto|reflexivity].
  - cbn in Q. destruct (Nat.eq_dec j0 (length l0)) as [->|].
    + eexists _, _. split; [eapply r_btested; eauto|reflexivity].
    + eexists _, _. split; [eapply r_btest; [eauto|lia]|reflexivity].
  - eexists _, _. split; [eapply r_bfail; eauto|reflexivity].
  - eexists _, _. split; [eapply r_check; eauto|reflexivity].
  - destruct l0 as [|e0 l0]; [destruct Q as (_ & _ & Q & _); congruence|]. eexists _, _. split; [eapply r_wdata; eauto|reflexivity].
  - eexists _, _. split; [eapply r_wflag; eauto|reflexivity].
  - destruct l0 as [|e0 l0]; [destruct Q as ((_ & _ & Q & _) & _); congruence|]. eexists _, _. split; [eapply r_wpub; eauto|reflexivity].
  - eexists _, _. split; [eapply r_qload; eauto|reflexivity].
  - eexists _, _. split; [eapply r_qseq; eauto|reflexivity].
  - eexists _, _. split; [eapply r_qtest; eauto|reflexivity].
  - eexists _, _. split; [eapply r_qfail; eauto|reflexivity].
  - eexists _, _. split; [eapply r_qread; eauto|reflexivity].
  - eexists _, _. split; [eapply r_qpub; eauto|reflexivity].
Qed.

(** ** A call that runs alone *)
Notation go := (SpecMpmc.steps (rstep cap)).
Lemma rgo_trans s1 s2 s3 : go s1 s2 -> go s2 s3 -> go s1 s3.
Proof. intros H H2. induction H2 as [|a b d H2 IH St]; [exact H|]. eapply steps_S; [apply IH; exact H|exact St]. Qed.
Lemma rgo_step s1 s2 s3 : rstep cap s1 s2 -> go s2 s3 -> go s1 s3.
Proof. intros St H. eapply rgo_trans; [|exact H]. eapply steps_S; [apply steps_0|exact St]. Qed.
Lemma rquiet_idle s i : rquiet s -> (i < length (r_thr s))%nat -> nth_error (r_thr s) i = Some RIdle.
Proof.
  intros Qt Hi. destruct (nth_error (r_thr s) i) as [c|] eqn:E; [|apply nth_error_None in E; lia]. rewrite (quiet_none s i c Qt E). reflexivity.
Qed.
(** The sequences when nothing is going on. *)
Lemma quiet_seq n s p : rreach cap n s -> rquiet s -> r_tail s <= p < r_tail s + cap ->
  r_seq s (slot p) = if p <? r_head s then p + 1 else p.
Proof.
  intros R Qt Hp. pose proof (reach_inv n s R) as I. pose proof (v_cells s I p Hp) as K. unfold cell_ok in K. destruct (p <? r_head s).
  - destruct K as [(_ & i & c & H & W)|(K & _)]; [|exact K]. rewrite (quiet_none s i c Qt H) in W. destruct W.
  - destruct K as [K|(_ & i & c & H & W)]; [exact K|]. rewrite (quiet_none s i c Qt H) in W. destruct W.
Qed.
Ltac nth := cbn [r_thr moves]; first [eassumption|eapply nth_lset_eq; nth].

Lemma head_cell n s : rreach cap n s -> rquiet s -> r_seq s (slot (r_head s)) = if r_head s - r_tail s <? cap then r_head s else r_head s - cap + 1.
Proof.
  intros R Qt. pose proof rcap_ge. destruct (run_correct n s R) as (R1 & R2 & _). destruct (Z.ltb_spec (r_head s - r_tail s) cap) as [L|L].
  - rewrite (quiet_seq n s _ R Qt) by lia. rewrite Z.ltb_irrefl. reflexivity.
  - replace (r_head s) with (r_tail s + cap) by lia. rewrite rslot_cap, (quiet_seq n s _ R Qt) by lia. replace (r_tail s <? r_head s) with true by lia. lia.
Qed.
Lemma run_push_alone n s i e f : rreach cap n s -> rquiet s -> (i < length (r_thr s))%nat -> exists s', go s s' /\ rquiet s' /\
  r_acc s' = (if r_head s - r_tail s <? cap then r_acc s ++ [(e, f)] else r_acc s) /\ r_tail s' = r_tail s /\ r_out s' = r_out s.
Proof.
  intros R Qt Hi. pose proof (rquiet_idle s i Qt Hi) as H. pose proof rcap_ge as C.
  destruct (run_correct n s R) as (R1 & R2 & _).
  assert (Back : lset (r_thr s) i RIdle = r_thr s) by (apply lset_id; exact H).
  pose proof (head_cell n s R Qt) as Hc.
  destruct (Z.ltb_spec (r_head s - r_tail s) cap) as [L|L].
  - eexists. split.
    { eapply rgo_step; [eapply (r_push _ i e f); nth|]. eapply rgo_step; [eapply (r_pload _ i e f); nth|]. eapply rgo_step; [eapply r_pseq; nth|].
      cbn [r_seq r_head moves]. rewrite Hc, Z.eqb_refl.
      eapply rgo_step; [eapply r_pcas; [nth|reflexivity]|]. eapply rgo_step; [eapply r_wdata; nth|]. eapply rgo_step; [eapply r_wflag; nth|].
      eapply rgo_step; [eapply (r_wpub _ i e []); nth|]. apply steps_0. }
    cbn. split; [|auto]. unfold rquiet. cbn. rewrite !lset_lset, Back. exact Qt.
  - eexists. split.
    { eapply rgo_step; [eapply (r_push _ i e f); nth|]. eapply rgo_step; [eapply (r_pload _ i e f); nth|]. eapply rgo_step; [eapply r_pseq; nth|].
      cbn [r_seq r_head moves]. rewrite Hc. replace (r_head s - cap + 1 =? r_head s) with false by lia.
      replace (r_head s - cap + 1 + cap =? r_head s + 1) with true by lia. apply steps_0. }
    cbn. split; [|auto]. unfold rquiet. cbn. rewrite !lset_lset, Back. exact Qt.
Qed.
Lemma run_pop_alone n s i st : rreach cap n s -> rquiet s -> (i < length (r_thr s))%nat -> exists s', go s s' /\ rquiet s' /\ r_acc s' = r_acc s /\
  r_out s' = (match fiber_at s (r_tail s) with
              | Some (e, f) => if st && f then r_out s else r_out s ++ [(r_tail s, st, Some e)]
              | None => r_out s end).
Proof.
  intros R Qt Hi. pose proof (rquiet_idle s i Qt Hi) as H. pose proof rcap_ge as C.
  destruct (run_correct n s R) as (R1 & R2 & R3 & _). destruct (run_quiet n s R Qt) as (_ & Qh).
  assert (Back : lset (r_thr s) i RIdle = r_thr s) by (apply lset_id; exact H).
  destruct (Z.lt_ge_cases (r_tail s) (r_head s)) as [L|L].
  - destruct (Qh (r_tail s) ltac:(lia)) as (e & f & F1 & F2 & F3 & F4). rewrite F1.
    assert (K : st && f = false -> exists s1, go (moves i (QSeq st (r_tail s)) (moves i (QLoad st) s)) s1 /\ s1 = moves i (QCas st (r_tail s)) s).
    { intros E. destruct st.
      - eexists. split.
        + eapply rgo_step; [eapply r_qseq; nth|]. cbn [r_seq r_head moves]. rewrite F2, Z.eqb_refl. eapply rgo_step; [eapply r_qtest; nth|].
          cbn [r_flag moves]. rewrite F4. cbn in E. rewrite E. apply steps_0.
        + unfold moves. cbn. rewrite !lset_lset. reflexivity.
      - eexists. split.
        + eapply rgo_step; [eapply r_qseq; nth|]. cbn [r_seq r_head moves]. rewrite F2, Z.eqb_refl. apply steps_0.
        + unfold moves. cbn. rewrite !lset_lset. reflexivity. }
    destruct (st && f) eqn:E.
    + apply andb_prop in E. destruct E as (-> & ->). eexists. split.
      { eapply rgo_step; [eapply (r_pop _ i true); nth|]. eapply rgo_step; [eapply r_qload; nth|].
        eapply rgo_step; [eapply r_qseq; nth|]. cbn [r_seq r_head r_tail moves]. rewrite F2, Z.eqb_refl. eapply rgo_step; [eapply r_qtest; nth|].
        cbn [r_flag moves]. rewrite F4. apply steps_0. }
      cbn. split; [|auto]. unfold rquiet. cbn. rewrite !lset_lset, Back. exact Qt.
    + destruct (K eq_refl) as (s1 & G & ->). eexists. split.
      { eapply rgo_step; [eapply (r_pop _ i st); nth|]. eapply rgo_step; [eapply r_qload; nth|]. eapply rgo_trans; [exact G|].
        eapply rgo_step; [eapply r_qcas; [nth|reflexivity]|]. eapply rgo_step; [eapply r_qread; nth|]. eapply rgo_step; [eapply r_qpub; nth|]. apply steps_0. }
      cbn. rewrite F3. split; [|auto]. unfold rquiet. cbn. rewrite !lset_lset, Back. exact Qt.
  - assert (E : fiber_at s (r_tail s) = None) by (apply nth_error_None; lia). rewrite E.
    eexists. split.
    { eapply rgo_step; [eapply (r_pop _ i st); nth|]. eapply rgo_step; [eapply r_qload; nth|]. eapply rgo_step; [eapply r_qseq; nth|].
      cbn [r_seq r_tail moves]. rewrite (quiet_seq n s _ R Qt) by lia. replace (r_tail s <? r_head s) with false by lia.
      replace (r_tail s =? r_tail s + 1) with false by lia. rewrite Z.eqb_refl. cbn [orb]. apply steps_0. }
    cbn. split; [|auto]. unfold rquiet. cbn. rewrite !lset_lset, Back. exact Qt.
Qed.
(** Writing a claimed range. *)
Lemma write_all i f : forall l pos s, l <> [] -> nth_error (r_thr s) i = Some (WCheck l f pos) ->
  exists s', go s s' /\ r_thr s' = lset (r_thr s) i RIdle /\ r_acc s' = r_acc s /\ r_out s' = r_out s /\ r_tail s' = r_tail s.
Proof.
  induction l as [|e l IH]; intros pos s N H; [congruence|]. destruct l as [|e2 l].
  - eexists. split.
    { eapply rgo_step; [eapply r_check; nth|]. eapply rgo_step; [eapply r_wdata; nth|]. eapply rgo_step; [eapply r_wflag; nth|].
      eapply rgo_step; [eapply (r_wpub _ i e []); nth|]. apply steps_0. }
    cbn. rewrite !lset_lset. auto.
  - eassert (G : go s _).
    { eapply rgo_step; [eapply r_check; nth|]. eapply rgo_step; [eapply r_wdata; nth|]. eapply rgo_step; [eapply r_wflag; nth|].
      eapply rgo_step; [eapply (r_wpub _ i e (e2 :: l)); nth|]. apply steps_0. }
    match type of G with SpecMpmc.steps _ _ ?x => destruct (IH (pos + 1) x) as (s' & G2 & B1 & B2 & B3 & B4); [discriminate|nth|] end.
    exists s'. split; [eapply rgo_trans; eassumption|]. cbn in B1, B2, B3, B4. rewrite !lset_lset in B1. auto.
Qed.
(** Looking at a range that is free. *)
Lemma test_all i f l h : forall m j s, (length l = j + m)%nat -> nth_error (r_thr s) i = Some (BTest l f h j) ->
  (forall p, h <= p < h + len l -> r_seq s (slot p) = p) -> exists s', go s s' /\ s' = moves i (BCas l f h) s.
Proof.
  induction m as [|m IH]; intros j s El H Hs.
  - assert (j = length l) by lia. subst j. eexists. split; [eapply rgo_step; [eapply r_btested; nth|apply steps_0]|reflexivity].
  - eassert (G : go s _) by (eapply rgo_step; [eapply r_btest; [nth|lia]|]; apply steps_0). cbv zeta in G. rewrite Hs, Z.eqb_refl in G by (unfold len; lia).
    cbn [negb andb] in G. destruct (IH (S j) (moves i (BTest l f h (S j)) s)) as (s' & G2 & E); [lia|nth|exact Hs|].
    exists s'. split; [eapply rgo_trans; eassumption|]. rewrite E. unfold moves. cbn. rewrite lset_lset. reflexivity.
Qed.
Lemma run_batch_alone n s i l f : rreach cap n s -> rquiet s -> (i < length (r_thr s))%nat -> l <> [] -> Z.of_nat (length l) < cap -> exists s',
  go s s' /\ rquiet s' /\
  r_acc s' = (if r_head s - r_tail s + Z.of_nat (length l) <? cap then r_acc s ++ map (fun e => (e, f)) l else r_acc s) /\
  r_tail s' = r_tail s /\ r_out s' = r_out s.
Proof.
  intros R Qt Hi Nl Ll. pose proof (rquiet_idle s i Qt Hi) as H. pose proof rcap_ge as C.
  destruct (run_correct n s R) as (R1 & R2 & _). fold (len l) in *.
  assert (Back : lset (r_thr s) i RIdle = r_thr s) by (apply lset_id; exact H).
  assert (Lp : 1 <= len l) by (unfold len; destruct l; [congruence|cbn; lia]).
  destruct (Z.ltb_spec (r_head s - r_tail s + len l) cap) as [L|L].
  - assert (Fr : forall p, r_head s <= p <= r_head s + len l -> r_seq s (slot p) = p).
    { intros p Hp. rewrite (quiet_seq n s p R Qt) by lia. replace (p <? r_head s) with false by lia. reflexivity. }
    eassert (G : go s _).
    { eapply rgo_step; [eapply (r_batch _ i l f); nth|]. eapply rgo_step; [eapply (r_bload _ i l f); nth|]. eapply rgo_step; [eapply r_bseq; nth|].
      cbn [r_seq r_head moves]. rewrite Fr by lia. rewrite Z.eqb_refl. apply steps_0. }
    match type of G with SpecMpmc.steps _ _ ?x => destruct (test_all i f l (r_head s) (length l) 0 x) as (s1 & G2 & E1); [lia|nth|intros p Hp; apply Fr; lia|] end.
    subst s1. eassert (G3 : go _ _). { eapply rgo_trans; [exact G2|]. eapply rgo_step; [eapply r_bcas; [nth|reflexivity]|]. apply steps_0. }
    match type of G3 with SpecMpmc.steps _ _ ?x => destruct (write_all i f l (r_head s) x) as (s2 & G4 & B1 & B2 & B3 & B4); [exact Nl|cbn [r_thr]|] end.
    { destruct l as [|e l]; [congruence|]. nth. }
    exists s2. split; [eapply rgo_trans; [exact G|]; eapply rgo_trans; [exact G3|exact G4]|]. cbn in B1, B2, B3, B4. rewrite !lset_lset, Back in B1.
    split; [unfold rquiet; rewrite B1; exact Qt|]. auto.
  - assert (Sq : r_seq s (slot (r_head s + len l)) = r_head s + len l - cap + 1).
    { replace (r_head s + len l) with (r_head s + len l - cap + cap) at 1 by lia. rewrite rslot_cap, (quiet_seq n s _ R Qt) by lia.
      replace (r_head s + len l - cap <? r_head s) with true by lia. reflexivity. }
    eexists. split.
    { eapply rgo_step; [eapply (r_batch _ i l f); nth|]. eapply rgo_step; [eapply (r_bload _ i l f); nth|]. eapply rgo_step; [eapply r_bseq; nth|].
      cbn [r_seq r_head moves]. rewrite Sq. replace (r_head s + len l - cap + 1 =? r_head s + len l) with false by lia.
      replace (r_head s + len l - cap + 1 + cap =? r_head s + len l + 1) with true by lia. apply steps_0. }
    cbn. split; [|auto]. unfold rquiet. cbn. rewrite !lset_lset, Back. exact Qt.
Qed.
(** A batch as large as the queue, alone: it is not refused either. *)
Lemma huge_seq s (l : list V) : inv s -> (forall p, ~ rpopping s p) -> cap <= len l ->
  r_seq s (slot (r_head s + len l)) <> r_head s + len l /\ r_seq s (slot (r_head s + len l)) + cap <> r_head s + len l + 1.
Proof.
  intros I N L. pose proof (v_range s I) as R. pose proof rcap_ge as C. set (q := r_head s + len l).
  split; intros E.
  - pose proof (seq_free s q I ltac:(lia) E). lia.
  - destruct (window (r_tail s) q) as (q' & W1 & W2 & m & W3). pose proof (v_cells s I q' W1) as K. unfold cell_ok, published in K. rewrite W2 in K.
    assert (m <= 0 \/ m = 1 \/ 2 <= m) as [M|[M|M]] by lia; [nia| |].
    + subst m. replace (q' <? r_head s) with false in K by lia. destruct K as [K|(K & _)]; lia.
    + destruct (q' <? r_head s); [destruct K as [(K & _)|(K & _)]; nia|destruct K as [K|(K & _)]; nia].
Qed.
Lemma batch_spins s l f : rreach cap 1 s -> cap <= Z.of_nat (length l) -> r_thr s = [BLoad l f] -> forall s', go s s' ->
  (r_thr s' = [BLoad l f] \/ r_thr s' = [BSeq l f (r_head s)]) /\ r_head s' = r_head s /\ r_acc s' = r_acc s.
Proof.
  intros R L Ht s' G. assert (R' : rreach cap 1 s') by (eapply rsteps_reach; eauto). revert R'.
  induction G as [s|s s1 s2 G IH St]; intros R'; [auto|].
  pose proof (rsteps_reach 1 s s1 R G) as R1. destruct (IH R Ht R1) as (T & Eh & Ea). clear IH. pose proof (reach_inv 1 s1 R1) as I1.
  assert (Np : forall p, ~ rpopping s1 p).
  { intros p (i & st & Hp). destruct T as [T|T]; rewrite T in Hp; destruct i as [|[|i]]; cbn in Hp; destruct Hp as [Hp|(x & Hp)]; discriminate. }
  pose proof (huge_seq s1 l I1 Np L) as (U1 & U2). fold (len l) in L.
  assert (K : (r_thr s1 = [BLoad l f] /\ r_thr s2 = [BSeq l f (r_head s1)] \/ r_thr s1 = [BSeq l f (r_head s)] /\ r_thr s2 = [BLoad l f]) /\
    r_head s2 = r_head s1 /\ r_acc s2 = r_acc s1).
  { destruct St; match goal with H : nth_error (r_thr ?s) ?j = Some _ |- _ =>
      destruct T as [T|T]; rewrite T in H; destruct j as [|[|j]]; cbn in H; try discriminate; injection H; intros; subst end.
    - cbn. rewrite T. auto.
    - subst head hseq. rewrite <- Eh in *. do 2 (match goal with |- context [if ?b then _ else _] => destruct b eqn:? end; [exfalso; lia|]). cbn. rewrite T. auto. }
  destruct K as (K & K2 & K3). rewrite K2, K3, Eh, Ea. split; [|auto]. destruct K as [(_ & K)|(_ & K)]; rewrite K, ?Eh; auto.
Qed.
Lemma run_size_ok n s : rreach cap n s -> cap < 2 ^ 64 ->
  run_size cap (r_head s) (r_tail s) = if r_head s - r_tail s <? cap then r_head s - r_tail s else 0.
Proof.
  intros R L. destruct (run_correct n s R) as (R1 & R2 & _). unfold run_size. rewrite Z.mod_small by lia.
  destruct (Z.ltb_spec (r_head s - r_tail s) cap), (Z.leb_spec cap (r_head s - r_tail s)); lia.
Qed.
Lemma run_empty_ok n s : rreach cap n s -> run_empty (r_head s) (r_tail s) = (r_head s - r_tail s =? 0).
Proof. intros R. destruct (run_correct n s R) as (R1 & R2 & _). unfold run_empty. lia. Qed.
End Run.

(** ** Concrete runs *)
Ltac st R c := let R' := fresh in
  eassert (R' : rreach _ _ _) by (eapply rr_step; [exact R|eapply c; solve [reflexivity|discriminate|lia|cbn; lia]]);
  clear R; rename R' into R; cbn [moves r_head r_tail r_seq r_data r_flag r_thr r_abort r_acc r_out lset Z.add len length Z.of_nat Pos.of_succ_nat Pos.succ Pos.add] in R.
Ltac push1 R c i e f := st R (r_push c i e f); st R (r_pload c i e f); st R (r_pseq c i e f); st R (r_pcas c i e f);
  st R (r_wdata c i e []); st R (r_wflag c i [e]); st R (r_wpub c i e []).

Lemma run_capacity_one : exists s : runq Z, rreach 1 1 s /\ rquiet s /\ r_acc s = [(7, false); (8, false)] /\ r_out s = [] /\ r_tail s = 0 /\
  r_data s 0 = Some 8 /\ r_seq s 0 = 2.
Proof.
  pose proof (rr_init (V := Z) 1 1) as R. cbn in R.
  push1 R 1 0%nat 7 false. push1 R 1 0%nat 8 false.
  eexists. split; [exact R|]. split; [repeat constructor|]. repeat split.
Qed.
Lemma run_exact_fit : exists s s' : runq Z, rreach 2 1 s /\ rquiet s /\ r_head s - r_tail s = 1 /\ steps (rstep 2) s s' /\ rquiet s' /\
  r_acc s' = r_acc s /\ steps (rstep 2) s (moves 0 (BLoad [8] false) s) /\ steps (rstep 2) (moves 0 (BLoad [8] false) s) s'.
Proof.
  pose proof (rr_init (V := Z) 2 1) as R. cbn in R. push1 R 2 0%nat 7 false. eexists _, _. split; [exact R|].
  split; [repeat constructor|]. split; [reflexivity|].
  match goal with |- steps _ ?s _ /\ _ => assert (G1 : steps (rstep 2) s (moves 0 (BLoad [8] false) s)) by (eapply steps_S; [apply steps_0|eapply (r_batch 2 0%nat [8] false); reflexivity]);
    eassert (G2 : steps (rstep 2) (moves 0 (BLoad [8] false) s) _) end.
  { eapply steps_S; [eapply steps_S; [apply steps_0|eapply (r_bload 2 0%nat [8] false); reflexivity]|].
    eapply (r_bseq 2 0%nat [8] false). reflexivity. }
  split; [|split; [|split; [|split; [exact G1|exact G2]]]].
  - exact (rgo_trans (V := Z) 1 _ _ _ G1 G2).
  - repeat constructor.
  - reflexivity.
Qed.
Lemma run_full : exists s : runq Z, rreach 2 1 s /\ rquiet s /\ r_head s - r_tail s = 2 /\ run_size 2 (r_head s) (r_tail s) = 0.
Proof.
  pose proof (rr_init (V := Z) 2 1) as R. cbn in R. push1 R 2 0%nat 7 false. push1 R 2 0%nat 8 false.
  eexists. split; [exact R|]. split; [repeat constructor|]. repeat split.
Qed.
(** Thread 1 sleeps in the middle of a pop. *)
Lemma run_pop_waits : exists s : runq Z, rreach 2 2 s /\ r_head s = 2 /\ r_tail s = 2 /\ r_thr s = [QSeq false 2; QRead false 0] /\
  forall s', rstep 2 s s' -> nth_error (r_thr s') 0 <> Some RIdle.
Proof.
  pose proof (rr_init (V := Z) 2 2) as R. cbn in R. push1 R 2 0%nat 7 false. push1 R 2 0%nat 8 false.
  st R (r_pop (V := Z) 2 1 false). st R (r_qload (V := Z) 2 1 false). st R (r_qseq (V := Z) 2 1 false). st R (r_qcas (V := Z) 2 1 false).
  st R (r_pop (V := Z) 2 0 false). st R (r_qload (V := Z) 2 0 false). st R (r_qseq (V := Z) 2 0 false). st R (r_qcas (V := Z) 2 0 false).
  st R (r_qread (V := Z) 2 0 false). st R (r_qpub (V := Z) 2 0 false).
  st R (r_pop (V := Z) 2 0 false). st R (r_qload (V := Z) 2 0 false).
  eexists. split; [exact R|]. split; [reflexivity|]. split; [reflexivity|]. split; [reflexivity|].
  intros s' St Hs.
  match type of St with rstep _ ?s _ => pose proof (return_step (V := Z) 1 ltac:(lia) s s' 0 (QSeq false 2) St eq_refl ltac:(discriminate) Hs) as K end.
  cbn in K. lia.
Qed.
(** Thread 0 pushes two fibers in a batch, thread 1 pops and tries to steal. *)
Lemma run_run : exists s : runq Z, rreach 4 2 s /\ rquiet s /\ r_acc s = [(5, true); (7, false); (8, false)] /\ r_out s = [(0, false, Some 5); (1, true, Some 7)] /\
  r_head s = 3 /\ r_tail s = 2.
Proof.
  pose proof (rr_init (V := Z) 4 2) as R. cbn in R. push1 R 4 1%nat 5 true.
  st R (r_batch 4 0 [7; 8] false). st R (r_bload 4 0 [7; 8] false). st R (r_bseq 4 0 [7; 8] false). st R (r_btest 4 0 [7; 8] false).
  st R (r_btest 4 0 [7; 8] false). st R (r_btested 4 0 [7; 8] false). st R (r_bcas 4 0 [7; 8] false). st R (r_check 4 0 [7; 8] false).
  st R (r_pop (V := Z) 4 1 true). st R (r_qload (V := Z) 4 1 true). st R (r_qseq (V := Z) 4 1 true). st R (r_qtest (V := Z) 4 1).
  st R (r_wdata 4 0 7 [8] false). st R (r_wflag 4 0 [7; 8] false). st R (r_wpub 4 0 7 [8] false).
  st R (r_pop (V := Z) 4 1 false). st R (r_qload (V := Z) 4 1 false). st R (r_qseq (V := Z) 4 1 false). st R (r_qcas (V := Z) 4 1 false).
  st R (r_qread (V := Z) 4 1 false). st R (r_qpub (V := Z) 4 1 false).
  st R (r_pop (V := Z) 4 1 true). st R (r_qload (V := Z) 4 1 true). st R (r_qseq (V := Z) 4 1 true). st R (r_qtest (V := Z) 4 1).
  st R (r_qcas (V := Z) 4 1 true). st R (r_qread (V := Z) 4 1 true). st R (r_qpub (V := Z) 4 1 true).
  st R (r_check 4 0 [8] false). st R (r_wdata 4 0 8 [] false). st R (r_wflag 4 0 [8] false). st R (r_wpub 4 0 8 [] false).
  eexists. split; [exact R|]. split; [repeat constructor|]. repeat split.
Qed.

Lemma run_capacity_ok n : 2 <= n <= 2 ^ 63 -> exists c, run_capacity 65 n = Ok c /\ least_power n c.
Proof.
  intros H. unfold run_capacity. rewrite Z.mod_small by lia. destruct (Z.land n (n - 1) =? 0) eqn:E.
  - exists n. split; [reflexivity|]. destruct (round_up_correct n H) as (c & C1 & C2). unfold round_up in C1.
    replace (2 <=? n) with true in C1 by lia. rewrite E in C1. cbn in C1. injection C1 as <-. exact C2.
  - apply round_up_correct. exact H.
Qed.
