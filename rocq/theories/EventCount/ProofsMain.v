(** What follows from the invariant. *)
From Coq Require Import List Bool Arith Lia.
From Verif Require Import EventCount.Model EventCount.Spec EventCount.Proofs EventCount.ProofsStep.
Import ListNotations.

Lemma hand_in s L C j x : Inv s L C -> in_hand s j x <-> In x (C j).
Proof.
  intros V. pose proof (i_hand _ _ _ V j) as H. unfold in_hand.
  destruct (np s j) as [| | | |w|o|w o]; cbn in H; try (rewrite H; cbn; tauto).
  - apply chain_on; exact H.
  - destruct H as (r & -> & H). cbn. rewrite (chain_on _ _ _ H). tauto.
Qed.

Lemma stack_in s L C x : Inv s L C -> on_stack s x <-> In x L.
Proof. intros V. apply chain_on. exact (i_stk _ _ _ V). Qed.

Theorem no_lost_wakeup e s i : reach e s -> asleep s i -> all_since i (log s) -> exists j, in_hand s j i.
Proof.
  intros R A N. destruct (reach_inv _ _ R) as (L & C & V). destruct (i_in _ _ _ V i A) as [H|[j H]].
  - destruct (i_alL _ _ _ V i H N).
  - exists j. apply (hand_in s L C j i V). exact H.
Qed.

Theorem quiet_all_awake e s i : reach e s -> quiet s -> all_since i (log s) -> ~ asleep s i.
Proof.
  intros R Q N A. destruct (no_lost_wakeup e s i R A N) as [j H]. unfold in_hand in H. rewrite Q in H. exact H.
Qed.

Theorem notified_early e s i t : reach e s -> ticket (wp s i) = Some t -> all_since i (log s) -> t < w_ep (word_ s).
Proof.
  intros R T N. destruct (reach_inv _ _ R) as (L & C & V). destruct (Nat.lt_ge_cases t (w_ep (word_ s))) as [H|H]; [exact H|].
  destruct (i_alT _ _ _ V i t T H N).
Qed.

Theorem held_once e s i : reach e s ->
  (asleep s i <-> on_stack s i \/ exists j, in_hand s j i) /\
  (on_stack s i -> forall j, ~ in_hand s j i) /\
  (forall j k, in_hand s j i -> in_hand s k i -> j = k).
Proof.
  intros R. destruct (reach_inv _ _ R) as (L & C & V). split; [split|split].
  - intros A. destruct (i_in _ _ _ V i A) as [H|[j H]].
    + left. apply (stack_in s L C i V). exact H.
    + right. exists j. apply (hand_in s L C j i V). exact H.
  - intros [A|[j A]].
    + apply (stack_in s L C i V) in A. apply (i_L _ _ _ V i A).
    + apply (hand_in s L C j i V) in A. apply (i_C _ _ _ V j i A).
  - intros A j B. apply (stack_in s L C i V) in A. apply (hand_in s L C j i V) in B. exact (i_LC _ _ _ V j i A B).
  - intros j k A B. apply (hand_in s L C j i V) in A. apply (hand_in s L C k i V) in B. exact (i_CC _ _ _ V j k i A B).
Qed.

Theorem tickets e s i t : reach e s -> ticket (wp s i) = Some t ->
  (forall k, ticket (wp s k) = Some t -> k = i) /\
  (t = w_ep (word_ s) -> w_pre (word_ s) <> 0) /\
  (w_ep (word_ s) < t -> exists k, k <> i /\ ticket (wp s k) = Some (w_ep (word_ s))).
Proof.
  intros R T. destruct (reach_inv _ _ R) as (L & C & V). split; [|split].
  - intros k K. exact (i_inj _ _ _ V k i t K T).
  - intros E. pose proof (i_lt _ _ _ V i t T). lia.
  - intros H. pose proof (i_lt _ _ _ V i t T) as Q. destruct (i_sur _ _ _ V (w_ep (word_ s)) ltac:(lia) ltac:(lia)) as [k K].
    exists k. split; [|exact K]. intros ->. rewrite T in K. injection K as K. lia.
Qed.

(** The number of the undecided is the number in the word. *)
Theorem undecided e s : reach e s -> forall t,
  w_ep (word_ s) <= t < w_ep (word_ s) + w_pre (word_ s) <-> w_ep (word_ s) <= t /\ exists i, ticket (wp s i) = Some t.
Proof.
  intros R t. destruct (reach_inv _ _ R) as (L & C & V). split.
  - intros [A B]. split; [exact A|]. exact (i_sur _ _ _ V t A B).
  - intros [A [i T]]. split; [exact A|]. exact (i_lt _ _ _ V i t T).
Qed.

Theorem no_aba e s j snap x xn : reach e s -> np s j = NPop snap x xn -> word_ s = snap ->
  w_stk (word_ s) = Some x /\ nxt s x = xn.
Proof.
  intros R E W. destruct (reach_inv _ _ R) as (L & C & V). pose proof (i_np _ _ _ V j) as K. rewrite E in K. cbn in K.
  destruct K as (K1 & K2 & K3 & K4). pose proof (i_stk _ _ _ V) as H. rewrite W in *. split; [exact K1|]. rewrite K1 in H.
  apply K4; [reflexivity|]. destruct L as [|y r]; cbn in H; [discriminate|]. destruct H as [Y _]. left. congruence.
Qed.

Theorem returns_only_notified e s i s' : reach e s -> in_commit (wp s i) -> wstep s i = Some s' -> wp s' i = WIdle ->
  any_since i (log s).
Proof.
  intros R P H Q. destruct (reach_inv _ _ R) as (L & C & V). unfold wstep in H.
  destruct (wp s i) as [|t|t|t snap| |t|t snap] eqn:E; try contradiction.
  - destruct (Nat.ltb_spec (w_ep (word_ s)) t); [injection H as <-; congruence|].
    destruct (Nat.ltb_spec t (w_ep (word_ s))) as [G|G]; injection H as <-.
    + apply (i_anT _ _ _ V i t); [rewrite E; reflexivity|exact G].
    + cbn in Q. rewrite upd_same in Q. discriminate.
  - destruct (word_eqb (word_ s) snap); injection H as <-; cbn in Q; rewrite upd_same in Q; discriminate.
  - destruct (sig s i) eqn:G; [|discriminate]. exact (i_anS _ _ _ V i E G).
Qed.

Lemma self_cons {A} (x : A) l : l = x :: l -> False.
Proof. intros H. assert (K := f_equal (@length A) H). cbn in K. lia. Qed.

Lemma decide_cases s L C j b s' : Inv s L C -> decides s j b s' ->
  (np s j = NStart b /\ L = [] /\ w_pre (word_ s) = 0 /\ s' = emit (set_np s j NIdle) (EDecide j b)) \/
  (b = true /\ s' = emit (set_np (set_word s {| w_ep := w_ep (word_ s) + w_pre (word_ s); w_pre := 0; w_stk := None |}) j
                              (NUnpark (w_stk (word_ s)))) (EDecide j true) /\ Inv s' [] (upd C j L)) \/
  (b = false /\ (exists p, w_pre (word_ s) = S p /\
     s' = emit (set_np (set_word s {| w_ep := S (w_ep (word_ s)); w_pre := p; w_stk := w_stk (word_ s) |}) j NIdle)
            (EDecide j false)) /\ Inv s' L C) \/
  (b = false /\ w_pre (word_ s) = 0 /\ w_ep (word_ s') = w_ep (word_ s) /\ wp s' = wp s /\
   exists x L', L = x :: L' /\ np s' j = NClear x /\ Inv s' L' (upd C j [x])).
Proof.
  intros V [H G]. unfold nstep in H. pose proof (no_hand s L C j V) as NH. pose proof (i_np _ _ _ V j) as NP.
  destruct (np s j) as [|a|a snap|snap x xn|x|o|x o] eqn:E; try discriminate H.
  - left. specialize (NH Logic.I). pose proof (i_stk _ _ _ V) as K. revert H.
    destruct (w_stk (word_ s)) eqn:A; [|destruct (w_pre (word_ s)) eqn:B]; intros H; injection H as <-; cbn in G;
      try (destruct (self_cons _ _ G)). injection G as <-. repeat split. destruct L; [reflexivity|]. destruct K; discriminate.
  - specialize (NH Logic.I). destruct a.
    + destruct (word_eqb (word_ s) snap); injection H as <-; cbn in G; [|destruct (self_cons _ _ G)].
      injection G as <-. right; left. split; [reflexivity|]. split; [reflexivity|]. apply all_inv; assumption.
    + destruct (w_pre snap) as [|p] eqn:P.
      * destruct (w_stk snap) as [x|] eqn:X; [|discriminate H]. injection H as <-. destruct (self_cons _ _ G).
      * destruct (word_eqb (word_ s) snap) eqn:W; injection H as <-; cbn in G; [|destruct (self_cons _ _ G)].
        injection G as <-. apply word_eqb_eq in W. right; right; left. split; [reflexivity|]. split.
        -- exists p. split; [congruence|reflexivity].
        -- apply one_inv; [exact V|exact NH|congruence].
  - specialize (NH Logic.I). destruct (word_eqb (word_ s) snap) eqn:W; injection H as <-; cbn in G; [|destruct (self_cons _ _ G)].
    injection G as <-. apply word_eqb_eq in W. right; right; right.
    cbn in NP. destruct NP as (_ & P & _). rewrite <- W in P. split; [reflexivity|]. split; [exact P|]. split; [reflexivity|]. split; [reflexivity|].
    destruct (pop_inv s L C j snap x xn V E W) as (L' & EL & VL). exists x, L'. split; [exact EL|]. split; [|exact VL].
    cbn. apply upd_same.
  - injection H as <-. destruct (self_cons _ _ G).
  - destruct o; injection H as <-; destruct (self_cons _ _ G).
  - injection H as <-. destruct (self_cons _ _ G).
Qed.

Lemma waiting_in s L C i : Inv s L C ->
  (waiting s i <-> (exists t, ticket (wp s i) = Some t /\ w_ep (word_ s) <= t) \/ In i L).
Proof. intros V. unfold waiting. rewrite (stack_in s L C i V). tauto. Qed.

Theorem notify_all_frees e s j s' : reach e s -> decides s j true s' ->
  (forall i, ~ waiting s' i) /\ (forall i, waiting s i -> freed s' j i).
Proof.
  intros R D. destruct (reach_inv _ _ R) as (L & C & V).
  destruct (decide_cases s L C j true s' V D) as [(_ & -> & P & ->)|[(_ & E & V')|[(F & _)|(F & _)]]]; try discriminate F.
  - assert (N : forall i, ~ waiting s i).
    { intros i W. apply (waiting_in s [] C i V) in W. destruct W as [(t & T & H)|[]]. apply (i_lt _ _ _ V) in T. lia. }
    split; intros i W; [|destruct (N i W)]. exact (N i W).
  - split; intros i W.
    + apply (waiting_in s' _ _ i V') in W. destruct W as [(t & T & H)|[]]. apply (i_lt _ _ _ V') in T.
      subst s'. cbn in *. lia.
    + apply (waiting_in s L C i V) in W. destruct W as [(t & T & H)|W].
      * left. exists t. subst s'. cbn. split; [exact T|]. apply (i_lt _ _ _ V) in T. lia.
      * right. apply (hand_in s' _ _ j i V'). rewrite upd_same. exact W.
Qed.

Theorem notify_one_frees e s j s' : reach e s -> decides s j false s' ->
  (forall i, ~ waiting s i) \/
  exists i, waiting s i /\ ~ waiting s' i /\ freed s' j i /\ forall k, k <> i -> (waiting s' k <-> waiting s k).
Proof.
  intros R D. destruct (reach_inv _ _ R) as (L & C & V).
  destruct (decide_cases s L C j false s' V D) as [(_ & -> & P & _)|[(F & _)|[(_ & (p & P & E) & V')|(_ & P & EP & EW & x & L' & EL & EN & V')]]];
    try discriminate F.
  - left. intros i W. apply (waiting_in s [] C i V) in W. destruct W as [(t & T & H)|[]]. apply (i_lt _ _ _ V) in T. lia.
  - right. destruct (i_sur _ _ _ V (w_ep (word_ s)) ltac:(lia) ltac:(lia)) as [i T]. exists i.
    assert (NL : ~ In i L).
    { intros A. destruct (i_L _ _ _ V i A) as [B _]. rewrite B in T. discriminate. }
    assert (EP : w_ep (word_ s') = S (w_ep (word_ s))) by (subst s'; reflexivity).
    assert (EW : wp s' = wp s) by (subst s'; reflexivity).
    split; [|split; [|split]].
    + left. exists (w_ep (word_ s)). split; [exact T|lia].
    + intros W. apply (waiting_in s' L C i V') in W. destruct W as [(t & T' & H)|W]; [|contradiction].
      rewrite EW, T in T'. injection T' as <-. lia.
    + left. exists (w_ep (word_ s)). rewrite EW. split; [exact T|lia].
    + intros k N. rewrite (waiting_in s' L C k V'), (waiting_in s L C k V), EW, EP. split; (intros [(t & T' & H)|W]; [|right; exact W]).
      * left. exists t. split; [exact T'|lia].
      * left. exists t. split; [exact T'|]. destruct (Nat.eq_dec t (w_ep (word_ s))) as [->|]; [|lia].
        destruct N. exact (i_inj _ _ _ V k i _ T' T).
  - right. exists x. subst L. pose proof (i_ndL _ _ _ V) as ND. inversion ND as [|? ? NX _]; subst.
    split; [|split; [|split]].
    + apply (waiting_in s _ C x V). right; left; reflexivity.
    + intros W. apply (waiting_in s' _ _ x V') in W. destruct W as [(t & T' & H)|W]; [|contradiction].
      rewrite EW in T'. destruct (i_L _ _ _ V x (or_introl eq_refl)) as [B _]. rewrite B in T'. discriminate.
    + right. unfold in_hand. rewrite EN. reflexivity.
    + intros k N. rewrite (waiting_in s' _ _ k V'), (waiting_in s _ C k V), EW, EP. cbn [In]. split.
      * intros [W|W]; [left; exact W|right; right; exact W].
      * intros [W|[W|W]]; [left; exact W|congruence|right; exact W].
Qed.

(** A notifier is never stuck. *)
Theorem notifier_goes_on e s j : reach e s -> np s j <> NIdle -> exists s', nstep s j = Some s'.
Proof.
  intros R N. destruct (reach_inv _ _ R) as (L & C & V). pose proof (i_np _ _ _ V j) as NP. unfold nstep.
  destruct (np s j) as [|a|a snap|snap x xn|x|o|x o]; [contradiction|..].
  - destruct (w_stk (word_ s)); [|destruct (w_pre (word_ s))]; eexists; reflexivity.
  - destruct a; [destruct (word_eqb (word_ s) snap); eexists; reflexivity|].
    cbn in NP. destruct (w_pre snap); [|destruct (word_eqb (word_ s) snap); eexists; reflexivity].
    destruct (w_stk snap); [eexists; reflexivity|]. destruct NP as [_ NP]. destruct (NP eq_refl eq_refl).
  - destruct (word_eqb (word_ s) snap); eexists; reflexivity.
  - eexists; reflexivity.
  - destruct o; eexists; reflexivity.
  - eexists; reflexivity.
Qed.

(** A thread that waits can move unless it sleeps. *)
Theorem waiter_goes_on s i : in_commit (wp s i) -> (exists s', wstep s i = Some s') \/ asleep s i.
Proof.
  unfold wstep, asleep. destruct (wp s i) as [|t|t|t snap| |t|t snap]; cbn [in_commit]; try contradiction; intros _.
  - left. destruct (w_ep (word_ s) <? t); [|destruct (t <? w_ep (word_ s))]; eexists; reflexivity.
  - left. destruct (word_eqb (word_ s) snap); eexists; reflexivity.
  - destruct (sig s i); [left; eexists; reflexivity|right; split; reflexivity].
Qed.

Lemma run_reach e l : forall s s', reach e s -> run s l = Some s' -> reach e s'.
Proof.
  induction l as [|a r IH]; cbn; intros s s' R H; [injection H as <-; exact R|].
  destruct (exec s a) as [s1|] eqn:E; [|discriminate]. eapply IH; [|exact H]. eapply reach_step; eassumption.
Qed.

Theorem undecided_bound e s n : reach e s -> (forall i, n <= i -> wp s i = WIdle) -> w_pre (word_ s) <= n.
Proof.
  intros R Z. destruct (reach_inv _ _ R) as (L & C & V).
  assert (G : forall m, m <= w_pre (word_ s) -> exists l, length l = m /\ NoDup l /\
            forall i, In i l -> i < n /\ exists t, ticket (wp s i) = Some t /\ t < w_ep (word_ s) + m).
  { induction m as [|m IH]; intros M.
    - exists []. split; [reflexivity|]. split; [constructor|]. intros i [].
    - destruct (IH ltac:(lia)) as (l & LL & ND & H).
      destruct (i_sur _ _ _ V (w_ep (word_ s) + m) ltac:(lia) ltac:(lia)) as [i T].
      exists (i :: l). split; [cbn; congruence|]. split.
      + constructor; [|exact ND]. intros A. destruct (H i A) as (_ & t & T' & Q). rewrite T in T'. injection T' as <-. lia.
      + intros k [<-|A].
        * split; [|exists (w_ep (word_ s) + m); split; [exact T|lia]]. destruct (Nat.lt_ge_cases i n) as [Q|Q]; [exact Q|].
          rewrite (Z i Q) in T. discriminate.
        * destruct (H k A) as (Q & t & T' & U). split; [exact Q|]. exists t. split; [exact T'|lia]. }
  destruct (G _ (le_n _)) as (l & LL & ND & H). rewrite <- LL, <- (seq_length n 0). apply NoDup_incl_length; [exact ND|].
  intros i A. apply in_seq. destruct (H i A). lia.
Qed.
