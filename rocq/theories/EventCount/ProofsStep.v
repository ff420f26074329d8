(** The steps that change the word keep the invariant. *)
From Coq Require Import List Bool Arith Lia.
From Verif Require Import EventCount.Model EventCount.Spec EventCount.Proofs.
Import ListNotations.

Lemma push_inv s L C i t snap :
  Inv s L C -> wp s i = WStored t snap -> word_ s = snap ->
  Inv (set_wp (set_word s {| w_ep := S (w_ep (word_ s)); w_pre := w_pre (word_ s) - 1; w_stk := Some i |}) i WParked)
      (i :: L) C.
Proof.
  intros V E W. destruct V.
  pose proof (i_wp i) as K. rewrite E in K. cbn in K. destruct K as (T & NX & SG).
  assert (TK : ticket (wp s i) = Some (w_ep (word_ s))) by (rewrite E; cbn; congruence).
  pose proof (i_lt i _ TK) as LT.
  assert (NA : ~ asleep s i) by (intros [A _]; congruence).
  assert (NL : ~ In i L) by (intros A; apply NA, i_L, A).
  assert (NC : forall j, ~ In i (C j)) by (intros j A; apply NA; eapply i_C; exact A).
  constructor; cbn [word_ nxt sig wp np log set_wp set_word w_ep w_pre w_stk].
  - intros k u. usp i k; [discriminate|]. intros A. apply i_lt in A. lia.
  - intros k m u. usp i k; usp i m; try discriminate. apply i_inj.
  - intros u A B. destruct (i_sur u ltac:(lia) ltac:(lia)) as [k Q]. exists k. usp i k; [|exact Q].
    rewrite TK in Q. injection Q as Q. lia.
  - cbn. split; [reflexivity|]. rewrite NX, <- W. exact i_stk.
  - exact i_hand.
  - constructor; assumption.
  - exact i_ndC.
  - intros j x [->|A] B; [exact (NC j B)|exact (i_LC j x A B)].
  - exact i_CC.
  - intros x [A B]. cbn in *. usp i x; [left; left; reflexivity|]. destruct (i_in x) as [H|H]; [split; assumption| |].
    + left; right; exact H.
    + right; exact H.
  - intros x [<-|A]; split; cbn.
    + apply upd_same.
    + exact SG.
    + usp i x; [reflexivity|]. apply (i_L x A).
    + apply (i_L x A).
  - intros j x A. split; cbn; [|apply (i_C j x A)]. usp i x; [reflexivity|]. apply (i_C j x A).
  - intros j. specialize (i_np j). destruct (np s j); cbn in *; auto.
    + destruct i_np; split; [lia|assumption].
    + destruct i_np as (A & B & D & F). repeat split; auto; lia.
  - intros k. usp i k; [exact Logic.I|]. specialize (i_wp k). destruct (wp s k); exact i_wp.
  - intros k [<-|A]; [|apply i_alL; exact A]. eapply i_alT; [exact TK|lia].
  - intros k u. usp i k; [discriminate|]. intros A B. eapply i_alT; [exact A|lia].
  - intros k u. usp i k; [discriminate|]. intros A B. destruct (Nat.eq_dec u (w_ep (word_ s))) as [->|].
    + assert (k = i) by (eapply i_inj; eassumption). contradiction.
    + eapply i_anT; [exact A|lia].
  - exact i_anC.
  - intros k. usp i k; [intros _ A; congruence|]. apply i_anS.
Qed.

Lemma cancelled_inv s L C i t snap :
  Inv s L C -> wp s i = WCancel t snap -> word_ s = snap ->
  Inv (emit (set_wp (set_word s {| w_ep := S (w_ep (word_ s)); w_pre := w_pre (word_ s) - 1; w_stk := w_stk (word_ s) |}) i WIdle)
            (EReturn i)) L C.
Proof.
  intros V E W. destruct V.
  pose proof (i_wp i) as K. rewrite E in K. cbn in K.
  assert (TK : ticket (wp s i) = Some (w_ep (word_ s))) by (rewrite E; cbn; congruence).
  pose proof (i_lt i _ TK) as LT.
  assert (NA : ~ asleep s i) by (intros [A _]; congruence).
  assert (NL : ~ In i L) by (intros A; apply NA, i_L, A).
  assert (NC : forall j, ~ In i (C j)) by (intros j A; apply NA; eapply i_C; exact A).
  constructor; cbn [word_ nxt sig wp np log set_wp set_word emit all_since any_since w_ep w_pre w_stk]; try assumption.
  - intros k u. usp i k; [discriminate|]. intros A. apply i_lt in A. lia.
  - intros k m u. usp i k; usp i m; try discriminate. apply i_inj.
  - intros u A B. destruct (i_sur u ltac:(lia) ltac:(lia)) as [k Q]. exists k. usp i k; [|exact Q].
    rewrite TK in Q. injection Q as Q. lia.
  - intros x [A B]. cbn in *. usp i x; [discriminate|]. apply i_in. split; assumption.
  - intros x A; split; cbn; [|apply (i_L x A)]. usp i x; [contradiction|]. apply (i_L x A).
  - intros j x A. split; cbn; [|apply (i_C j x A)]. usp i x; [destruct (NC j A)|]. apply (i_C j x A).
  - intros j. specialize (i_np j). destruct (np s j); cbn in *; auto.
    + destruct i_np; split; [lia|assumption].
    + destruct i_np as (A & B & D & F). repeat split; auto; lia.
  - intros k. usp i k; [exact Logic.I|]. specialize (i_wp k). destruct (wp s k); exact i_wp.
  - intros k u. usp i k; [discriminate|]. intros A B. eapply i_alT; [exact A|lia].
  - intros k u. usp i k; [discriminate|]. intros A B. destruct (Nat.eq_dec u (w_ep (word_ s))) as [->|].
    + assert (k = i) by (eapply i_inj; eassumption). contradiction.
    + eapply i_anT; [exact A|lia].
  - intros k. usp i k; [discriminate|]. apply i_anS.
Qed.

Lemma wstep_inv s L C i s' : Inv s L C -> wstep s i = Some s' -> exists L', Inv s' L' C.
Proof.
  intros V H. unfold wstep in H. destruct (wp s i) as [|t|t|t snap| |t|t snap] eqn:E; try discriminate H.
  - destruct (Nat.ltb_spec (w_ep (word_ s)) t); [injection H as <-; exists L; exact V|].
    destruct (Nat.ltb_spec t (w_ep (word_ s))); injection H as <-; exists L.
    + apply idle_inv; [exact V|]. left. exists t. rewrite E. split; [reflexivity|assumption].
    + assert (SG := i_wp _ _ _ V i). rewrite E in SG. cbn in SG.
      apply same_ticket; cbn [wp set_nxt]; try rewrite E; try discriminate; try reflexivity.
      * apply set_nxt_inv; [exact V|intros [A _]; congruence|intros; congruence].
      * cbn. rewrite upd_same. repeat split; [lia|exact SG].
  - destruct (word_eqb (word_ s) snap) eqn:W; injection H as <-.
    + exists (i :: L). eapply push_inv; [exact V|exact E|]. apply word_eqb_eq; exact W.
    + exists L. assert (SG := i_wp _ _ _ V i). rewrite E in SG. cbn in SG.
      apply same_ticket; try rewrite E; try discriminate; try reflexivity; [exact V|]. apply SG.
  - destruct (sig s i) eqn:SG; [|discriminate H]. injection H as <-. exists L. apply idle_inv; [exact V|]. right. split; assumption.
  - destruct (Nat.ltb_spec (w_ep (word_ s)) t); [injection H as <-; exists L; exact V|].
    destruct (Nat.ltb_spec t (w_ep (word_ s))); injection H as <-; exists L.
    + apply idle_inv; [exact V|]. left. exists t. rewrite E. split; [reflexivity|assumption].
    + apply same_ticket; try rewrite E; try discriminate; try reflexivity; [exact V|]. cbn. lia.
  - destruct (word_eqb (word_ s) snap) eqn:W; injection H as <-; exists L.
    + eapply cancelled_inv; [exact V|exact E|]. apply word_eqb_eq; exact W.
    + apply same_ticket; try rewrite E; try discriminate; try reflexivity. exact V.
Qed.

(** A notifier that holds nobody moves on and still holds nobody. *)
Lemma np_inv s L C j p :
  Inv s L C -> C j = [] -> hand_ok (nxt s) p [] -> npc_ok s L p -> Inv (set_np s j p) L C.
Proof.
  intros V Z H N. destruct V. constructor; cbn [word_ nxt sig wp np log set_np]; try assumption.
  - intros k. usp j k; [rewrite Z; exact H|apply i_hand].
  - intros k. usp j k; [exact N|apply i_np].
Qed.

Lemma decide_log s L C j b :
  Inv s L C -> (b = true -> L = [] /\ w_pre (word_ s) = 0) -> Inv (emit s (EDecide j b)) L C.
Proof.
  intros V Z. destruct V. constructor; cbn [word_ nxt sig wp np log emit all_since any_since]; try assumption; try (intros; exact Logic.I).
  - intros i A. destruct b; [|apply i_alL; exact A]. destruct (Z eq_refl) as [-> _]. destruct A.
  - intros i t A B. destruct b; [|eapply i_alT; eassumption]. destruct (Z eq_refl) as [_ P]. apply i_lt in A. lia.
Qed.

Lemma no_hand s L C j : Inv s L C ->
  match np s j with NClear _ | NUnpark _ | NSignal _ _ => False | _ => True end -> C j = [].
Proof. intros V H. pose proof (i_hand _ _ _ V j) as K. destruct (np s j); cbn in K; try contradiction; exact K. Qed.

Lemma notify_inv s L C j b s' : Inv s L C -> notify s j b = Some s' -> Inv s' L C.
Proof.
  intros V H. unfold notify in H. destruct (np s j) eqn:E; try discriminate H. injection H as <-.
  apply np_inv; [exact V|apply (no_hand s L C j V); rewrite E; exact Logic.I|reflexivity|exact Logic.I].
Qed.

Lemma all_inv s L C j :
  Inv s L C -> C j = [] ->
  Inv (emit (set_np (set_word s {| w_ep := w_ep (word_ s) + w_pre (word_ s); w_pre := 0; w_stk := None |}) j
                    (NUnpark (w_stk (word_ s)))) (EDecide j true)) [] (upd C j L).
Proof.
  intros V Z. destruct V.
  constructor; cbn [word_ nxt sig wp np log set_np set_word emit all_since any_since w_ep w_pre w_stk]; try assumption;
    try (intros; exact Logic.I).
  - intros i t A. apply i_lt in A. lia.
  - intros t A B. lia.
  - reflexivity.
  - intros k. usp j k; [exact i_stk|apply i_hand].
  - constructor.
  - intros k. usp j k; [exact i_ndL|apply i_ndC].
  - intros k x [].
  - intros k m x. usp j k; usp j m; intros A B; [reflexivity|destruct (i_LC _ _ A B)|destruct (i_LC _ _ B A)|eapply i_CC; eassumption].
  - intros x A. right. destruct (i_in x A) as [H|[k H]].
    + exists j. rewrite upd_same. exact H.
    + exists k. usp j k; [rewrite Z in H; destruct H|exact H].
  - intros x [].
  - intros k x. usp j k; [apply i_L|apply i_C].
  - intros k. usp j k; [exact Logic.I|]. specialize (i_np k). destruct (np s k); cbn in *; auto.
    + destruct i_np; split; [lia|assumption].
    + destruct i_np as (A & B & D & F). repeat split; auto; [lia|tauto].
  - intros i [].
  - intros i t A B. apply i_lt in A. lia.
Qed.

Lemma one_inv s L C j p :
  Inv s L C -> C j = [] -> w_pre (word_ s) = S p ->
  Inv (emit (set_np (set_word s {| w_ep := S (w_ep (word_ s)); w_pre := p; w_stk := w_stk (word_ s) |}) j NIdle)
            (EDecide j false)) L C.
Proof.
  intros V Z P. destruct V.
  constructor; cbn [word_ nxt sig wp np log set_np set_word emit all_since any_since w_ep w_pre w_stk]; try assumption;
    try (intros; exact Logic.I).
  - intros i t A. apply i_lt in A. lia.
  - intros t A B. apply i_sur; lia.
  - intros k. usp j k; [exact Z|apply i_hand].
  - intros k. usp j k; [exact Logic.I|]. specialize (i_np k). destruct (np s k); cbn in *; auto.
    + destruct i_np; split; [lia|assumption].
    + destruct i_np as (A & B & D & F). repeat split; auto; lia.
  - intros i t A B. eapply i_alT; [exact A|lia].
Qed.

Lemma pop_inv s L C j snap x xn :
  Inv s L C -> np s j = NPop snap x xn -> word_ s = snap ->
  exists L', L = x :: L' /\
  Inv (emit (set_np (set_word s {| w_ep := w_ep (word_ s); w_pre := 0; w_stk := xn |}) j (NClear x))
            (EDecide j false)) L' (upd C j [x]).
Proof.
  intros V E W. assert (Z : C j = []) by (apply (no_hand s L C j V); rewrite E; exact Logic.I).
  destruct V. pose proof (i_np j) as K. rewrite E in K. cbn in K. destruct K as (K1 & K2 & K3 & K4).
  rewrite <- W in *. rewrite K1 in i_stk. destruct L as [|y L']; cbn in i_stk; [discriminate|].
  destruct i_stk as [Y CH]. injection Y as <-. exists L'. split; [reflexivity|].
  rewrite (K4 eq_refl (or_introl eq_refl)) in CH. inversion i_ndL as [|? ? NX ND]; subst.
  constructor; cbn [word_ nxt sig wp np log set_np set_word emit all_since any_since w_ep w_pre w_stk]; try assumption;
    try (intros; exact Logic.I).
  - intros i t A. apply i_lt in A. lia.
  - intros t A B. lia.
  - intros k. usp j k; [reflexivity|apply i_hand].
  - intros k. usp j k; [constructor; [intros []|constructor]|apply i_ndC].
  - intros k y A. usp j k; [intros [->|[]]; contradiction|]. intros B. eapply i_LC; [right; exact A|exact B].
  - intros k m y. usp j k; usp j m; intros A B; [reflexivity| | |eapply i_CC; eassumption].
    + destruct A as [<-|[]]. destruct (i_LC _ _ (or_introl eq_refl) B).
    + destruct B as [<-|[]]. destruct (i_LC _ _ (or_introl eq_refl) A).
  - intros y A. destruct (i_in y A) as [[<-|H]|[k H]].
    + right. exists j. rewrite upd_same. left; reflexivity.
    + left; exact H.
    + right. exists k. usp j k; [rewrite Z in H; destruct H|exact H].
  - intros y A. apply i_L. right; exact A.
  - intros k y. usp j k; [intros [<-|[]]; apply i_L; left; reflexivity|apply i_C].
  - intros k. usp j k; [exact Logic.I|]. specialize (i_np k). destruct (np s k); cbn in *; auto.
    destruct i_np as (A & B & D & F). repeat split; auto.
  - intros i A. apply i_alL. right; exact A.
Qed.

Lemma clear_inv s L C j x :
  Inv s L C -> np s j = NClear x -> Inv (set_np (set_nxt s x None) j (NUnpark (Some x))) L C.
Proof.
  intros V E. destruct V. pose proof (i_hand j) as K. rewrite E in K. cbn in K.
  assert (IC : In x (C j)) by (rewrite K; left; reflexivity).
  assert (NL : ~ In x L) by (intros A; exact (i_LC _ _ A IC)).
  assert (AS := i_C _ _ IC).
  constructor; cbn [word_ nxt sig wp np log set_np set_nxt]; try assumption.
  - apply chain_upd; assumption.
  - intros k. usp j k; [rewrite K; cbn; rewrite upd_same; split; reflexivity|].
    assert (NC : ~ In x (C k)) by (intros A; apply n; eapply i_CC; eassumption).
    specialize (i_hand k). destruct (np s k); cbn in *; auto.
    + apply chain_upd; assumption.
    + destruct i_hand as (r & R & H). exists r. split; [exact R|]. apply chain_upd; [|exact H].
      intros A. apply NC. rewrite R. right; exact A.
  - intros k. usp j k; [exact Logic.I|]. specialize (i_np k). destruct (np s k); cbn in *; auto.
    destruct i_np as (A & B & D & F). repeat split; auto. intros G H. rewrite upd_other; [auto|]. intros ->. contradiction.
  - intros k. specialize (i_wp k). destruct (wp s k) eqn:Q; cbn in *; auto. destruct i_wp as (A & B & D).
    rewrite upd_other; [repeat split; assumption|]. intros ->. destruct AS; congruence.
Qed.

Lemma signal_inv s L C j x o :
  Inv s L C -> np s j = NSignal x o ->
  Inv (set_np (set_sig s x true) j (NUnpark o)) L (upd C j (tl (C j))).
Proof.
  intros V E. destruct V. pose proof (i_hand j) as K. rewrite E in K. cbn in K. destruct K as (r & R & CH).
  assert (IC : In x (C j)) by (rewrite R; left; reflexivity).
  assert (NL : ~ In x L) by (intros A; exact (i_LC _ _ A IC)).
  assert (AS := i_C _ _ IC). pose proof (i_ndC j) as ND. rewrite R in ND. inversion ND as [|? ? NR NDr]; subst.
  assert (SUB : forall k y, In y (upd C j (tl (C j)) k) -> In y (C k) /\ y <> x).
  { intros k y. usp j k.
    - rewrite R. cbn. intros A. split; [right; exact A|]. intros ->. contradiction.
    - intros A. split; [exact A|]. intros ->. apply n. eapply i_CC; eassumption. }
  constructor; cbn [word_ nxt sig wp np log set_np set_sig]; try assumption.
  - intros k. usp j k; [rewrite R; exact CH|apply i_hand].
  - intros k. usp j k; [rewrite R; exact NDr|apply i_ndC].
  - intros k y A B. apply SUB in B. eapply i_LC; [exact A|apply B].
  - intros k m y A B. apply SUB in A. apply SUB in B. eapply i_CC; [apply A|apply B].
  - intros y [A B]. cbn in *. usp x y; [discriminate|]. destruct (i_in y) as [H|[k H]]; [split; assumption|left; exact H|].
    right. exists k. usp j k; [|exact H]. rewrite R in *. destruct H as [->|H]; [contradiction|exact H].
  - intros y A. split; cbn; [apply (i_L y A)|]. rewrite upd_other; [apply (i_L y A)|]. intros ->; contradiction.
  - intros k y A. destruct (SUB _ _ A) as [A1 A2]. split; cbn; [apply (i_C _ _ A1)|]. rewrite upd_other by exact A2. apply (i_C _ _ A1).
  - intros k. usp j k; [exact Logic.I|]. specialize (i_np k). destruct (np s k); exact i_np.
  - intros k. specialize (i_wp k). destruct (Nat.eq_dec k x) as [->|].
    + destruct AS as [AS _]. rewrite AS. exact Logic.I.
    + destruct (wp s k); cbn in *; rewrite ?upd_other by assumption; exact i_wp.
  - intros k y A. apply SUB in A. eapply i_anC. apply A.
  - intros k A B. usp x k; [eapply i_anC; exact IC|]. apply i_anS; assumption.
Qed.

Lemma nstep_inv s L C j s' : Inv s L C -> nstep s j = Some s' -> exists L' C', Inv s' L' C'.
Proof.
  intros V H. unfold nstep in H. pose proof (no_hand s L C j V) as NH. pose proof (i_np _ _ _ V j) as NP.
  pose proof (i_hand _ _ _ V j) as HD.
  destruct (np s j) as [|b|b snap|snap x xn|x|o|x o] eqn:E; try discriminate H.
  - specialize (NH Logic.I).
    assert (G : w_stk (word_ s) = None -> w_pre (word_ s) = 0 -> Inv (emit (set_np s j NIdle) (EDecide j b)) L C).
    { intros A B. apply decide_log; [apply np_inv; [exact V|exact NH|reflexivity|exact Logic.I]|].
      intros _. cbn. split; [|exact B]. pose proof (i_stk _ _ _ V) as K. rewrite A in K.
      destruct L; [reflexivity|]. destruct K; discriminate. }
    assert (G2 : (w_pre (word_ s) = 0 -> w_stk (word_ s) <> None) -> Inv (set_np s j (NLoaded b (word_ s))) L C).
    { intros A. apply np_inv; [exact V|exact NH|reflexivity|]. cbn. split; [lia|exact A]. }
    exists L, C. destruct (w_stk (word_ s)) eqn:A; [|destruct (w_pre (word_ s)) eqn:B]; injection H as <-; auto.
    apply G2. discriminate. apply G2. discriminate.
  - specialize (NH Logic.I). destruct b.
    + destruct (word_eqb (word_ s) snap); injection H as <-.
      * exists [], (upd C j L). apply all_inv; assumption.
      * exists L, C. apply np_inv; [exact V|exact NH|reflexivity|exact Logic.I].
    + destruct (w_pre snap) as [|p] eqn:P.
      * destruct (w_stk snap) as [x|] eqn:X; [|discriminate H]. injection H as <-. exists L, C.
        apply np_inv; [exact V|exact NH|reflexivity|]. cbn in *. repeat split; try assumption. apply NP.
      * destruct (word_eqb (word_ s) snap) eqn:W; injection H as <-; exists L, C.
        -- apply word_eqb_eq in W. apply one_inv; [exact V|exact NH|congruence].
        -- apply np_inv; [exact V|exact NH|reflexivity|exact Logic.I].
  - specialize (NH Logic.I). destruct (word_eqb (word_ s) snap) eqn:W; injection H as <-.
    + apply word_eqb_eq in W. destruct (pop_inv s L C j snap x xn V E W) as (L' & _ & G). exists L', (upd C j [x]). exact G.
    + exists L, C. apply np_inv; [exact V|exact NH|reflexivity|exact Logic.I].
  - injection H as <-. exists L, C. apply clear_inv; assumption.
  - destruct o as [x|]; injection H as <-; exists L, C.
    + cbn in HD. destruct V. constructor; cbn [word_ nxt sig wp np log set_np]; try assumption.
      * intros k. usp j k; [|apply i_hand]. cbn. destruct (C j) as [|y r]; cbn in HD; [discriminate|]. destruct HD as [Y HD].
        injection Y as <-. exists r. split; [reflexivity|exact HD].
      * intros k. usp j k; [exact Logic.I|apply i_np].
    + cbn in HD. apply np_inv; [exact V| |reflexivity|exact Logic.I]. destruct (C j); [reflexivity|]. destruct HD; discriminate.
  - injection H as <-. exists L, (upd C j (tl (C j))). apply signal_inv; assumption.
Qed.

Theorem reach_inv e s : reach e s -> exists L C, Inv s L C.
Proof.
  induction 1 as [|s a s' R (L & C & V) H]; [exists [], (fun _ => []); apply init_inv|].
  destruct a; cbn in H.
  - exists L, C. eapply prepare_inv; eassumption.
  - exists L, C. eapply commit_inv; eassumption.
  - exists L, C. eapply cancel_inv; eassumption.
  - destruct (wstep_inv _ _ _ _ _ V H) as [L' V']. exists L', C. exact V'.
  - exists L, C. eapply notify_inv; eassumption.
  - eapply nstep_inv; eassumption.
Qed.
