(** Proofs about the fiber shared mutex: what the invariant says. *)
From Coq Require Import Lia.
From Verif.Lib Require Import Base ListX Count.
From Verif.FiberSync Require Import ModelShared SpecShared ProofsShared.
Local Open Scope Z_scope.

Section Props.
Variables (n : nat) (s : shm).
Hypothesis Hn : Z.of_nat n < kmax.
Hypothesis R : run n s.
Local Notation at_ i := (nth i (x_pcs s) Idle).
Lemma H : inv s.
Proof. exact (proj1 (run_inv n s Hn R)). Qed.
Lemma Len : length (x_pcs s) = n.
Proof. exact (proj2 (run_inv n s Hn R)). Qed.

Lemma some f i : (i < n)%nat -> f (at_ i) = true -> 1 <= N f s.
Proof. intros L E. apply (zc_nth f _ i Idle); [rewrite Len; exact L|exact E]. Qed.
Lemma none f : (forall i, (i < n)%nat -> f (at_ i) = false) -> N f s = 0.
Proof. intros E. unfold zc. rewrite (cnt_none f _ Idle); [reflexivity|]. intros i L. apply E. rewrite <- Len. exact L. Qed.
Lemma ex f : 1 <= N f s -> exists i, (i < n)%nat /\ f (at_ i) = true.
Proof. intros E. destruct (zc_ex f (x_pcs s) Idle ltac:(lia)) as (i & L & K). rewrite Len in L. eauto. Qed.

Lemma no_crash i : at_ i <> Crash.
Proof.
  intros E. destruct (Nat.lt_ge_cases i n) as [L|L]; [|rewrite nth_overflow in E by (rewrite Len; exact L); discriminate].
  pose proof (some cr i L ltac:(rewrite E; reflexivity)). pose proof (i_cr s H). lia.
Qed.
Lemma exclusion i j : (i < n)%nat -> (j < n)%nat -> writes (at_ i) -> reads (at_ j) \/ writes (at_ j) -> i = j.
Proof.
  intros Li Lj Wi [Wj|Wj].
  - exfalso. pose proof (some inn i Li ltac:(destruct Wi as [-> | ->]; reflexivity)) as A. pose proof (some rd j Lj ltac:(destruct Wj as [-> | ->]; reflexivity)).
    apply (i_in s H) in A. lia.
  - destruct (Nat.eq_dec i j) as [|Ne]; [assumption|exfalso].
    assert (T : (2 <= cnt wlh (x_pcs s))%nat).
    { apply (cnt_two wlh (x_pcs s) i j Idle); rewrite ?Len; auto; [destruct Wi as [-> | ->]|destruct Wj as [-> | ->]]; reflexivity. }
    pose proof (i_wl s H) as F. unfold zc in F. pose proof (bz_le (x_wl s)). lia.
Qed.
Lemma range : - Z.of_nat n <= x_quota s <= kmax /\ - Z.of_nat n <= x_pend s <= Z.of_nat n /\ 0 <= x_granted s <= Z.of_nat n.
Proof.
  pose proof H as HH. pose proof Len as LL. facts HH s; decide_imps; unfold kmax in *; lia.
Qed.

Ltac dead S i := exfalso;
  first [ eapply (S i); econstructor; (try split); first [eassumption|lia]
        | idtac ].
Lemma quota_cases : x_quota s = kmax \/ (x_quota s < kmax /\ 0 < x_quota s) \/ (kmax < x_quota s \/ x_quota s <= 0).
Proof. lia. Qed.

(** A fiber inside of a call can take a step, unless it waits or needs wakeup_lock_. *)
Lemma moves i : (i < n)%nat -> at_ i <> Idle -> at_ i <> Reading -> at_ i <> Writing -> ~ waits (at_ i) ->
  x_wk s = false \/ wkh (at_ i) = true -> exists s', tstep i s s'.
Proof.
  intros Li N1 N2 N3 N4 K. pose proof Li as Li2. rewrite <- Len in Li2. unfold waits in N4.
  destruct (at_ i) eqn:P; try (exfalso; tauto); try (destruct K as [K|K]; [|discriminate K]).
  - eexists. eapply r_want; [split; eassumption|exact K].
  - destruct (Z.eq_dec (x_granted s) 0) as [G|G]; eexists; [eapply r_none|eapply r_granted]; try split; eassumption.
  - eexists. eapply r_sleep; split; eassumption.
  - eexists. eapply r_rel; split; eassumption.
  - destruct (Z.eq_dec (x_pend s) 1) as [G|G]; eexists; [eapply r_dec_last|eapply r_dec]; try split; eassumption.
  - eexists. eapply r_wk1; [split; eassumption|exact K].
  - eexists. eapply r_wk2; split; eassumption.
  - destruct (Z.le_gt_cases 1 (N wsl s)) as [G|G].
    + destruct (ex wsl G) as (j & Lj & Ej). rewrite <- Len in Lj. destruct (at_ j) eqn:Pj; try discriminate. eexists. eapply (r_notify i s j); split; eassumption.
    + eexists. eapply r_notify_none; [split; eassumption|]. intros j Ej.
      destruct (Nat.lt_ge_cases j n) as [L|L]; [|rewrite nth_overflow in Ej by (rewrite Len; exact L); discriminate].
      pose proof (some wsl j L ltac:(rewrite Ej; reflexivity)). lia.
  - destruct quota_cases as [G|[(G & G2)|G]]; eexists; [eapply w_free|eapply w_busy|eapply w_bad]; try (split; eassumption); assumption.
  - eexists. eapply w_want; [split; eassumption|exact K].
  - destruct (Z.eq_dec (x_pend s) (- p)) as [G|G]; eexists; [eapply w_add_done|eapply w_add]; try split; eassumption.
  - destruct (Z.eq_dec (x_pend s) 0) as [G|G]; eexists; [eapply w_chk_done|eapply w_chk]; try split; eassumption.
  - eexists. eapply w_sleep; split; eassumption.
  - eexists. eapply w_re; [split; eassumption|exact K].
  - eexists. eapply w_rel; split; eassumption.
  - destruct (Z.eq_dec (x_quota s) kmax) as [G|G]; eexists; [eapply w_try|eapply w_try_busy]; try split; eassumption.
  - eexists. eapply w_u1; [split; eassumption|exact K].
  - eexists. eapply w_u2; split; eassumption.
  - eexists. eapply w_u2b; split; eassumption.
  - eexists. eapply w_u3; split; eassumption.
  - eexists. eapply w_u4; split; eassumption.
  - exfalso. exact (no_crash i P).
Qed.
Lemma holder : x_wk s = true -> exists j, (j < n)%nat /\ wkh (at_ j) = true /\ exists s', tstep j s s'.
Proof.
  intros E. pose proof (i_wk s H) as F. rewrite E in F. cbn [bz] in F. destruct (ex wkh ltac:(lia)) as (j & Lj & Ej). exists j. split; [exact Lj|].
  split; [exact Ej|]. apply moves; auto; unfold waits; destruct (at_ j); try discriminate. intros [K|[K|K]]; discriminate. all: intros [K|[K|K]]; discriminate.
Qed.
Lemma progress i : (i < n)%nat ->
  (exists s', tstep i s s') \/ at_ i = Idle \/ at_ i = Reading \/ at_ i = Writing \/ waits (at_ i) \/
  x_wk s = true /\ exists j s', j <> i /\ tstep j s s'.
Proof.
  intros Li. destruct (x_wk s) eqn:E.
  - destruct (holder E) as (j & Lj & Ej & s' & T). destruct (Nat.eq_dec j i) as [->|Ne]; [eauto|]. right. right. right. right. right. split; [reflexivity|]. eauto.
  - destruct (at_ i) eqn:P; auto; unfold waits; try (left; apply moves; auto; rewrite ?P; try discriminate; unfold waits; intros [K|[K|K]]; discriminate K); auto 10.
Qed.
Lemma quiet : stuck s ->
  (forall i, (i < n)%nat -> at_ i = Idle \/ at_ i = Reading \/ at_ i = Writing \/ waits (at_ i)) /\
  ((exists i, (i < n)%nat /\ waits (at_ i)) -> exists j, (j < n)%nat /\ (at_ j = Reading \/ at_ j = Writing)).
Proof.
  intros S. assert (K : x_wk s = false).
  { destruct (x_wk s) eqn:E; [|reflexivity]. destruct (holder E) as (j & _ & _ & s' & T). elim (S j s' T). }
  assert (ALL : forall i, (i < n)%nat -> at_ i = Idle \/ at_ i = Reading \/ at_ i = Writing \/ waits (at_ i)).
  { intros i Li. destruct (progress i Li) as [(s' & T)|[P|[P|[P|[P|(P & _)]]]]]; auto. elim (S i s' T). congruence. }
  split; [exact ALL|]. intros (i & Li & Wi).
  destruct (Z.le_gt_cases 1 (N (fun c => match c with Reading | Writing => true | _ => false end) s)) as [G|G].
  { destruct (ex _ G) as (j & Lj & Ej). exists j. split; [exact Lj|]. destruct (at_ j); try discriminate; auto. }
  exfalso.
  assert (ALL2 : forall j, (j < n)%nat -> at_ j = Idle \/ at_ j = RSleep \/ at_ j = WSleep \/ at_ j = WLock).
  { intros j Lj. destruct (ALL j Lj) as [P|[P|[P|[P|[P|P]]]]]; auto; exfalso;
      pose proof (some (fun c => match c with Reading | Writing => true | _ => false end) j Lj ltac:(rewrite P; reflexivity)); lia. }
  assert (Z0 : forall f, f Idle = false -> f RSleep = false -> f WSleep = false -> f WLock = false -> N f s = 0).
  { intros f F1 F2 F3 F4. apply none. intros j Lj. destruct (ALL2 j Lj) as [P|[P|[P|P]]]; rewrite P; assumption. }
  pose proof (Z0 rd eq_refl eq_refl eq_refl eq_refl) as Zrd. pose proof (Z0 dd eq_refl eq_refl eq_refl eq_refl) as Zdd.
  pose proof (Z0 inn eq_refl eq_refl eq_refl eq_refl) as Zinn. pose proof (Z0 ung eq_refl eq_refl eq_refl eq_refl) as Zung.
  pose proof (Z0 nt eq_refl eq_refl eq_refl eq_refl) as Znt. pose proof (Z0 wkk eq_refl eq_refl eq_refl eq_refl) as Zwkk.
  pose proof (Z0 pre eq_refl eq_refl eq_refl eq_refl) as Zpre. pose proof (Z0 oth eq_refl eq_refl eq_refl eq_refl) as Zoth.
  assert (WR : 1 <= N wt s -> 1 <= N rsl s).
  { intros W. destruct (ex wt W) as (j & Lj & Ej). apply (some rsl j Lj). destruct (ALL2 j Lj) as [P|[P|[P|P]]]; rewrite P in *; try discriminate; reflexivity. }
  pose proof H as HH. pose proof (i_g s HH) as Fg. pose proof (parts (x_pcs s)) as P. cbv zeta in P. destruct P as (G1 & G2 & G3 & G4 & G5 & _).
  destruct (Z.le_gt_cases 1 (N wsl s)) as [W|W].
  - pose proof (zc_pos wgo (x_pcs s)). pose proof (i_sp s HH Zpre) as Fsp. pose proof (i_pend s HH ltac:(lia)) as Fp.
    destruct (Z.eq_dec (x_pend s) 0) as [E|E].
    + pose proof (i_wsl s HH (conj W E)). lia.
    + assert (Gp : 0 < x_granted s) by lia. pose proof (i_rsl s HH (conj (WR ltac:(lia)) Gp)). lia.
  - assert (Zp : N post s = 0).
    { apply none. intros j Lj. destruct (ALL2 j Lj) as [P|[P|[P|P]]]; rewrite P; try reflexivity. exfalso.
      pose proof (some wsl j Lj ltac:(rewrite P; reflexivity)). lia. }
    assert (WL : x_wl s = false). { pose proof (i_wl s HH) as F. destruct (x_wl s); [cbn [bz] in F; lia|reflexivity]. }
    destruct Wi as [P|[P|P]].
    + pose proof (i_all s HH ltac:(lia)) as Fa. pose proof (some wt i Li ltac:(rewrite P; reflexivity)).
      assert (Gp : 0 < x_granted s) by lia. pose proof (i_rsl s HH (conj (WR ltac:(lia)) Gp)). lia.
    + pose proof (some wsl i Li ltac:(rewrite P; reflexivity)). lia.
    + rewrite <- Len in Li. apply (S i _ (w_lock i s (conj Li P) WL)).
Qed.

Lemma quota_open : (forall j, (j < n)%nat -> ~ claims (at_ j)) -> x_quota s = kmax - (N rd s + N wt s).
Proof.
  intros C. rewrite (i_quota s H).
  assert (Z0 : forall f, (forall c, f c = true -> claims c) -> N f s = 0).
  { intros f F. apply none. intros j Lj. destruct (f (at_ j)) eqn:E; [|reflexivity]. elim (C j Lj (F _ E)). }
  rewrite (Z0 pre), (Z0 post), (Z0 inn); [lia|..]; intros []; try discriminate; intros _; unfold claims; eauto 10.
Qed.
Lemma claim_one j : (j < n)%nat -> claims (at_ j) -> x_quota s = - (N rd s + N wt s).
Proof.
  intros Lj C. rewrite (i_quota s H). assert (1 <= N pre s + N post s + N inn s).
  { pose proof (zc_pos pre (x_pcs s)). pose proof (zc_pos post (x_pcs s)). pose proof (zc_pos inn (x_pcs s)).
    destruct C as [(p & [C|C])|[C|[C|[C|[C|[C|C]]]]]];
    [pose proof (some pre j Lj ltac:(rewrite C; reflexivity))|pose proof (some pre j Lj ltac:(rewrite C; reflexivity))
    |pose proof (some post j Lj ltac:(rewrite C; reflexivity))|pose proof (some post j Lj ltac:(rewrite C; reflexivity))
    |pose proof (some post j Lj ltac:(rewrite C; reflexivity))|pose proof (some post j Lj ltac:(rewrite C; reflexivity))
    |pose proof (some inn j Lj ltac:(rewrite C; reflexivity))|pose proof (some inn j Lj ltac:(rewrite C; reflexivity))]; lia. }
  pose proof (parts (x_pcs s)) as P. cbv zeta in P. pose proof (i_wl s H). pose proof (bz_le (x_wl s)).
  pose proof (zc_pos ung (x_pcs s)). pose proof (zc_pos nt (x_pcs s)). pose proof (zc_pos oth (x_pcs s)).
  assert (N pre s + N post s + N inn s = 1) by lia. nia.
Qed.

(** lock_shared() and try_lock_shared() succeed at once exactly when no writer has announced itself. *)
Lemma read_open i : (i < n)%nat -> at_ i = Idle -> (forall j, (j < n)%nat -> ~ claims (at_ j)) -> 1 < x_quota s <= kmax.
Proof.
  intros Li P C. pose proof (quota_open C) as Q. pose proof H as HH. pose proof (parts (x_pcs s)) as G. cbv zeta in G.
  pose proof (some idl i Li ltac:(rewrite P; reflexivity)). pose proof (zc_pos rd (x_pcs s)). pose proof (zc_pos wt (x_pcs s)). pose proof (zc_pos dd (x_pcs s)).
  pose proof (zc_pos wlh (x_pcs s)). pose proof (zc_pos wkk (x_pcs s)). pose proof (zc_pos cr (x_pcs s)). pose proof Len as LL.
  assert (1 < kmax) by reflexivity. lia.
Qed.
Lemma read_closed j : (j < n)%nat -> claims (at_ j) -> x_quota s <= 0.
Proof. intros Lj C. rewrite (claim_one j Lj C). pose proof (zc_pos rd (x_pcs s)). pose proof (zc_pos wt (x_pcs s)). lia. Qed.
Lemma read_call i : (i < n)%nat -> at_ i = Idle ->
  ((forall j, (j < n)%nat -> ~ claims (at_ j)) -> exists s', step s s' /\ nth i (x_pcs s') Idle = Reading) /\
  ((exists j, (j < n)%nat /\ claims (at_ j)) -> exists s', step s s' /\ nth i (x_pcs s') Idle = RWant).
Proof.
  intros Li P. pose proof Li as Li2. rewrite <- Len in Li2. split.
  - intros C. eexists. split; [apply (s_read i s (conj Li2 P) (read_open i Li P C))|]. cbn. apply nth_lset_same, Li2.
  - intros (j & Lj & C). eexists. split; [apply (s_read_wait i s (conj Li2 P) (read_closed j Lj C))|]. cbn. apply nth_lset_same, Li2.
Qed.
(** While a writer has announced itself, only fibers that have waited before get the lock. *)
Lemma preference j i s' : (j < n)%nat -> claims (at_ j) -> step s s' -> reads (nth i (x_pcs s') Idle) -> reads (at_ i) \/ at_ i = RChk.
Proof.
  intros Lj C St. pose proof (read_closed j Lj C) as Q. unfold reads. intros K.
  destruct St as [k s s' T|k s A|k s A|k s A|k s A|k s A|k s A|k s A|k s A|k s A|k s A|k s A|k s A]; [destruct T|..];
    simp; repeat match goal with A : at_pc _ _ _ |- _ => destruct A as (? & ?) end; try lia;
    repeat match type of K with context [nth i (lset ?l ?k ?c) Idle] =>
      destruct (Nat.eq_dec k i) as [->|?]; [rewrite nth_lset_same in K by (rewrite ?lset_length, ?map_length; assumption)|rewrite nth_lset_other in K by congruence] end;
    try (destruct K; discriminate); auto.
  change Idle with (wake_reader Idle) in K. rewrite map_nth in K. destruct (nth i (x_pcs s) Idle); cbn in K; auto; destruct K; discriminate.
Qed.
(** unlock() lets in all fibers that wait in lock_shared(). *)
Lemma grant i w s' : (i < n)%nat -> at_ i = WU2 w -> tstep i s s' -> x_granted s' = Z.of_nat (length (filter asks (x_pcs s))).
Proof.
  intros Li P T. pose proof Li as Li2. rewrite <- Len in Li2.
  assert (E : x_granted s' = - w).
  { destruct T; repeat match goal with A : at_pc _ _ _ |- _ => destruct A as (? & ?) end; try congruence. cbn. congruence. }
  rewrite E. assert (A : at_pc i (WU2 w) s) by (split; assumption).
  pose proof (ung_one s i _ H A eq_refl) as U. rewrite <- (sw_is s i w A U). pose proof (i_ung s H ltac:(lia)) as (_ & <-).
  unfold zc. f_equal. clear. induction (x_pcs s) as [|c l IH]; [reflexivity|]. destruct c; cbn in *; lia.
Qed.
(** lock() of a free lock. *)
Lemma write_free i : (i < n)%nat -> at_ i = WSub -> (forall j, (j < n)%nat -> ~ reads (at_ j) /\ asks (at_ j) = false) ->
  forall s', tstep i s s' -> nth i (x_pcs s') Idle = Writing.
Proof.
  intros Li P C s' T. pose proof Li as Li2. rewrite <- Len in Li2.
  assert (Q : x_quota s = kmax).
  { rewrite (i_quota s H). pose proof (some oth i Li ltac:(rewrite P; reflexivity)).
    pose proof (parts (x_pcs s)) as G. cbv zeta in G. pose proof (i_wl s H). pose proof (bz_le (x_wl s)).
    pose proof (zc_pos ung (x_pcs s)). pose proof (zc_pos nt (x_pcs s)). pose proof (zc_pos pre (x_pcs s)). pose proof (zc_pos post (x_pcs s)). pose proof (zc_pos inn (x_pcs s)).
    assert (Zr : N rd s = 0). { apply none. intros j Lj. destruct (C j Lj) as (C1 & _). unfold reads in C1. destruct (at_ j); try reflexivity; exfalso; auto. }
    assert (Zw : N wt s = 0). { apply none. intros j Lj. destruct (C j Lj) as (_ & C2). destruct (at_ j); try reflexivity; discriminate. }
    assert (N pre s = 0 /\ N post s = 0 /\ N inn s = 0) as (-> & -> & ->) by lia. lia. }
  destruct T; repeat match goal with A : at_pc _ _ _ |- _ => destruct A as (? & ?) end; try congruence; try lia.
  cbn. apply nth_lset_same, Li2.
Qed.
End Props.

(** A run: two readers, a writer that waits for them, a third reader that waits for the writer. *)
Ltac st R c := let R' := fresh in
  eassert (R' : run _ _) by (eapply run_step; [exact R|eapply c; try (split; [cbn; lia|reflexivity]); try reflexivity; try discriminate; try (cbn; unfold kmax; lia)]);
  clear R; rename R' into R;
  cbn [go set_pcs set_quota set_pend set_granted set_wk set_wl x_quota x_pend x_granted x_wk x_wl x_pcs lset shm_new repeat map wake_reader] in R.
Ltac ti R c := let R' := fresh in
  eassert (R' : run _ _) by (eapply run_step; [exact R|eapply s_inner; eapply c; try (split; [cbn; lia|reflexivity]); try reflexivity; try discriminate; try (cbn; unfold kmax; lia)]);
  clear R; rename R' into R;
  cbn [go set_pcs set_quota set_pend set_granted set_wk set_wl x_quota x_pend x_granted x_wk x_wl x_pcs lset shm_new repeat map wake_reader] in R.
Lemma four_fibers : exists s1 s2, run 4 s1 /\ x_pcs s1 = [Reading; Reading; WSleep; RSleep] /\
  run 4 s2 /\ x_pcs s2 = [Idle; Idle; Idle; Reading] /\ x_quota s2 = 1073741822.
Proof.
  pose proof (run_new 4) as R. cbn [shm_new repeat] in R.
  st R (s_read 0%nat). st R (s_read 1%nat). st R (s_write 2%nat). ti R (w_lock 2%nat). ti R (w_busy 2%nat). 
  ti R (w_want 2%nat). ti R (w_add 2%nat). ti R (w_chk 2%nat). ti R (w_sleep 2%nat).
  st R (s_read_wait 3%nat). ti R (r_want 3%nat). ti R (r_none 3%nat). ti R (r_sleep 3%nat).
  eexists. eexists. split; [exact R|]. split; [reflexivity|].
  st R (s_done_last 0%nat). ti R (r_dec 0%nat). st R (s_done_last 1%nat). ti R (r_dec_last 1%nat).
  ti R (r_wk1 1%nat). ti R (r_wk2 1%nat). ti R (fun s => r_notify 1%nat s 2%nat). ti R (w_re 2%nat). ti R (w_chk_done 2%nat). ti R (w_rel 2%nat).
  st R (s_free_wake 2%nat). ti R (w_u1 2%nat). ti R (w_u2 2%nat). ti R (w_u2b 2%nat). ti R (w_u3 2%nat). ti R (w_u4 2%nat).
  ti R (r_want 3%nat). ti R (r_granted 3%nat). ti R (r_rel 3%nat).
  split; [exact R|]. split; reflexivity.
Qed.
