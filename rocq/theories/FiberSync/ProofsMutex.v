(** Proofs about the fiber mutex. *)
From Coq Require Import Lia Permutation.
From Verif.Lib Require Import Base ListX Count.
From Verif.FiberSync Require Import ModelMutex SpecMutex.

Definition wt (c : pc) : bool := match c with LRet | Own | LWoken | UUnl _ | URes _ | LAdd => true | _ => false end.
Definition tk (c : pc) : bool := match c with LRet | Own | LWoken | USlow | UWake | UUnl _ | URes _ => true | _ => false end.
Definition sl (c : pc) : bool := match c with LInc | LAdd | LUnl | LRet | UWake | UUnl _ => true | _ => false end.
Definition ad (c : pc) : bool := match c with LAdd => true | _ => false end.
Definition un (c : pc) : bool := match c with USlow | UWake => true | _ => false end.
Definition iq (c : pc) : bool := match c with LUnl | LSleep => true | _ => false end.
Definition po (c : pc) : bool := match c with UUnl _ | URes _ => true | _ => false end.
Definition cr (c : pc) : bool := match c with Crash => true | _ => false end.

Record inv (s : mutex) : Prop := {
  i_count : m_count s = Z.of_nat (cnt wt (m_pcs s) + length (m_queue s));
  i_tk : cnt tk (m_pcs s) <= 1;
  i_none : cnt tk (m_pcs s) = 0 -> m_queue s = [] /\ cnt ad (m_pcs s) = 0;
  i_un : 1 <= cnt un (m_pcs s) -> 1 <= length (m_queue s) + cnt ad (m_pcs s);
  i_sl : cnt sl (m_pcs s) = b2n (m_slow s);
  i_iq : length (m_queue s) + cnt po (m_pcs s) = cnt iq (m_pcs s);
  i_nd : NoDup (m_queue s);
  i_q : forall t, In t (m_queue s) -> t < length (m_pcs s) /\ iq (nth t (m_pcs s) Idle) = true;
  i_po : forall i t, nth i (m_pcs s) Idle = UUnl t \/ nth i (m_pcs s) Idle = URes t -> at_pc t LSleep s /\ ~ In t (m_queue s);
  i_cr : cnt cr (m_pcs s) = 0;
  i_regs : m_regs s = m_grants s ++ m_queue s }.

Lemma bnd s : inv s -> cnt wt (m_pcs s) + length (m_queue s) <= length (m_pcs s).
Proof.
  intro H. pose proof (i_iq s H). pose proof (cnt_disjoint wt iq (m_pcs s)) as D. specialize (D ltac:(intros [] _; cbn; congruence)). lia.
Qed.

Lemma tk_le l : cnt tk l <= cnt wt l + cnt un l.
Proof. induction l as [|[] l IH]; cbn; lia. Qed.
Lemma wt_le l : cnt wt l <= cnt tk l + cnt ad l.
Proof. induction l as [|[] l IH]; cbn; lia. Qed.
Lemma ad_le l : cnt ad l <= cnt wt l.
Proof. induction l as [|[] l IH]; cbn; lia. Qed.
Lemma ad_sl l : cnt ad l + cnt (fun c => match c with UWake => true | _ => false end) l <= cnt sl l.
Proof. induction l as [|[] l IH]; cbn; lia. Qed.
Lemma b2n_le b : b2n b <= 1.
Proof. destruct b; cbn; lia. Qed.

Lemma w32_small x : (0 <= x < 2 ^ 32)%Z -> w32 x = x.
Proof. intro H. unfold w32. apply Z.mod_small. exact H. Qed.

Ltac cn c := match goal with |- context [lset ?l ?i c] => idtac end.
(** The counts after thread i has gone from pc c0 to pc c. *)
Ltac counts L E l i c :=
  pose proof (cnt_lset wt l i c Idle L) as Cwt; pose proof (cnt_lset tk l i c Idle L) as Ctk; pose proof (cnt_lset sl l i c Idle L) as Csl;
  pose proof (cnt_lset ad l i c Idle L) as Cad; pose proof (cnt_lset un l i c Idle L) as Cun; pose proof (cnt_lset iq l i c Idle L) as Ciq;
  pose proof (cnt_lset po l i c Idle L) as Cpo; pose proof (cnt_lset cr l i c Idle L) as Ccr;
  rewrite E in Cwt, Ctk, Csl, Cad, Cun, Ciq, Cpo, Ccr; cbn [wt tk sl ad un iq po cr b2n] in Cwt, Ctk, Csl, Cad, Cun, Ciq, Cpo, Ccr.

Lemma init_inv n : inv (mutex_new n).
Proof.
  assert (P : forall i, nth i (repeat Idle n) Idle = Idle).
  { induction n as [|n IH]; intros [|i]; cbn; auto. }
  constructor; cbn [mutex_new m_count m_slow m_queue m_pcs m_regs m_grants length app]; rewrite ?cnt_repeat by reflexivity; try lia; auto.
  - constructor.
  - intros t [].
  - intros i t. rewrite P. intros [H|H]; discriminate.
Qed.

Lemma at_go i c c' j s : at_pc j c' s -> i <> j -> at_pc j c' (go i c s).
Proof. intros (L & E) N. split; [cbn; rewrite lset_length; exact L|]. cbn. rewrite nth_lset_other by exact N. exact E. Qed.

(** The conditions on the chain when thread i moves between program counters that are not in the chain. *)
Lemma q_keep s i c0 c : at_pc i c0 s -> (iq c0 = true -> iq c = true) ->
  (forall t, In t (m_queue s) -> t < length (m_pcs s) /\ iq (nth t (m_pcs s) Idle) = true) ->
  forall t, In t (m_queue s) -> t < length (lset (m_pcs s) i c) /\ iq (nth t (lset (m_pcs s) i c) Idle) = true.
Proof.
  intros (L & E) N H t Ht. destruct (H t Ht) as (L' & E'). rewrite lset_length. split; [exact L'|].
  rewrite nth_lset by exact L. destruct (Nat.eqb_spec t i) as [->|Ne]; [apply N; congruence|exact E'].
Qed.
Lemma po_keep s i c0 c : at_pc i c0 s -> c0 <> LSleep -> (forall t, c <> UUnl t /\ c <> URes t) ->
  (forall i t, nth i (m_pcs s) Idle = UUnl t \/ nth i (m_pcs s) Idle = URes t -> at_pc t LSleep s /\ ~ In t (m_queue s)) ->
  forall j t, nth j (lset (m_pcs s) i c) Idle = UUnl t \/ nth j (lset (m_pcs s) i c) Idle = URes t ->
    (t < length (lset (m_pcs s) i c) /\ nth t (lset (m_pcs s) i c) Idle = LSleep) /\ ~ In t (m_queue s).
Proof.
  intros (L & E) N Nc H j t Hj. rewrite nth_lset in Hj by exact L. destruct (Nat.eqb_spec j i) as [->|Ne].
  { destruct (Nc t) as (N1 & N2). destruct Hj; congruence. }
  destruct (H j t Hj) as ((L' & E') & Q). split; [|exact Q]. rewrite lset_length. split; [exact L'|].
  rewrite nth_lset_other; [exact E'|]. intros ->. congruence.
Qed.

Ltac simp := cbn [go set_count set_slow enqueue dequeue m_count m_slow m_queue m_pcs m_regs m_grants at_pc].
(** Thread i moves from c0 to c; neither is part of the chain and c is not about to wake. *)
Ltac ordinary :=
  match goal with
  | A : at_pc ?i ?c0 ?s, H : inv ?s |- inv (go _ ?c _) =>
      let L := fresh "L" in let E := fresh "E" in
      pose proof A as (L & E); counts L E (m_pcs s) i c; pose proof (i_count s H) as Fcount; pose proof (i_tk s H) as Ftk; pose proof (i_none s H) as Fnone; pose proof (i_un s H) as Fun;
  pose proof (i_sl s H) as Fsl; pose proof (i_iq s H) as Fiq; pose proof (i_cr s H) as Fcr; pose proof (bnd s H) as Fb; pose proof (b2n_le (m_slow s)) as Fs;
      pose proof (tk_le (m_pcs s)) as Fm; pose proof (wt_le (m_pcs s)) as Fw; pose proof (ad_le (m_pcs s)) as Fa;
      try match goal with C : m_slow _ = _ |- _ => rewrite C in Fsl end; cbn [b2n] in Fsl;
      constructor; simp; cbn [b2n];
      [ | | try (intro Z0; destruct Fnone as (K1 & K2); [lia|]; split; [exact K1|lia]) | | | | apply H
      | apply (q_keep s i c0 c A ltac:(cbn; congruence) (i_q s H))
      | apply (po_keep s i c0 c A ltac:(discriminate) ltac:(intro; split; discriminate) (i_po s H))
      | | apply H]; try lia
  end.

Lemma step_inv s s' : inv s -> (Z.of_nat (length (m_pcs s)) < 2 ^ 32)%Z -> step s s' -> inv s'.
Proof.
  intros H Hn St. destruct St as [i s s' T|i s A C|i s A C|i s A C|i s A C|i s A C].
  - destruct T as [s A C|s A C|s A C|s A|s A|s A|s A|s A C|s t q A C|s A C|s t A|s t A B].
    + ordinary.
    + ordinary.
    + ordinary.
      * pose proof (cnt_disjoint wt iq (lset (m_pcs s) i LAdd)) as D. specialize (D ltac:(intros [] _; cbn; congruence)). rewrite lset_length in D.
        rewrite w32_small; lia.
      * intro Z0. destruct Fnone as (K1 & K2); [lia|]. rewrite K1 in Fcount. cbn [length] in Fcount. lia.
    + (* AddWaiter *)
      pose proof A as (L & E). counts L E (m_pcs s) i LUnl.
      pose proof (i_count s H); pose proof (i_tk s H); pose proof (i_none s H) ; pose proof (i_un s H); pose proof (i_sl s H); pose proof (i_iq s H);
        pose proof (i_cr s H); pose proof (bnd s H).
      assert (Ni : ~ In i (m_queue s)) by (intro K; apply (i_q s H) in K; rewrite E in K; destruct K; discriminate).
      constructor; simp; rewrite ?app_length; cbn [length]; try lia.
      * eapply Permutation_NoDup; [apply Permutation_cons_append|]. constructor; [exact Ni|apply H].
      * intros t Ht. rewrite lset_length. apply in_app_or in Ht. rewrite nth_lset by exact L. destruct Ht as [Ht|[<-|[]]].
        -- destruct (i_q s H t Ht) as (L' & E'). split; [exact L'|]. destruct (t =? i); [reflexivity|exact E'].
        -- rewrite Nat.eqb_refl. auto.
      * intros j t Hj. destruct (po_keep s i LAdd LUnl A ltac:(discriminate) ltac:(intro; split; discriminate) (i_po s H) j t Hj) as (K & Q). split; [exact K|].
        rewrite in_app_iff. intros [K'|[->|[]]]; [exact (Q K')|]. destruct K as (_ & K). rewrite nth_lset_same in K by exact L. discriminate.
      * rewrite (i_regs s H). rewrite app_assoc. reflexivity.
    + ordinary.
    + ordinary.
    + ordinary.
    + ordinary.
    + (* WakeOne *)
      pose proof A as (L & E). counts L E (m_pcs s) i (UUnl t).
      pose proof (i_count s H) as Fcount; pose proof (i_tk s H) as Ftk; pose proof (i_sl s H) as Fsl; pose proof (i_iq s H) as Fiq; pose proof (i_cr s H) as Fcr.
      rewrite C in Fcount, Fiq. cbn [length] in Fcount, Fiq. pose proof (i_nd s H) as ND. rewrite C in ND. inversion_clear ND as [|? ? N1 N2].
      pose proof (ad_sl (m_pcs s)) as Fas. pose proof (b2n_le (m_slow s)).
      pose proof (cnt_nth (fun c => match c with UWake => true | _ => false end) (m_pcs s) i Idle L ltac:(rewrite E; reflexivity)) as Fu.
      pose proof (cnt_nth un (m_pcs s) i Idle L ltac:(rewrite E; reflexivity)) as Fu2.
      assert (Fut : forall l, cnt un l + cnt po l <= cnt tk l) by (clear; induction l as [|[] l IH]; cbn; lia). pose proof (Fut (m_pcs s)).
      assert (T : at_pc t LSleep s).
      { destruct (i_q s H t) as (Lt & Et); [rewrite C; left; reflexivity|]. split; [exact Lt|].
        destruct (nth t (m_pcs s) Idle) eqn:Et'; try discriminate; [|reflexivity].
        assert (t <> i) by (intros ->; congruence).
        pose proof (cnt_two sl (m_pcs s) t i Idle Lt L ltac:(assumption) ltac:(rewrite Et'; reflexivity) ltac:(rewrite E; reflexivity)). lia. }
      constructor; simp; cbn [length]; try lia.
      * exact N2.
      * intros x Hx. apply (q_keep s i UWake (UUnl t) A ltac:(cbn; congruence) (i_q s H)). rewrite C. right. exact Hx.
      * intros j x Hj. rewrite nth_lset in Hj by exact L. destruct (Nat.eqb_spec j i) as [->|Ne].
        -- destruct Hj as [Hj|Hj]; [|discriminate]. injection Hj as <-. split; [|exact N1].
           apply (at_go i (UUnl t) LSleep t s T). destruct T as (_ & T). intros ->. congruence.
        -- exfalso. destruct (Nat.lt_ge_cases j (length (m_pcs s))) as [Lj|Lj].
           ++ pose proof (cnt_nth po (m_pcs s) j Idle Lj ltac:(destruct Hj as [Hj|Hj]; rewrite Hj; reflexivity)). lia.
           ++ rewrite nth_overflow in Hj by exact Lj. destruct Hj; discriminate.
      * rewrite (i_regs s H), C, <- app_assoc. reflexivity.
    + (* WakeOne finds nobody *)
      exfalso. pose proof A as (L & E). pose proof (ad_sl (m_pcs s)) as Fas. pose proof (b2n_le (m_slow s)). pose proof (i_un s H) as Fun. pose proof (i_sl s H).
      pose proof (cnt_nth (fun c => match c with UWake => true | _ => false end) (m_pcs s) i Idle L ltac:(rewrite E; reflexivity)) as Fu.
      pose proof (cnt_nth un (m_pcs s) i Idle L ltac:(rewrite E; reflexivity)) as Fu2. rewrite C in Fun. cbn [length] in Fun. lia.
    + (* slow_path_lock_ is released *)
      pose proof A as (L & E). counts L E (m_pcs s) i (URes t).
      pose proof (i_count s H) as Fcount; pose proof (i_tk s H) as Ftk; pose proof (i_none s H) as Fnone; pose proof (i_un s H) as Fun; pose proof (i_sl s H) as Fsl;
      pose proof (i_iq s H) as Fiq; pose proof (i_cr s H) as Fcr. pose proof (b2n_le (m_slow s)).
      constructor; simp; cbn [b2n]; try lia; try apply H.
      * intro Z0. destruct Fnone as (K1 & K2); [lia|]. split; [exact K1|lia].
      * apply (q_keep s i (UUnl t) (URes t) A ltac:(cbn; congruence) (i_q s H)).
      * intros j x Hj. rewrite nth_lset in Hj by exact L.
        assert (K : at_pc x LSleep s /\ ~ In x (m_queue s)).
        { destruct (Nat.eqb_spec j i) as [->|Ne]; [|exact (i_po s H j x Hj)]. apply (i_po s H i x). left. destruct Hj as [Hj|Hj]; congruence. }
        destruct K as (K & Q). split; [|exact Q]. apply (at_go i (URes t) LSleep x s K). destruct K as (_ & K). intros ->. congruence.
    + (* Resume *)
      pose proof A as (L & E). pose proof B as (Lt & Et). assert (Nti : t <> i) by (intros ->; congruence).
      assert (L2 : i < length (lset (m_pcs s) t LWoken)) by (rewrite lset_length; exact L).
      assert (E2 : nth i (lset (m_pcs s) t LWoken) Idle = URes t) by (rewrite nth_lset_other by exact Nti; exact E).
      counts L2 E2 (lset (m_pcs s) t LWoken) i Idle.
      pose proof (cnt_lset wt (m_pcs s) t LWoken Idle Lt) as Dwt; pose proof (cnt_lset tk (m_pcs s) t LWoken Idle Lt) as Dtk;
      pose proof (cnt_lset sl (m_pcs s) t LWoken Idle Lt) as Dsl; pose proof (cnt_lset ad (m_pcs s) t LWoken Idle Lt) as Dad;
      pose proof (cnt_lset un (m_pcs s) t LWoken Idle Lt) as Dun; pose proof (cnt_lset iq (m_pcs s) t LWoken Idle Lt) as Diq;
      pose proof (cnt_lset po (m_pcs s) t LWoken Idle Lt) as Dpo; pose proof (cnt_lset cr (m_pcs s) t LWoken Idle Lt) as Dcr.
      rewrite Et in Dwt, Dtk, Dsl, Dad, Dun, Diq, Dpo, Dcr. cbn [wt tk sl ad un iq po cr b2n] in Dwt, Dtk, Dsl, Dad, Dun, Diq, Dpo, Dcr.
      pose proof (i_count s H) as Fcount; pose proof (i_tk s H) as Ftk; pose proof (i_none s H) as Fnone; pose proof (i_un s H) as Fun; pose proof (i_sl s H) as Fsl;
      pose proof (i_iq s H) as Fiq; pose proof (i_cr s H) as Fcr.
      pose proof (i_po s H i t (or_intror E)) as (_ & Nq).
      assert (Fut : forall l, cnt un l + cnt po l <= cnt tk l) by (clear; induction l as [|[] l IH]; cbn; lia). pose proof (Fut (m_pcs s)).
      pose proof (cnt_nth po (m_pcs s) i Idle L ltac:(rewrite E; reflexivity)) as Fp.
      constructor; simp; try lia; try apply H.
      * intros x Hx. destruct (i_q s H x Hx) as (Lx & Ex). rewrite !lset_length. split; [exact Lx|].
        rewrite nth_lset_other by (intros ->; rewrite E in Ex; discriminate). rewrite nth_lset_other by (intros ->; contradiction). exact Ex.
      * intros j x Hj. exfalso. destruct (Nat.lt_ge_cases j (length (m_pcs s))) as [Lj|Lj].
        -- rewrite nth_lset in Hj by exact L2. destruct (Nat.eqb_spec j i) as [->|Ne]; [destruct Hj; discriminate|].
           rewrite nth_lset in Hj by exact Lt. destruct (Nat.eqb_spec j t) as [->|Ne']; [destruct Hj; discriminate|].
           pose proof (cnt_two po (m_pcs s) j i Idle Lj L Ne ltac:(destruct Hj as [Hj|Hj]; rewrite Hj; reflexivity) ltac:(rewrite E; reflexivity)).
           lia.
        -- rewrite nth_overflow in Hj by (rewrite !lset_length; exact Lj). destruct Hj; discriminate.
  - ordinary.
  - ordinary.
  - ordinary. intros _. pose proof (ad_le (lset (m_pcs s) i Idle)). destruct (m_queue s); [split; [reflexivity|lia]|cbn [length] in Fcount; lia].
  - ordinary.
  - exfalso. pose proof A as (L & E). pose proof (cnt_nth wt (m_pcs s) i Idle L ltac:(rewrite E; reflexivity)). pose proof (i_count s H). lia.
Qed.

Lemma step_len s s' : step s s' -> length (m_pcs s') = length (m_pcs s).
Proof. intro St. destruct St as [i s s' T| | | | | ]; [destruct T| | | | | ]; cbn; rewrite ?lset_length; reflexivity. Qed.

Lemma run_inv n s : (Z.of_nat n < 2 ^ 32)%Z -> run n s -> inv s /\ length (m_pcs s) = n.
Proof.
  intros Hn R. induction R as [|s s' R (IH & IL) St].
  - split; [apply init_inv|]. cbn. apply repeat_length.
  - split; [apply (step_inv s s' IH); [rewrite IL; exact Hn|exact St]|]. rewrite (step_len s s' St). exact IL.
Qed.

Lemma exclusion n s i j : (Z.of_nat n < 2 ^ 32)%Z -> run n s -> i < n -> j < n ->
  holds (nth i (m_pcs s) Idle) -> holds (nth j (m_pcs s) Idle) \/ passing (nth j (m_pcs s) Idle) -> i = j.
Proof.
  intros Hn R Li Lj Hi Hj. destruct (run_inv n s Hn R) as (H & L). rewrite <- L in Li, Lj.
  destruct (Nat.eq_dec i j) as [->|N]; [reflexivity|]. exfalso.
  assert (T : forall c, holds c \/ passing c -> tk c = true).
  { intros c [[->|[->| ->]]|[->|[->|[[t ->]|[t ->]]]]]; reflexivity. }
  pose proof (cnt_two tk (m_pcs s) i j Idle Li Lj N (T _ (or_introl Hi)) (T _ Hj)). pose proof (i_tk s H). lia.
Qed.

Lemma no_crash n s i : (Z.of_nat n < 2 ^ 32)%Z -> run n s -> nth i (m_pcs s) Idle <> Crash.
Proof.
  intros Hn R K. destruct (run_inv n s Hn R) as (H & L). destruct (Nat.lt_ge_cases i (length (m_pcs s))) as [Li|Li].
  - pose proof (cnt_nth cr (m_pcs s) i Idle Li ltac:(rewrite K; reflexivity)). pose proof (i_cr s H). lia.
  - rewrite nth_overflow in K by exact Li. discriminate.
Qed.

Lemma fifo n s : (Z.of_nat n < 2 ^ 32)%Z -> run n s -> m_regs s = m_grants s ++ m_queue s.
Proof. intros Hn R. apply (run_inv n s Hn R). Qed.

(** When some thread waits, some other thread has the lock or is passing it on. *)
Lemma waiting n s i : (Z.of_nat n < 2 ^ 32)%Z -> run n s -> i < n -> waits (nth i (m_pcs s) Idle) ->
  exists j, j < n /\ (holds (nth j (m_pcs s) Idle) \/ passing (nth j (m_pcs s) Idle)).
Proof.
  intros Hn R Li Hi. destruct (run_inv n s Hn R) as (H & L). rewrite <- L in Li.
  assert (K : 1 <= cnt tk (m_pcs s)).
  { destruct (cnt tk (m_pcs s)) as [|k] eqn:K; [exfalso|lia]. destruct (i_none s H K) as (Q & _).
    pose proof (cnt_nth iq (m_pcs s) i Idle Li ltac:(destruct Hi as [Hi|Hi]; rewrite Hi; reflexivity)). pose proof (i_iq s H) as I. rewrite Q in I. cbn in I.
    assert (P : cnt po (m_pcs s) <= cnt tk (m_pcs s)) by (apply cnt_le; intros [] _; cbn; congruence). lia. }
  destruct (cnt_ex tk (m_pcs s) Idle K) as (j & Lj & Ej). exists j. rewrite L in Lj. split; [exact Lj|].
  unfold holds, passing. destruct (nth j (m_pcs s) Idle); try discriminate; eauto 8.
Qed.

(** When no thread can go on inside of a call, every thread is outside of one or waits; if one waits another one is in its critical section. *)
Lemma quiet n s : (Z.of_nat n < 2 ^ 32)%Z -> run n s -> stuck s ->
  (forall i, i < n -> nth i (m_pcs s) Idle = Idle \/ nth i (m_pcs s) Idle = Own \/ nth i (m_pcs s) Idle = LSleep) /\
  ((exists i, i < n /\ nth i (m_pcs s) Idle = LSleep) -> exists j, j < n /\ nth j (m_pcs s) Idle = Own).
Proof.
  intros Hn R S. pose proof (run_inv n s Hn R) as (H & L).
  assert (SL : m_slow s = false).
  { destruct (m_slow s) eqn:E; [exfalso|reflexivity]. pose proof (i_sl s H) as Fs. rewrite E in Fs. cbn in Fs.
    destruct (cnt_ex sl (m_pcs s) Idle ltac:(lia)) as (i & Li & Ei). destruct (nth i (m_pcs s) Idle) eqn:P; try discriminate.
    - destruct (Z.eq_dec (m_count s) 0) as [C|C]; [apply (S i _ (t_lucky i s (conj Li P) C))|apply (S i _ (t_inc i s (conj Li P) C))].
    - apply (S i _ (t_add i s (conj Li P))).
    - apply (S i _ (t_sleep i s (conj Li P))).
    - apply (S i _ (t_ret i s (conj Li P))).
    - destruct (m_queue s) as [|t q] eqn:Q; [apply (S i _ (t_wake_null i s (conj Li P) Q))|apply (S i _ (t_wake i s t q (conj Li P) Q))].
    - apply (S i _ (t_unl i s t (conj Li P))). }
  assert (ALL : forall i, i < n -> nth i (m_pcs s) Idle = Idle \/ nth i (m_pcs s) Idle = Own \/ nth i (m_pcs s) Idle = LSleep).
  { intros i Li. rewrite <- L in Li. destruct (nth i (m_pcs s) Idle) eqn:P; auto; exfalso.
    - apply (S i _ (t_slow i s (conj Li P) SL)).
    - pose proof (cnt_nth sl (m_pcs s) i Idle Li ltac:(rewrite P; reflexivity)). pose proof (i_sl s H) as Fs. rewrite SL in Fs. cbn in Fs. lia.
    - apply (S i _ (t_add i s (conj Li P))).
    - apply (S i _ (t_sleep i s (conj Li P))).
    - apply (S i _ (t_ret i s (conj Li P))).
    - apply (S i _ (t_woken i s (conj Li P))).
    - apply (S i _ (t_uslow i s (conj Li P) SL)).
    - pose proof (cnt_nth sl (m_pcs s) i Idle Li ltac:(rewrite P; reflexivity)). pose proof (i_sl s H) as Fs. rewrite SL in Fs. cbn in Fs. lia.
    - apply (S i _ (t_unl i s t (conj Li P))).
    - destruct (i_po s H i t (or_intror P)) as (T & _). apply (S i _ (t_res i s t (conj Li P) T)).
    - pose proof (cnt_nth cr (m_pcs s) i Idle Li ltac:(rewrite P; reflexivity)). pose proof (i_cr s H). lia. }
  split; [exact ALL|]. intros (i & Li & Ei).
  destruct (waiting n s i Hn R Li (or_intror Ei)) as (j & Lj & Hj). exists j. split; [exact Lj|].
  destruct (ALL j Lj) as [K|[K|K]]; [exfalso| exact K|exfalso];
    destruct Hj as [[Hj|[Hj|Hj]]|[Hj|[Hj|[[t Hj]|[t Hj]]]]]; congruence.
Qed.

(** A call always comes to an end once the lock is free: no thread inside of a call is stuck, except for waiting and for slow_path_lock_. *)
Lemma progress n s i : (Z.of_nat n < 2 ^ 32)%Z -> run n s -> i < n ->
  (exists s', tstep i s s') \/ nth i (m_pcs s) Idle = Idle \/ nth i (m_pcs s) Idle = Own \/ nth i (m_pcs s) Idle = LSleep \/
  exists j s', j <> i /\ tstep j s s'.
Proof.
  intros Hn R Li. pose proof (run_inv n s Hn R) as (H & L). rewrite <- L in Li.
  assert (W : (nth i (m_pcs s) Idle = LSlow \/ nth i (m_pcs s) Idle = USlow) -> m_slow s = true -> exists j s', j <> i /\ tstep j s s').
  { intros Pi E. pose proof (i_sl s H) as Fs. rewrite E in Fs. cbn in Fs. destruct (cnt_ex sl (m_pcs s) Idle ltac:(lia)) as (j & Lj & Ej).
    assert (N : j <> i) by (intros ->; destruct Pi as [Pi|Pi]; rewrite Pi in Ej; discriminate). exists j.
    destruct (nth j (m_pcs s) Idle) eqn:P; try discriminate.
    - destruct (Z.eq_dec (m_count s) 0) as [C|C]; eexists; (split; [exact N|]); [apply (t_lucky j s (conj Lj P) C)|apply (t_inc j s (conj Lj P) C)].
    - eexists; (split; [exact N|]). apply (t_add j s (conj Lj P)).
    - eexists; (split; [exact N|]). apply (t_sleep j s (conj Lj P)).
    - eexists; (split; [exact N|]). apply (t_ret j s (conj Lj P)).
    - destruct (m_queue s) as [|t q] eqn:Q; eexists; (split; [exact N|]); [apply (t_wake_null j s (conj Lj P) Q)|apply (t_wake j s t q (conj Lj P) Q)].
    - eexists; (split; [exact N|]). apply (t_unl j s t (conj Lj P)). }
  destruct (nth i (m_pcs s) Idle) eqn:P; auto.
  - destruct (m_slow s) eqn:E; [right; right; right; right; auto|left; eexists; apply (t_slow i s (conj Li P) E)].
  - left. destruct (Z.eq_dec (m_count s) 0) as [C|C]; eexists; [apply (t_lucky i s (conj Li P) C)|apply (t_inc i s (conj Li P) C)].
  - left. eexists. apply (t_add i s (conj Li P)).
  - left. eexists. apply (t_sleep i s (conj Li P)).
  - left. eexists. apply (t_ret i s (conj Li P)).
  - left. eexists. apply (t_woken i s (conj Li P)).
  - destruct (m_slow s) eqn:E; [right; right; right; right; auto|left; eexists; apply (t_uslow i s (conj Li P) E)].
  - left. destruct (m_queue s) as [|t q] eqn:Q; eexists; [apply (t_wake_null i s (conj Li P) Q)|apply (t_wake i s t q (conj Li P) Q)].
  - left. eexists. apply (t_unl i s t (conj Li P)).
  - left. destruct (i_po s H i t (or_intror P)) as (T & _). eexists. apply (t_res i s t (conj Li P) T).
  - exfalso. exact (no_crash n s i Hn R P).
Qed.

Lemma free_lock n s : (Z.of_nat n < 2 ^ 32)%Z -> run n s ->
  (m_count s = 0%Z <-> forall i, i < n -> ~ holds (nth i (m_pcs s) Idle) /\ ~ passing (nth i (m_pcs s) Idle)).
Proof.
  intros Hn R. pose proof (run_inv n s Hn R) as (H & L). pose proof (tk_le (m_pcs s)) as F1. pose proof (wt_le (m_pcs s)) as F2. pose proof (ad_le (m_pcs s)) as F3.
  pose proof (i_count s H) as FC. pose proof (i_un s H) as FU.
  assert (T : forall c, holds c \/ passing c <-> tk c = true).
  { intro c. split; [intros [[->|[->| ->]]|[->|[->|[[t ->]|[t ->]]]]]; reflexivity|]. unfold holds, passing. destruct c; try discriminate; intros _; eauto 8. }
  assert (Z0 : m_count s = 0%Z <-> cnt tk (m_pcs s) = 0).
  { split; [intro C; lia|]. intro K. destruct (i_none s H K) as (Q & A). rewrite Q in FC. cbn [length] in FC. lia. }
  rewrite Z0. split.
  - intros K i Li. rewrite <- L in Li. pose proof (cnt_zero tk (m_pcs s) i Idle K Li) as E.
    split; intro X; (assert (tk (nth i (m_pcs s) Idle) = true) by (apply T; auto)); congruence.
  - intro K. apply (cnt_none tk (m_pcs s) Idle). intros i Li. rewrite L in Li. destruct (K i Li) as (K1 & K2).
    destruct (tk (nth i (m_pcs s) Idle)) eqn:E; [|reflexivity]. apply T in E. destruct E; contradiction.
Qed.

(** lock() of a free mutex; unlock() of one that nobody waits for, and of one that somebody waits for. *)
Lemma calls n s i : (Z.of_nat n < 2 ^ 32)%Z -> run n s -> i < n ->
  (nth i (m_pcs s) Idle = Idle -> exists s', step s s' /\ nth i (m_pcs s') Idle = (if (m_count s =? 0)%Z then Own else LSlow)) /\
  (nth i (m_pcs s) Idle = Own -> exists s', step s s' /\
     ((forall j, j < n -> ~ waits (nth j (m_pcs s) Idle) /\ nth j (m_pcs s) Idle <> LAdd) -> m_count s' = 0%Z /\ nth i (m_pcs s') Idle = Idle) /\
     ((exists j, j < n /\ waits (nth j (m_pcs s) Idle)) -> nth i (m_pcs s') Idle = USlow)).
Proof.
  intros Hn R Li. pose proof (run_inv n s Hn R) as (H & L). rewrite <- L in Li. split.
  - intro P. destruct (Z.eqb_spec (m_count s) 0) as [C|C]; eexists.
    + split; [apply (s_try i s (conj Li P) C)|]. cbn. apply nth_lset_same, Li.
    + split; [apply (s_lock i s (conj Li P) C)|]. cbn. apply nth_lset_same, Li.
  - intro P. pose proof (i_count s H) as FC. pose proof (wt_le (m_pcs s)) as F2. pose proof (i_tk s H) as FT. pose proof (i_iq s H) as FI.
    pose proof (cnt_nth wt (m_pcs s) i Idle Li ltac:(rewrite P; reflexivity)) as F1.
    assert (PO : cnt po (m_pcs s) = 0).
    { apply (cnt_none po (m_pcs s) Idle). intros j Lj. destruct (po (nth j (m_pcs s) Idle)) eqn:E; [exfalso|reflexivity].
      assert (j <> i) by (intros ->; rewrite P in E; discriminate).
      pose proof (cnt_two tk (m_pcs s) j i Idle Lj Li ltac:(assumption) ltac:(destruct (nth j (m_pcs s) Idle); try discriminate; reflexivity) ltac:(rewrite P; reflexivity)).
      lia. }
    destruct (Z.eq_dec (m_count s) 1) as [C|C]; eexists; (split; [|split]).
    + apply (s_unlock_last i s (conj Li P) C).
    + intros _. split; [reflexivity|]. cbn. apply nth_lset_same, Li.
    + intros (j & Lj & W). exfalso. rewrite <- L in Lj. pose proof (cnt_nth iq (m_pcs s) j Idle Lj ltac:(destruct W as [W|W]; rewrite W; reflexivity)). lia.
    + apply (s_unlock i s (conj Li P)). lia.
    + intros K. exfalso. assert (A0 : cnt ad (m_pcs s) = 0).
      { apply (cnt_none ad (m_pcs s) Idle). intros j Lj. rewrite L in Lj. destruct (K j Lj) as (_ & K2). destruct (nth j (m_pcs s) Idle); try reflexivity. congruence. }
      assert (I0 : cnt iq (m_pcs s) = 0).
      { apply (cnt_none iq (m_pcs s) Idle). intros j Lj. rewrite L in Lj. destruct (K j Lj) as (K2 & _). unfold waits in K2.
        destruct (nth j (m_pcs s) Idle); try reflexivity; exfalso; auto. }
      lia.
    + intros _. cbn. apply nth_lset_same, Li.
Qed.

(** A run in which the lock is handed over. *)
Ltac st R c := let R' := fresh in
  eassert (R' : run _ _) by (eapply run_step; [exact R|eapply c; try (split; [cbn; lia|reflexivity]); try reflexivity; try discriminate; try (cbn; lia)]);
  clear R; rename R' into R; cbn [go set_count set_slow enqueue dequeue m_count m_slow m_queue m_pcs m_regs m_grants lset app mutex_new repeat] in R.
Ltac ti R c := let R' := fresh in
  eassert (R' : run _ _) by (eapply run_step; [exact R|eapply s_inner; eapply c; try (split; [cbn; lia|reflexivity]); try reflexivity; try discriminate; try (cbn; lia)]);
  clear R; rename R' into R; cbn [go set_count set_slow enqueue dequeue m_count m_slow m_queue m_pcs m_regs m_grants lset app mutex_new repeat] in R.
Lemma hand_over_run : exists s, run 3 s /\ m_pcs s = [Idle; Own; LSleep] /\ m_grants s = [1] /\ m_queue s = [2].
Proof.
  pose proof (run_new 3) as R. cbn [mutex_new repeat] in R.
  st R (s_try 0). st R (s_lock 1). st R (s_lock 2).
  ti R (t_slow 1). ti R (t_inc 1). ti R (t_add 1). ti R (t_sleep 1).
  ti R (t_slow 2). ti R (t_inc 2). ti R (t_add 2). ti R (t_sleep 2).
  st R (s_unlock 0). ti R (t_uslow 0). ti R (t_wake 0). ti R (t_unl 0). ti R (t_res 0). ti R (t_woken 1).
  eexists. split; [exact R|]. repeat split.
Qed.
