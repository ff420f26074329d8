(** From the invariant of the condition variable to its properties. *)
From Coq Require Import Lia.
From Verif.Lib Require Import Base ListX Count.
From Verif.FiberSync Require Import ModelCv SpecCv ProofsCv.
Local Open Scope Z_scope.

Section Props.
Variables pth locked : bool.
Hypothesis Hl : pth = true -> locked = true.
Notation inv := (inv pth locked).

Lemma run_inv n s : run pth locked n s -> inv s.
Proof. induction 1; [apply init_inv|]. eapply step_inv; eassumption. Qed.

Lemma exclusion n s i j : run pth locked n s -> (i < length (c_ths s))%nat -> (j < length (c_ths s))%nat -> owns (pc_of i s) = true -> owns (pc_of j s) = true -> i = j.
Proof.
  intros R Li Lj Oi Oj. pose proof (v_mx _ _ s (run_inv n s R)) as M. unfold zc in M. destruct (Nat.eq_dec i j) as [E|Ne]; [exact E|exfalso].
  pose proof (cnt_two (fun t => owns (t_pc t)) (c_ths s) i j t0 Li Lj Ne Oi Oj) as C2. clear - M C2. destruct (c_mx s); cbn [bz] in M; lia.
Qed.
Lemma no_crash n s i : run pth locked n s -> pc_of i s <> Crash.
Proof.
  intros R E. destruct (Nat.lt_ge_cases i (length (c_ths s))) as [L|L].
  - destruct (v_ok _ _ s (run_inv n s R) i L) as (_ & O). unfold th in O. unfold pc_of in E. rewrite E in O. exact O.
  - unfold pc_of in E. rewrite nth_overflow in E by exact L. discriminate.
Qed.
Lemma wr_ex s k : 1 <= A k s -> exists i h a g, (i < length (c_ths s))%nat /\ pc_of i s = NRes h a k g.
Proof.
  intros K. destruct (zc_ex (fun t => wr k (t_pc t)) (c_ths s) t0) as (i & L & E); [lia|]. exists i. unfold pc_of. destruct (t_pc (nth i (c_ths s) t0)); try discriminate.
  cbn in E. apply Nat.eqb_eq in E. subst. eauto 6.
Qed.
Lemma ww_ex s k : 1 <= B k s -> exists i h a g, (i < length (c_ths s))%nat /\ pc_of i s = NWake h a k g.
Proof.
  intros K. destruct (zc_ex (fun t => ww k (t_pc t)) (c_ths s) t0) as (i & L & E); [lia|]. exists i. unfold pc_of. destruct (t_pc (nth i (c_ths s) t0)); try discriminate.
  cbn in E. apply Nat.eqb_eq in E. subst. eauto 6.
Qed.
Lemma ws_ex s k : 1 <= C k s -> exists i h a g, (i < length (c_ths s))%nat /\ pc_of i s = NSys h a k g.
Proof.
  intros K. destruct (zc_ex (fun t => ws k (t_pc t)) (c_ths s) t0) as (i & L & E); [lia|]. exists i. unfold pc_of. destruct (t_pc (nth i (c_ths s) t0)); try discriminate.
  cbn in E. apply Nat.eqb_eq in E. subst. eauto 6.
Qed.
Lemma called_res s k : 1 <= A k s -> called k s.
Proof. intros K. right. destruct (wr_ex s k K) as (i & h & a & g & L & E). exists i, h, a, g. auto. Qed.
Lemma called_wake s k : 1 <= B k s -> called k s.
Proof. intros K. right. destruct (ww_ex s k K) as (i & h & a & g & L & E). exists i, h, a, g. auto. Qed.
Lemma called_sys s k : 1 <= C k s -> called k s.
Proof. intros K. right. destruct (ws_ex s k K) as (i & h & a & g & L & E). exists i, h, a, g. auto. Qed.
Lemma lk_line k s : lk k (c_chain s) = true -> In k (in_line s).
Proof. intros E. apply lk_in in E. destruct E as (g & I). apply (in_map fst) in I. exact I. Qed.

Lemma not_lost n s i : run pth locked n s -> (i < length (c_ths s))%nat -> waiting (pc_of i s) = true ->
  In i (in_line s) \/ called i s \/ exists t, pc_of i s = PUn t /\ t_val (nth i (c_ths s) t0) <> t_st (nth i (c_ths s) t0).
Proof.
  intros R L W. destruct (v_ok _ _ s (run_inv n s R) i L) as (_ & O). unfold pc_of in *. fold (th i s) in *.
  assert (K : t_tm (th i s) = TRes -> called i s) by (intros E; left; exact E).
  destruct (t_pc (th i s)); try discriminate; unfold fpart in O.
  - destruct O as (_ & _ & _ & [(_ & E & _)|[(_ & E & _)|(_ & _ & E & _)]]); [left; apply lk_line; exact E|right; left; auto|right; left; apply called_res; lia].
  - destruct O as (_ & _ & _ & [(_ & E & _)|[(_ & E & _)|(_ & _ & E & _)]]); [left; apply lk_line; exact E|right; left; auto|right; left; apply called_res; lia].
  - destruct O as (_ & _ & _ & E0 & [(E & _)|[(_ & _ & E & _)|(_ & E & _)]]); [left; apply lk_line; exact E|right; left; apply called_wake; lia|].
    right. right. exists t. split; [reflexivity|lia].
  - destruct O as (_ & _ & _ & E0 & [(E & _)|[(_ & _ & E & _)|(_ & _ & _ & E)]]); [left; apply lk_line; exact E|right; left; apply called_wake; lia|right; left; apply called_sys; lia].
Qed.

(** Who can take a step. *)
Lemma go_ngo s i h a : inv s -> at_pc i (NGo h a) s -> exists s', tstep i s s'.
Proof.
  intros H At. destruct (wake_one (c_chain s) s) as ([| |j g] & r) eqn:E; eexists; [eapply n_none|eapply n_bad|eapply n_one]; eassumption.
Qed.
Lemma go_nres s i h a j g : inv s -> at_pc i (NRes h a j g) s -> exists k s', tstep k s s'.
Proof.
  intros H At. destruct (res_facts _ _ Hl s i h a j g H At) as (Lv & t & F). pose proof At as (Li & Ei).
  pose proof (v_tgt _ _ s H i j g Li) as T. rewrite Ei in T. destruct (T eq_refl) as (Lj & _).
  destruct F as [F|[F|F]].
  - exists j. eexists. eapply f_unlock. split; eassumption.
  - exists j. eexists. eapply f_susp. split; eassumption.
  - exists i. eexists. eapply n_resume; [exact At|exact Lv|split; eassumption].
Qed.
Lemma go_nwake s i h a j g : inv s -> at_pc i (NWake h a j g) s -> exists s', tstep i s s'.
Proof. intros H At. destruct (wake_facts _ _ Hl s i h a j g H At) as (Lv & _). eexists. eapply n_wake; eassumption. Qed.
Lemma go_nsys s i h a j g : inv s -> at_pc i (NSys h a j g) s -> exists s', tstep i s s'.
Proof.
  intros H At. pose proof At as (Li & Ei). pose proof (v_tgt _ _ s H i j g Li) as T. rewrite Ei in T. destruct (T eq_refl) as (Lj & Gj).
  destruct (t_pc (th j s)) eqn:Ej; try (eexists; eapply n_sys_none; [exact At|right; intros ?; rewrite Ej; discriminate]).
  eexists. eapply (n_sys i s h a j g t); [exact At|exact Gj|split; [exact Lj|exact Ej]].
Qed.
Lemma owner s k : inv s -> (k < length (c_ths s))%nat -> stuck s -> owns (t_pc (th k s)) = true -> t_pc (th k s) = Hold.
Proof.
  intros H L St O. destruct (t_pc (th k s)) eqn:E; try discriminate; [reflexivity| | | | | | |]; exfalso.
  - eapply St. eapply f_unlock. split; eassumption.
  - eapply St. eapply p_state. split; eassumption.
  - eapply St. eapply p_unlock. split; eassumption.
  - destruct (go_ngo s k h a H (conj L E)) as (s' & T). exact (St _ _ T).
  - destruct (go_nres s k h a j g H (conj L E)) as (i & s' & T). exact (St _ _ T).
  - destruct (go_nwake s k h a j g H (conj L E)) as (s' & T). exact (St _ _ T).
  - destruct (go_nsys s k h a j g H (conj L E)) as (s' & T). exact (St _ _ T).
Qed.
Lemma holder s : inv s -> stuck s -> c_mx s = true -> exists k, (k < length (c_ths s))%nat /\ pc_of k s = Hold.
Proof.
  intros H St M. pose proof (v_mx _ _ s H) as Z. rewrite M in Z. cbn [bz] in Z.
  destruct (zc_ex (fun t => owns (t_pc t)) (c_ths s) t0) as (k & L & E); [lia|]. exists k. split; [exact L|]. exact (owner s k H L St E).
Qed.
Lemma quiet n s i : run pth locked n s -> stuck s -> (i < length (c_ths s))%nat ->
  pc_of i s = Idle \/ pc_of i s = Hold \/ sleeps (pc_of i s) /\ In i (in_line s) \/ wants (pc_of i s) /\ exists k, (k < length (c_ths s))%nat /\ pc_of k s = Hold.
Proof.
  intros R St L. pose proof (run_inv n s R) as H. pose proof (v_ok _ _ s H i L) as (O1 & O). unfold pc_of. fold (th i s).
  destruct (t_pc (th i s)) eqn:E; auto; unfold fpart in O.
  - exfalso. eapply St. eapply f_unlock. split; eassumption.
  - exfalso. eapply St. eapply f_susp. split; eassumption.
  - right. right. left. destruct O as (_ & _ & _ & [(Es & El & _ & Et)|[(_ & Et & _)|(_ & _ & Ea & _)]]).
    + destruct t; [exfalso; eapply St; eapply m_fire; [split; eassumption|exact Et|reflexivity|exact Es]|]. split; [left; reflexivity|]. apply lk_line. exact El.
    + exfalso. eapply St. eapply m_resume; [exact Et|split; eassumption].
    + exfalso. destruct (wr_ex s i) as (k & h & a & g & Lk & Ek); [lia|]. destruct (go_nres s k h a i g H (conj Lk Ek)) as (b & s' & T). exact (St _ _ T).
  - exfalso. eapply St. eapply f_remove. split; eassumption.
  - exfalso. eapply St. eapply f_clean; [split; eassumption|apply O].
  - right. right. right. split; [exists t, r; auto|]. apply holder; [exact H|exact St|]. destruct (c_mx s) eqn:M; [reflexivity|exfalso]. eapply St. eapply f_lock; [split; eassumption|exact M].
  - exfalso. eapply St. eapply p_state. split; eassumption.
  - exfalso. eapply St. eapply p_unlock. split; eassumption.
  - exfalso. destruct (Z.eq_dec (t_val (th i s)) (t_st (th i s))); eapply St; [eapply p_sleep|eapply p_again]; try (split; eassumption); assumption.
  - right. right. left. destruct t; [exfalso; eapply St; eapply p_timeout; split; eassumption|]. split; [right; reflexivity|].
    destruct O as (_ & _ & _ & _ & [(E1 & _)|[(_ & _ & E1 & _)|(_ & _ & _ & E1)]]); [apply lk_line; exact E1| |]; exfalso.
    + destruct (ww_ex s i) as (k & h & a & g & Lk & Ek); [lia|]. destruct (go_nwake s k h a i g H (conj Lk Ek)) as (s' & T). exact (St _ _ T).
    + destruct (ws_ex s i) as (k & h & a & g & Lk & Ek); [lia|]. destruct (go_nsys s k h a i g H (conj Lk Ek)) as (s' & T). exact (St _ _ T).
  - exfalso. eapply St. eapply p_remove. split; eassumption.
  - right. right. right. split; [exists t, r; auto|]. apply holder; [exact H|exact St|]. destruct (c_mx s) eqn:M; [reflexivity|exfalso]. eapply St. eapply p_lock; [split; eassumption|exact M].
  - exfalso. destruct (go_ngo s i h a H (conj L E)) as (s' & T). exact (St _ _ T).
  - exfalso. destruct (go_nres s i h a j g H (conj L E)) as (k & s' & T). exact (St _ _ T).
  - exfalso. destruct (go_nwake s i h a j g H (conj L E)) as (s' & T). exact (St _ _ T).
  - exfalso. destruct (go_nsys s i h a j g H (conj L E)) as (s' & T). exact (St _ _ T).
  - contradiction.
Qed.

(** Steps of a notifier. *)
Lemma pc_go i c s : (i < length (c_ths s))%nat -> pc_of i (go i c s) = c.
Proof. intros L. unfold pc_of, go, upd. cbn [c_ths]. rewrite nth_lset_same by exact L. reflexivity. Qed.
Lemma pc_go2 i j c s : i <> j -> pc_of i (go j c s) = pc_of i s.
Proof. intros N. unfold pc_of, go, upd. cbn [c_ths]. rewrite nth_lset_other by congruence. reflexivity. Qed.
Lemma find_spec s l : (forall j g, In (j, g) l -> live j g s = true) ->
  match wake_one l s with
  | (WNone, r) => r = [] /\ find (asleep s) (map fst l) = None
  | (WBad, _) => False
  | (WOne j g, r) => find (asleep s) (map fst l) = Some j /\ exists p, l = p ++ (j, g) :: r /\ forall k, In k (map fst p) -> asleep s k = false
  end.
Proof.
  induction l as [|(j, g) l IH]; cbn [wake_one map fst find]; intros Hv; [auto|]. rewrite (Hv j g (or_introl eq_refl)).
  assert (As : asleep s j = negb (t_fib (th j s) && t_sat (th j s))) by reflexivity. rewrite As. specialize (IH (fun a b I => Hv a b (or_intror I))). destruct (t_fib (th j s) && t_sat (th j s)) eqn:F; cbn [negb].
  - destruct (wake_one l s) as ([| |a b] & r); try exact IH. destruct IH as (E & p & -> & K). split; [exact E|]. exists ((j, g) :: p). split; [reflexivity|].
    cbn [map fst]. intros k [<-|I]; [exact As|exact (K k I)].
  - split; [reflexivity|]. exists []. split; [reflexivity|]. intros k [].
Qed.
Lemma tm_none s i h a : inv s -> at_pc i (NGo h a) s -> t_tm (th i s) = TNone.
Proof. intros H (L & E). destruct (v_ok _ _ s H i L) as (_ & O). rewrite E in O. apply O. Qed.
Lemma notify n s s' i h a : run pth locked n s -> (i < length (c_ths s))%nat -> pc_of i s = NGo h a -> tstep i s s' ->
  match first_waiter s with
  | None => c_chain s' = [] /\ pc_of i s' = if h then Hold else Idle
  | Some j => called j s' /\ ~ In j (in_line s') /\ forall k, k <> j -> In k (in_line s) -> asleep s k = true -> In k (in_line s')
  end.
Proof.
  intros R L E T. pose proof (run_inv n s R) as H. pose proof (find_spec s (c_chain s) (fun j g => chain_live _ _ s j g H)) as F. fold (in_line s) in F. fold (first_waiter s) in F.
  pose proof (tm_none s i h a H (conj L E)) as Tm. pose proof (v_nodup _ _ s H) as D.
  destruct T; repeat match goal with K : at_pc _ _ _ |- _ => destruct K as (? & ?) end;
    match goal with K : t_pc (th i _) = _ |- _ => change (pc_of i s) with (t_pc (th i s)) in E; rewrite E in K; try discriminate K end; try congruence;
    try match goal with K : wake_one _ _ = _ |- _ => rewrite K in F end; try contradiction; match goal with K : NGo _ _ = NGo _ _ |- _ => injection K as <- <- end.
  - destruct F as (-> & ->). split; [reflexivity|]. rewrite pc_go by assumption. destruct h; reflexivity.
  - destruct F as (-> & p & Ep & K). rewrite Ep in D. rewrite map_app in D. cbn [map fst] in D.
    assert (Ch : c_chain (go i (if t_fib (th j s) then NRes h a j g else NWake h a j g) (taken j r s)) = r) by (unfold taken; destruct (t_fib (th j s)); reflexivity).
    unfold in_line. rewrite Ch. split; [|split].
    + right. exists i, h, a, g. assert (Li : (i < length (c_ths (taken j r s)))%nat) by (unfold taken; destruct (t_fib (th j s)); cbn; rewrite ?lset_length; assumption).
      split; [unfold go, upd; cbn [c_ths]; rewrite lset_length; exact Li|]. rewrite pc_go by exact Li. destruct (t_fib (th j s)); auto.
    + apply NoDup_remove_2 in D. intros I. apply D. apply in_or_app. auto.
    + intros k Nk I As. rewrite Ep, map_app in I. cbn [map fst] in I. apply in_app_or in I. destruct I as [I|[I|I]]; [rewrite (K k I) in As; discriminate|congruence|exact I].
Qed.
Lemma tm_none2 s i j g : inv s -> (i < length (c_ths s))%nat -> tgt (t_pc (th i s)) = Some (j, g) -> t_tm (th i s) = TNone.
Proof. intros H L E. destruct (v_ok _ _ s H i L) as (_ & O). destruct (t_pc (th i s)); try discriminate; apply O. Qed.
Lemma next_eq h a : next h a = if a then NGo h true else if h then Hold else Idle.
Proof. destruct h, a; reflexivity. Qed.
Lemma wakes_f n s s' i j h a g : run pth locked n s -> (i < length (c_ths s))%nat -> pc_of i s = NRes h a j g -> tstep i s s' ->
  exists t, pc_of j s = FSusp t /\ pc_of j s' = FRun t /\ pc_of i s' = if a then NGo h true else if h then Hold else Idle.
Proof.
  intros R L E T. pose proof (run_inv n s R) as H. change (pc_of i s) with (t_pc (th i s)) in E.
  pose proof (tm_none2 s i j g H L ltac:(rewrite E; reflexivity)) as Tm. pose proof (res_facts _ _ Hl s i h a j g H (conj L E)) as (Lv & f & F).
  destruct T; repeat match goal with K : at_pc _ _ _ |- _ => destruct K as (? & ?) end;
    match goal with K : t_pc (th i _) = _ |- _ => rewrite E in K; try discriminate K end; try congruence;
    match goal with K : NRes _ _ _ _ = NRes _ _ _ _ |- _ => injection K as <- <- <- <- end.
  - exists t. assert (Ne : j <> i) by (intros ->; congruence). split; [assumption|].
    assert (Li : (i < length (c_ths (go j (FRun t) s)))%nat) by (unfold go, upd; cbn [c_ths]; rewrite lset_length; exact L).
    rewrite pc_go by exact Li. rewrite pc_go2 by exact Ne. rewrite pc_go by assumption. split; [reflexivity|apply next_eq].
  - exfalso. match goal with K : _ \/ _ |- _ => destruct K as [K|K]; [congruence|]; destruct (K f) as (N1 & N2 & N3); tauto end.
Qed.
Lemma wakes_p n s s' i j h a g : run pth locked n s -> (i < length (c_ths s))%nat -> pc_of i s = NWake h a j g -> tstep i s s' ->
  (waiting (pc_of j s') = true -> t_val (nth j (c_ths s') t0) <> t_st (nth j (c_ths s') t0)) /\ pc_of i s' = NSys h a j g.
Proof.
  intros R L E T. pose proof (run_inv n s R) as H. change (pc_of i s) with (t_pc (th i s)) in E.
  pose proof (tm_none2 s i j g H L ltac:(rewrite E; reflexivity)) as Tm. pose proof (wake_facts _ _ Hl s i h a j g H (conj L E)) as (Lv & Hi).
  destruct T; repeat match goal with K : at_pc _ _ _ |- _ => destruct K as (? & ?) end;
    match goal with K : t_pc (th i _) = _ |- _ => rewrite E in K; try discriminate K end; try congruence;
    match goal with K : NWake _ _ _ _ = NWake _ _ _ _ |- _ => injection K as <- <- <- <- end.
  pose proof (v_tgt _ _ s H i j g L ltac:(rewrite E; reflexivity)) as (Lj & Gj).
  pose proof (zc_nth (fun t => ww j (t_pc t)) _ i t0 L) as B1. fold (th i s) in B1. cbv beta in B1. rewrite E in B1. cbn [ww] in B1. specialize (B1 (Nat.eqb_refl j)).
  destruct (v_ok _ _ s H j Lj) as (_ & O). assert (Ne : j <> i) by (intros ->; rewrite E in O; clear - O B1; intuition lia).
  assert (Li : (i < length (c_ths (upd j (set_val (t_val (th j s) + 2)) s)))%nat) by (unfold upd; cbn [c_ths]; rewrite lset_length; exact L).
  rewrite pc_go by exact Li. rewrite pc_go2 by exact Ne. split; [|reflexivity].
  unfold go, upd, pc_of, th. cbn [c_ths]. rewrite (nth_lset_other _ i j) by congruence. rewrite nth_lset_same by exact Lj. fold (th j s). cbn [set_val t_val t_st t_pc].
  unfold fpart in O. clear - O B1. destruct (t_pc (th j s)); try discriminate; intros _; intuition lia.
Qed.
Lemma wakes_s n s s' i j h a g : run pth locked n s -> (i < length (c_ths s))%nat -> pc_of i s = NSys h a j g -> tstep i s s' ->
  (forall t, pc_of j s' <> PWait t) /\ pc_of i s' = if a then NGo h true else if h then Hold else Idle.
Proof.
  intros R L E T. pose proof (run_inv n s R) as H. change (pc_of i s) with (t_pc (th i s)) in E.
  pose proof (tm_none2 s i j g H L ltac:(rewrite E; reflexivity)) as Tm. pose proof (v_tgt _ _ s H i j g L ltac:(rewrite E; reflexivity)) as (Lj & Gj).
  destruct T; repeat match goal with K : at_pc _ _ _ |- _ => destruct K as (? & ?) end;
    match goal with K : t_pc (th i _) = _ |- _ => rewrite E in K; try discriminate K end; try congruence;
    match goal with K : NSys _ _ _ _ = NSys _ _ _ _ |- _ => injection K as <- <- <- <- end.
  - assert (Ne : j <> i) by (intros ->; congruence). 
    match goal with |- context [go j ?c s] => assert (Li : (i < length (c_ths (go j c s)))%nat) by (unfold go, upd; cbn [c_ths]; rewrite lset_length; exact L) end.
    rewrite pc_go by exact Li. rewrite pc_go2 by exact Ne. rewrite pc_go by assumption. split; [intros u; destruct (_ =? _); discriminate|apply next_eq].
  - rewrite pc_go by exact L. split; [|apply next_eq]. match goal with K : _ \/ _ |- _ => destruct K as [K|K]; [congruence|] end.
    intros u. destruct (Nat.eq_dec j i) as [->|Ne]; [rewrite pc_go by exact L; rewrite next_eq; destruct a, h; discriminate|]. rewrite pc_go2 by exact Ne. auto.
Qed.

(** A fiber that sleeps is woken by a notifier or by its timer only. *)
Lemma pc_upd i j f s : (forall t, t_pc (f t) = t_pc t) -> pc_of i (upd j f s) = pc_of i s.
Proof.
  intros K. unfold pc_of, upd. cbn [c_ths]. destruct (Nat.eq_dec i j) as [->|Ne]; [|rewrite nth_lset_other by congruence; reflexivity].
  destruct (Nat.lt_ge_cases j (length (c_ths s))) as [L|L]; [rewrite nth_lset_same by exact L; apply K|]. rewrite !nth_overflow by (rewrite ?lset_length; exact L). reflexivity.
Qed.
Lemma len_go i c s : length (c_ths (go i c s)) = length (c_ths s).
Proof. apply lset_length. Qed.
Lemma pc_taken i j r s : pc_of i (taken j r s) = pc_of i s.
Proof. unfold taken. destruct (t_fib (th j s)); [|reflexivity]. exact (pc_upd i j set_sat s (fun _ => eq_refl)). Qed.
Lemma pc_add i j s : pc_of i (add j s) = pc_of i s.
Proof. reflexivity. Qed.
Lemma pc_mx i b s : pc_of i (set_mx b s) = pc_of i s.
Proof. reflexivity. Qed.
Lemma pc_remove i j s : pc_of i (remove j s) = pc_of i s.
Proof. reflexivity. Qed.
Lemma pc_chain i l s : pc_of i (set_chain l s) = pc_of i s.
Proof. reflexivity. Qed.
Lemma no_spurious n s s' j t : run pth locked n s -> step pth locked s s' -> (j < length (c_ths s))%nat -> pc_of j s = FSusp t -> pc_of j s' = FSusp t \/ called j s /\ pc_of j s' = FRun t.
Proof.
  intros R St L E. clear R. change (pc_of j s) with (t_pc (th j s)) in E.
  destruct St as [i s s' T|i s At|i s At|i s u At|i s u Ep At|i s u At|i s h a Eh At].
  2-7: left; assert (Ne : j <> i) by (intros ->; destruct At as (_ & K); rewrite E in K; try discriminate; destruct h; discriminate); rewrite pc_go2 by exact Ne; rewrite ?pc_add; rewrite ?pc_upd by reflexivity; exact E.
  destruct (Nat.eq_dec j i) as [->|Ne].
  - destruct T; repeat match goal with K : at_pc _ _ _ |- _ => destruct K as (? & ?) end; match goal with K : t_pc (th i _) = _ |- _ => tryif constr_eq K E then fail else (rewrite E in K; try discriminate K; try (subst; discriminate)) end.
    + left. rewrite pc_upd by reflexivity. exact E.
    + left. rewrite !pc_upd by reflexivity. exact E.
    + right. split; [left; assumption|]. rewrite pc_go by (unfold upd; cbn [c_ths]; rewrite lset_length; assumption). congruence.
    + exfalso. subst. match goal with K : forall t, _ |- _ => destruct (K t) as (_ & _ & K2); exact (K2 eq_refl) end.
  - destruct T; repeat match goal with K : at_pc _ _ _ |- _ => destruct K as (? & ?) end;
      try (left; rewrite ?pc_go2 by exact Ne; rewrite ?pc_remove, ?pc_chain, ?pc_taken; rewrite ?pc_upd by reflexivity; rewrite ?pc_mx; exact E).
    + rewrite pc_go2 by exact Ne. destruct (Nat.eq_dec j j0) as [->|Nj]; [|left; rewrite pc_go2 by exact Nj; exact E]. right.
      split; [right; exists i, h, a, g; auto|]. rewrite pc_go by assumption. congruence.
    + rewrite pc_go2 by exact Ne. destruct (Nat.eq_dec j j0) as [->|Nj]; [congruence|]. left. rewrite pc_go2 by exact Nj. exact E.
Qed.

(** What a wait returns. *)
Lemma result n s i t r : run pth locked n s -> (i < length (c_ths s))%nat -> pc_of i s = FLock t r \/ pc_of i s = PLock t r -> r = false -> t = true.
Proof.
  intros R L E. destruct (v_ok _ _ s (run_inv n s R) i L) as (_ & O). unfold pc_of in E. fold (th i s) in E. destruct E as [E|E]; rewrite E in O; apply O.
Qed.
(** Waits and notifications start like this. *)
Lemma starts n s i : run pth locked n s -> (i < length (c_ths s))%nat ->
  (pc_of i s = Hold -> forall t, exists s', step pth locked s s' /\ pc_of i s' = FIn t /\ in_line s' = in_line s ++ [i] /\ asleep s' i = true) /\
  (pth = true -> pc_of i s = Hold -> forall t, exists s', step pth locked s s' /\ pc_of i s' = PAdd t /\ in_line s' = in_line s ++ [i] /\ asleep s' i = true) /\
  (forall h, (locked = true -> h = true) -> pc_of i s = (if h then Hold else Idle) -> forall a, exists s', step pth locked s s' /\ pc_of i s' = NGo h a /\ in_line s' = in_line s).
Proof.
  intros R L. split; [|split].
  - intros E t. eexists. split; [apply (s_fiber _ _ i s t); split; [exact L|exact E]|]. rewrite add_upd by exact L. unfold pc_of, in_line, asleep. cbn [c_ths c_chain]. rewrite nth_lset_same by exact L.
    split; [reflexivity|]. split; [apply map_app|reflexivity].
  - intros Ep E t. eexists. split; [apply (s_pthread _ _ i s t); [exact Ep|split; [exact L|exact E]]|]. rewrite add_upd by exact L. unfold pc_of, in_line, asleep. cbn [c_ths c_chain]. rewrite nth_lset_same by exact L.
    split; [reflexivity|]. split; [apply map_app|reflexivity].
  - intros h Eh E a. eexists. split; [apply (s_notify _ _ i s h a Eh); split; [exact L|destruct h; exact E]|]. rewrite pc_go by exact L. auto.
Qed.
End Props.
