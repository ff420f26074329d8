(** Runs in which pthreads wait and notifications come without the mutex. *)
From Coq Require Import Lia.
From Verif.Lib Require Import Base ListX Count.
From Verif.FiberSync Require Import ModelCv SpecCv ProofsCv.
Local Open Scope Z_scope.

(** Pthread i sleeps and nobody knows. *)
Record lost (i : nat) (s : cv) : Prop := {
  l_in : (i < length (c_ths s))%nat;
  l_pc : t_pc (th i s) = PWait false \/ t_pc (th i s) = PUn false;
  l_val : t_val (th i s) = t_st (th i s);
  l_tm : t_tm (th i s) = TNone;
  l_lk : lk i (c_chain s) = false;
  l_tgt : forall k g, tgt (t_pc (th k s)) <> Some (i, g) }.

Lemma lost_upd i j f s l m : lost i s -> j <> i -> lk i l = false -> (forall g, tgt (t_pc (f (th j s))) <> Some (i, g)) ->
  lost i {| c_chain := l; c_mx := m; c_ths := lset (c_ths s) j (f (th j s)) |}.
Proof.
  intros [L1 L2 L3 L4 L5 L6] Ne El Et. remember (f (th j s)) as t' eqn:Et'. clear Et'.
  assert (Ti : nth i (lset (c_ths s) j t') t0 = th i s) by (apply nth_lset_other; congruence).
  constructor; unfold th; cbn [c_chain c_ths]; rewrite ?lset_length, ?Ti; auto.
  intros k g. destruct (Nat.eq_dec k j) as [->|Nk]; [|rewrite nth_lset_other by congruence; apply L6].
  destruct (Nat.lt_ge_cases j (length (c_ths s))) as [Lj|Lj]; [rewrite nth_lset_same by exact Lj; apply Et|].
  rewrite nth_overflow by (rewrite lset_length; exact Lj). discriminate.
Qed.
Lemma lost_frame i s l m : lost i s -> lk i l = false -> lost i {| c_chain := l; c_mx := m; c_ths := c_ths s |}.
Proof. intros [L1 L2 L3 L4 L5 L6] El. constructor; unfold th in *; cbn [c_chain c_ths]; auto. Qed.
Lemma lost_pc i f s : lost i s -> (forall t, t_pc (f t) = PWait false \/ t_pc (f t) = PUn false) -> (forall t, t_val (f t) = t_val t /\ t_st (f t) = t_st t /\ t_tm (f t) = t_tm t) -> lost i (upd i f s).
Proof.
  intros [L1 L2 L3 L4 L5 L6] E K. unfold upd. destruct (K (th i s)) as (K1 & K2 & K3). specialize (E (th i s)). remember (f (th i s)) as t' eqn:Et'. clear Et'.
  assert (Ti : nth i (lset (c_ths s) i t') t0 = t') by (apply nth_lset_same; assumption).
  constructor; unfold th; cbn [c_chain c_ths]; rewrite ?lset_length, ?Ti; rewrite ?K1, ?K2, ?K3; auto.
  intros k g. destruct (Nat.eq_dec k i) as [->|Nk]; [rewrite Ti; destruct E as [-> | ->]; discriminate|]. rewrite nth_lset_other by congruence. apply L6.
Qed.
Lemma lk_filter_sub i f l : lk i l = false -> lk i (filter f l) = false.
Proof.
  intros E. apply lk_out. apply lk_out in E. intros I. apply E. apply in_map_iff in I. destruct I as (p & <- & I). apply filter_In in I. apply in_map. apply I.
Qed.
Lemma wake_sub i s l w r : wake_one l s = (w, r) -> lk i l = false -> lk i r = false /\ forall g, w <> WOne i g.
Proof.
  revert w r. induction l as [|(j, g) l IH]; cbn [wake_one]; intros w r E K; [injection E as <- <-; split; [reflexivity|discriminate]|].
  apply lk_out in K. cbn [map fst] in K. assert (K2 : lk i l = false) by (apply lk_out; intros I; apply K; right; exact I).
  destruct (live j g s); [|injection E as <- <-; split; [exact K2|discriminate]]. destruct (t_fib (th j s) && t_sat (th j s)); [exact (IH _ _ E K2)|].
  injection E as <- <-. split; [exact K2|]. intros h Q. injection Q as -> _. apply K. left. reflexivity.
Qed.
Lemma lk_one i j g l : lk i l = false -> j <> i -> lk i (l ++ [(j, g)]) = false.
Proof. intros E Ne. rewrite lk_app, E. cbn. destruct (Nat.eqb_spec j i); [congruence|reflexivity]. Qed.

Lemma lost_go i j c s : lost i s -> j <> i -> (forall g, tgt c <> Some (i, g)) -> lost i (go j c s).
Proof. intros H Ne Et. apply lost_upd; auto. exact (l_lk i s H). Qed.
Lemma lost_u i j f s : lost i s -> j <> i -> (forall t, t_pc (f t) = t_pc t) -> lost i (upd j f s).
Proof. intros H Ne Et. apply lost_upd; auto; [exact (l_lk i s H)|]. intros g. rewrite Et. exact (l_tgt i s H j g). Qed.
Lemma lost_mx i b s : lost i s -> lost i (set_mx b s).
Proof. intros H. apply lost_frame; [exact H|exact (l_lk i s H)]. Qed.
Lemma lost_chain i l s : lost i s -> lk i l = false -> lost i (set_chain l s).
Proof. intros H. apply lost_frame. exact H. Qed.
Lemma lost_add i j s : lost i s -> j <> i -> lost i (add j s).
Proof. intros H Ne. apply lost_chain; [exact H|]. apply lk_one; [exact (l_lk i s H)|exact Ne]. Qed.
Lemma lost_remove i j s : lost i s -> lost i (remove j s).
Proof. intros H. apply lost_chain; [exact H|]. apply lk_filter_sub. exact (l_lk i s H). Qed.
Lemma lost_taken i j r s : lost i s -> j <> i -> lk i r = false -> lost i (taken j r s).
Proof. intros H Ne E. apply lost_chain; [|exact E]. destruct (t_fib (th j s)); [apply lost_u; auto|exact H]. Qed.
Lemma next_tgt h a i g : tgt (next h a) <> Some (i, g).
Proof. destruct h, a; discriminate. Qed.
Lemma back_tgt h i g : tgt (back h) <> Some (i, g).
Proof. destruct h; discriminate. Qed.

Ltac ls := repeat first [apply lost_go|apply lost_u|apply lost_mx|apply lost_taken|apply lost_chain|apply lost_add|apply lost_remove]; auto; try (intros; discriminate); try (intros; apply next_tgt); try (intros; apply back_tgt).
Lemma lost_step pth locked i s s' : lost i s -> step pth locked s s' -> lost i s'.
Proof.
  intros H St. pose proof H as [L1 L2 L3 L4 L5 L6].
  destruct St as [j s s' T|j s At|j s At|j s t At|j s t Ep At|j s t At|j s h a Eh At].
  { destruct (Nat.eq_dec j i) as [->|Ne].
    - destruct T; repeat match goal with K : at_pc _ _ _ |- _ => destruct K as (? & ?) end;
        match goal with K : t_pc (th i _) = _ |- _ => rewrite K in L2; destruct L2 as [L2|L2]; try discriminate L2; try (subst; discriminate) end; try congruence; idtac.
      injection L2 as ->. apply lost_pc; [exact H|intros; left; reflexivity|intros; auto].
    - assert (Nt : forall h a k g, t_pc (th j s) = NRes h a k g \/ t_pc (th j s) = NWake h a k g \/ t_pc (th j s) = NSys h a k g -> k <> i).
      { intros h a k g E ->. apply (L6 j g). destruct E as [-> |[-> | ->]]; reflexivity. }
      destruct T; repeat match goal with K : at_pc _ _ _ |- _ => destruct K as (? & ?) end;
        try match goal with K : wake_one _ _ = _ |- _ => destruct (wake_sub i _ _ _ _ K L5) as (Wr & Wj) end;
        try match goal with K : t_pc (th j _) = NRes ?h ?a ?k ?g |- _ => pose proof (Nt h a k g (or_introl K))
                       | K : t_pc (th j _) = NWake ?h ?a ?k ?g |- _ => pose proof (Nt h a k g (or_intror (or_introl K)))
                       | K : t_pc (th j _) = NSys ?h ?a ?k ?g |- _ => pose proof (Nt h a k g (or_intror (or_intror K))) end; ls.
      all: try match goal with W : forall g, WOne ?j _ <> WOne ?i g |- _ => assert (j <> i) by (intros ->; eapply W; reflexivity) end; auto.
      all: intros; try (destruct (t_fib _)); try (destruct (_ =? _)); cbn; congruence. }
  all: pose proof At as (Lj & Ej).
  all: destruct (Nat.eq_dec j i) as [->|Ne]; [rewrite Ej in L2; destruct L2 as [L2|L2]; try discriminate L2; try (destruct h; discriminate)|].
  all: try (injection L2 as ->; apply lost_pc; [exact H|intros; right; reflexivity|intros; auto]).
  all: ls.
Qed.
Lemma lost_reach pth locked i s s' : lost i s -> reach pth locked s s' -> pc_of i s' = PWait false \/ pc_of i s' = PUn false.
Proof.
  intros H R. assert (K : lost i s') by (induction R; [exact H|eapply lost_step; [apply IHR; exact H|eassumption]]). exact (l_pc i s' K).
Qed.

Ltac at_ := split; [cbn; lia|reflexivity].
Ltac fwd R St := eapply run_step in R; [|St]; cbv in R.
Ltac inner k T := eapply (s_inner _ _ k); T.
(** Pthread 0 is between AddWaiter and GetState when thread 1 notifies. *)
Lemma pthread_lost : exists s, run true false 2 s /\ pc_of 0 s = PWait false /\ forall s', reach true false s s' -> pc_of 0 s' = PWait false \/ pc_of 0 s' = PUn false.
Proof.
  pose proof (run_new true false 2) as R.
  fwd R ltac:(apply (s_lock true false 0); [at_|reflexivity]).
  fwd R ltac:(apply (s_pthread true false 0 _ false); [reflexivity|at_]).
  fwd R ltac:(apply (s_notify true false 1 _ false false); [discriminate|at_]).
  fwd R ltac:(inner 1%nat ltac:(apply (n_one 1 _ false false 0 1 []); [at_|reflexivity])).
  fwd R ltac:(inner 1%nat ltac:(apply (n_wake 1 _ false false 0 1); [at_|reflexivity])).
  fwd R ltac:(inner 1%nat ltac:(apply (n_sys_none 1 _ false false 0 1); [at_|right; cbn; discriminate])).
  fwd R ltac:(inner 0%nat ltac:(apply (p_state 0 _ false); at_)).
  fwd R ltac:(inner 0%nat ltac:(apply (p_unlock 0 _ false); at_)).
  fwd R ltac:(inner 0%nat ltac:(apply (p_sleep 0 _ false); [at_|reflexivity])).
  eexists. split; [exact R|]. split; [reflexivity|]. intros s'. apply lost_reach.
  constructor; try reflexivity; [cbn; lia|left; reflexivity|]. intros [|[|[|k]]] g; discriminate.
Qed.
(** Pthread 0 times out between WakeOne and the addition in Wake. *)
Lemma pthread_uaf : exists s, run true false 2 s /\ pc_of 1 s = Crash.
Proof.
  pose proof (run_new true false 2) as R.
  fwd R ltac:(apply (s_lock true false 0); [at_|reflexivity]).
  fwd R ltac:(apply (s_pthread true false 0 _ true); [reflexivity|at_]).
  fwd R ltac:(inner 0%nat ltac:(apply (p_state 0 _ true); at_)).
  fwd R ltac:(inner 0%nat ltac:(apply (p_unlock 0 _ true); at_)).
  fwd R ltac:(inner 0%nat ltac:(apply (p_sleep 0 _ true); [at_|reflexivity])).
  fwd R ltac:(apply (s_notify true false 1 _ false false); [discriminate|at_]).
  fwd R ltac:(inner 1%nat ltac:(apply (n_one 1 _ false false 0 1 []); [at_|reflexivity])).
  fwd R ltac:(inner 0%nat ltac:(apply (p_timeout 0); at_)).
  fwd R ltac:(inner 0%nat ltac:(apply (p_remove 0 _ true false); at_)).
  fwd R ltac:(inner 0%nat ltac:(apply (p_lock 0 _ true false); [at_|reflexivity])).
  fwd R ltac:(inner 1%nat ltac:(apply (n_wake_bad 1 _ false false 0 1); [at_|reflexivity])).
  eexists. split; [exact R|]. reflexivity.
Qed.
Ltac fwr R St := eapply reach_step in R; [|St]; cbv in R.
(** The timer of fiber 0 wakes it, the notification finds nobody, and the wait says that it was notified. *)
Lemma wrong_result : exists s s', run false true 2 s /\ t_tm (nth 0 (c_ths s) t0) = TRes /\ first_waiter s = None /\
  reach false true s s' /\ t_gen (nth 0 (c_ths s') t0) = t_gen (nth 0 (c_ths s) t0) /\ pc_of 0 s' = Hold /\ t_ret (nth 0 (c_ths s') t0) = true.
Proof.
  pose proof (run_new false true 2) as R.
  fwd R ltac:(apply (s_lock false true 0); [at_|reflexivity]).
  fwd R ltac:(apply (s_fiber false true 0 _ true); at_).
  fwd R ltac:(inner 0%nat ltac:(apply (f_unlock 0 _ true); at_)).
  fwd R ltac:(inner 0%nat ltac:(apply (f_susp 0 _ true); at_)).
  fwd R ltac:(inner 0%nat ltac:(apply (m_fire 0 _ (FSusp true)); [at_|reflexivity|reflexivity|reflexivity])).
  fwd R ltac:(apply (s_lock false true 1); [at_|reflexivity]).
  fwd R ltac:(apply (s_notify false true 1 _ true false); [auto|at_]).
  match type of R with run _ _ _ ?s => pose proof (reach_refl false true s) as Q end.
  fwr Q ltac:(inner 1%nat ltac:(apply (n_none 1 _ true false []); [at_|reflexivity])).
  fwr Q ltac:(apply (s_unlock false true 1); at_).
  fwr Q ltac:(inner 0%nat ltac:(apply (m_resume 0 _ true); [reflexivity|at_])).
  fwr Q ltac:(inner 0%nat ltac:(apply (f_remove 0 _ true); at_)).
  fwr Q ltac:(inner 0%nat ltac:(apply (f_clean 0 _ true true); [at_|discriminate])).
  fwr Q ltac:(inner 0%nat ltac:(apply (f_lock 0 _ true true); [at_|reflexivity])).
  eexists. eexists. split; [exact R|]. split; [reflexivity|]. split; [reflexivity|]. split; [exact Q|]. repeat split; reflexivity.
Qed.
