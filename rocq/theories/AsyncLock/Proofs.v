(** Proofs about the semaphore and the read-write lock. *)
From Coq Require Import Permutation.
From Verif.Lib Require Import Base.
From Verif.AsyncLock Require Import Model Spec.
Local Open Scope Z_scope.
Local Open Scope out_scope.

Lemma taken_app a b : taken (a ++ b) = taken a + taken b.
Proof. induction a as [|[] a IH]; cbn [app taken]; rewrite ?IH; lia. Qed.
Lemma signalled_app a b : signalled (a ++ b) = signalled a + signalled b.
Proof. induction a as [|[] a IH]; cbn [app signalled]; rewrite ?IH; lia. Qed.
Lemma takers_app a b : takers (a ++ b) = takers a ++ takers b.
Proof. induction a as [|[] a IH]; cbn [app takers]; rewrite ?IH; reflexivity. Qed.
Lemma queued_app a b : queued (a ++ b) = queued a ++ queued b.
Proof. induction a as [|[] a IH]; cbn [app queued]; rewrite ?IH; reflexivity. Qed.
Lemma notified_app a b : notified (a ++ b) = notified a ++ notified b.
Proof. induction a as [|[] a IH]; cbn [app notified]; rewrite ?IH; reflexivity. Qed.
Lemma failures_app a b : failures (a ++ b) = failures a ++ failures b.
Proof. induction a as [|[] a IH]; cbn [app failures]; rewrite ?IH; reflexivity. Qed.
Lemma readers_app a b : readers (a ++ b) = readers a + readers b.
Proof. induction a as [|[] a IH]; cbn [app readers]; rewrite ?IH; lia. Qed.
Lemma writers_app a b : writers (a ++ b) = writers a + writers b.
Proof. induction a as [|[] a IH]; cbn [app writers]; rewrite ?IH; lia. Qed.

Notation took l := (map (fun e => Took (e_id e) (e_num e)) l).
Lemma took_simpl l : takers (took l) = map e_id l /\ queued (took l) = [] /\ notified (took l) = [] /\ failures (took l) = [] /\ signalled (took l) = 0.
Proof. induction l as [|e l (IH1 & IH2 & IH3 & IH4 & IH5)]; cbn; repeat split; congruence. Qed.

Definition nums (l : list entry) : Z := taken (took l).
Lemma grab_spec l : forall count ready c rest, grab count l = (ready, c, rest) ->
  l = ready ++ rest /\ c = count - nums ready /\
  (Forall (fun e => 0 <= e_num e) l -> 0 <= count -> 0 <= c) /\ match rest with [] => True | e :: _ => c < e_num e end.
Proof.
  induction l as [|e l IH]; intros count ready c rest H; cbn [grab] in H.
  - injection H as <- <- <-. cbn. repeat split; auto; lia.
  - unfold has_units in H. destruct (e_num e <=? count) eqn:Eb.
    + destruct (grab (count - e_num e) l) as [[r0 c0] rest0] eqn:G. injection H as <- <- <-.
      destruct (IH _ _ _ _ G) as (K1 & K2 & K3 & K4). split; [cbn; congruence|]. split; [unfold nums in *; cbn; lia|].
      split; [|exact K4]. intros F Hc. inversion F; subst. apply K3; [assumption|lia].
    + injection H as <- <- <-. cbn. repeat split; auto; try lia.
Qed.

(** ** What holds as long as Broke is not called *)
Notation ids l := (map e_id l).
Record inv (init : Z) (s : sem) : Prop := {
  i_ok : s_broken s = false;
  i_sig : broke_free s;
  i_count : 0 <= s_count s < 2 ^ 64;
  i_units : s_count s = (init + signalled (s_log s) - taken (s_log s)) mod 2 ^ 64;
  i_nums : Forall (fun e => 0 <= e_num e) (s_wait s);
  i_takers : takers (s_log s) ++ ids (s_wait s) = seq 0 (s_next s);
  i_queued : queued (s_log s) = notified (s_log s) ++ in_flight (s_stack s) ++ ids (s_wait s);
  i_doing : s_doing s = Z.of_nat (length (in_flight (s_stack s)));
  i_failures : failures (s_log s) = [];
  i_fits : fits s -> 0 < s_doing s \/ exists l1 i l2, s_log s = l1 ++ [Notified i] ++ l2 /\ no_signal l2 }.

Lemma flight_nil k : Forall (fun f => f <> FBroke) k -> in_flight k = [] -> forall f, In f k -> f = FSignal [].
Proof.
  induction k as [|[r|] k IH]; intros F E f Hf; [destruct Hf| |].
  - cbn in E. apply app_eq_nil in E. destruct E as (E1 & E2). apply map_eq_nil in E1. subst r.
    inversion F; subst. destruct Hf as [<-|Hf]; auto.
  - inversion F; congruence.
Qed.

Lemma no_signal_snoc l e : no_signal l -> (forall n, e <> Signalled n) -> no_signal (l ++ [e]).
Proof. induction l as [|[] l IH]; cbn [app no_signal]; auto. destruct e; auto. intros _ H. exact (H num eq_refl). Qed.

Lemma fits_more s (s' : sem) e : (forall n, e <> Signalled n) -> s_log s' = s_log s ++ [e] ->
  (fits s' -> fits s) -> s_doing s' = s_doing s ->
  (fits s -> 0 < s_doing s \/ exists l1 i l2, s_log s = l1 ++ [Notified i] ++ l2 /\ no_signal l2) ->
  fits s' -> 0 < s_doing s' \/ exists l1 i l2, s_log s' = l1 ++ [Notified i] ++ l2 /\ no_signal l2.
Proof.
  intros He El Hf Hd H F. rewrite Hd, El. destruct (H (Hf F)) as [K|(l1 & i & l2 & K1 & K2)]; [auto|right].
  exists l1, i, (l2 ++ [e]). rewrite K1. split; [rewrite <- !app_assoc; reflexivity|apply no_signal_snoc; auto].
Qed.

Lemma unit_step a b : 0 <= b < 2 ^ 64 -> b <= a mod 2 ^ 64 -> (a - b) mod 2 ^ 64 = a mod 2 ^ 64 - b.
Proof.
  intros Hb H. pose proof (Z.mod_pos_bound a (2 ^ 64) eq_refl).
  rewrite <- (Z.mod_small (a mod 2 ^ 64 - b) (2 ^ 64)) by lia. rewrite Zminus_mod_idemp_l. reflexivity.
Qed.

Lemma resume_inv init s : inv init s -> exists s1, resume s = Ok s1 /\ inv init s1.
Proof.
  intros I. pose proof I as [A1 A2 A3 A4 A5 A6 A7 A8 A9 A10]. unfold resume, broke_free in *.
  destruct (s_stack s) as [|[[|e r]|] k] eqn:Es.
  - exists s. auto.
  - eexists. split; [reflexivity|]. constructor; cbn; auto. unfold broke_free. cbn. inversion A2; assumption.
  - eexists. split; [reflexivity|]. constructor; cbn; auto.
    + unfold broke_free. cbn. inversion A2; subst. constructor; [discriminate|assumption].
    + rewrite signalled_app, taken_app. cbn. rewrite A4. f_equal. lia.
    + rewrite takers_app. cbn. rewrite app_nil_r. exact A6.
    + rewrite queued_app, notified_app, A7. cbn. rewrite app_nil_r, <- !app_assoc. reflexivity.
    + rewrite A8. cbn [in_flight map app]. cbn [length]. lia.
    + rewrite failures_app, A9. reflexivity.
    + intros _. right. exists (s_log s), (e_id e), []. split; [reflexivity|exact Logic.I].
  - inversion A2; congruence.
Qed.

Lemma call_inv init c s : plain c -> inv init s -> exists s1, do_call c s = Ok s1 /\ inv init s1.
Proof.
  intros P I. pose proof I as [A1 A2 A3 A4 A5 A6 A7 A8 A9 A10].
  assert (W : forall n, 0 <= n < 2 ^ 64 -> may_proceed n s = true -> inv init
    {| s_wait := s_wait s; s_count := s_count s - n; s_broken := s_broken s; s_doing := s_doing s; s_stack := s_stack s;
       s_next := S (s_next s); s_log := s_log s ++ [Took (s_next s) n] |}).
  { intros n Hn M. unfold may_proceed, has_units in M. apply andb_prop in M. destruct M as (M1 & M2).
    destruct (s_wait s) as [|e w] eqn:Ew; [|discriminate]. apply Z.leb_le in M1.
    constructor; cbn; auto; try lia.
    - rewrite signalled_app, taken_app. cbn [signalled taken].
      replace (init + (signalled (s_log s) + 0) - (taken (s_log s) + (n + 0))) with (init + signalled (s_log s) - taken (s_log s) - n) by lia.
      rewrite unit_step; lia.
    - rewrite takers_app, app_nil_r. cbn [takers]. cbn in A6. rewrite app_nil_r in A6. rewrite A6. symmetry. apply (seq_S (s_next s) 0).
    - rewrite queued_app, notified_app, A7. cbn. rewrite !app_nil_r. reflexivity.
    - rewrite failures_app, A9. reflexivity. }
  destruct c as [n|n|n| |]; cbn [do_call plain] in *; [| | |contradiction|apply resume_inv; exact I].
  - eexists. split; [reflexivity|]. unfold wait. destruct (may_proceed n s) eqn:M; [apply W; [lia|exact M]|].
    rewrite A1. constructor; cbn [s_wait s_count s_broken s_doing s_stack s_next s_log]; auto.
    + rewrite signalled_app, taken_app. cbn. rewrite !Z.add_0_r. exact A4.
    + apply Forall_app. split; [exact A5|]. constructor; [cbn; lia|constructor].
    + rewrite takers_app, map_app, app_assoc. cbn [takers map]. rewrite app_nil_r, A6. symmetry. apply (seq_S (s_next s) 0).
    + rewrite queued_app, notified_app, A7, map_app. cbn. rewrite app_nil_r, !app_assoc. reflexivity.
    + rewrite failures_app, A9. reflexivity.
    + intros F. match type of F with fits ?s2 => apply (fits_more s s2 (Queued (s_next s))); try reflexivity; [discriminate| |exact A10|exact F] end.
      unfold fits, may_proceed, has_units in *. cbn. destruct (s_wait s) as [|e w]; cbn; [|auto].
      rewrite andb_true_r in M. lia.
  - eexists. split; [reflexivity|]. unfold try_wait. destruct (may_proceed n s) eqn:M; [apply W; [lia|exact M]|exact I].
  - unfold signal. rewrite A1.
    assert (Hu : (s_count s + n) mod 2 ^ 64 = (init + signalled (s_log s ++ [Signalled n]) - taken (s_log s ++ [Signalled n])) mod 2 ^ 64).
    { rewrite signalled_app, taken_app, A4. cbn [signalled taken]. rewrite Zplus_mod_idemp_l. f_equal. lia. }
    pose proof (Z.mod_pos_bound (s_count s + n) (2 ^ 64) eq_refl) as Hb.
    destruct (0 <? s_doing s) eqn:Ed.
    + eexists. split; [reflexivity|]. constructor; cbn; auto.
      * rewrite takers_app. cbn. rewrite app_nil_r. exact A6.
      * rewrite queued_app, notified_app, A7. cbn. rewrite !app_nil_r. reflexivity.
      * rewrite failures_app, A9. reflexivity.
      * intros _. left. lia.
    + destruct (grab ((s_count s + n) mod 2 ^ 64) (s_wait s)) as [[ready c] rest] eqn:G.
      destruct (grab_spec _ _ _ _ _ G) as (G1 & G2 & G3 & G4).
      destruct (took_simpl ready) as (T1 & T2 & T3 & T4 & T5).
      assert (Hf : in_flight (s_stack s) = []) by (destruct (in_flight (s_stack s)); [reflexivity|cbn [length] in A8; lia]).
      rewrite G1 in A5, A6, A7. specialize (G3 ltac:(rewrite G1; exact A5) ltac:(lia)).
      assert (Nn : 0 <= nums ready).
      { apply Forall_app in A5. destruct A5 as (A5 & _). clear - A5. unfold nums. induction A5; cbn [map taken]; lia. }
      apply resume_inv. constructor; cbn [s_wait s_count s_broken s_doing s_stack s_next s_log]; auto.
      * unfold broke_free in *. cbn. constructor; [discriminate|exact A2].
      * lia.
      * rewrite signalled_app, taken_app, T5. fold (nums ready).
        replace (init + (signalled (s_log s ++ [Signalled n]) + 0) - (taken (s_log s ++ [Signalled n]) + nums ready))
          with (init + signalled (s_log s ++ [Signalled n]) - taken (s_log s ++ [Signalled n]) - nums ready) by lia.
        rewrite unit_step; lia.
      * apply Forall_app in A5. apply A5.
      * rewrite !takers_app, T1. cbn [takers]. rewrite app_nil_r, <- app_assoc, <- map_app. exact A6.
      * rewrite !queued_app, !notified_app, T2, T3, A7, Hf. cbn [queued notified in_flight].
        rewrite !app_nil_r, Hf, app_nil_r, map_app. reflexivity.
      * cbn [in_flight]. rewrite Hf, app_nil_r, map_length. reflexivity.
      * rewrite !failures_app, A9, T4. reflexivity.
      * unfold fits. cbn. destruct rest; [intros []|]. lia.
Qed.

Lemma calls_inv init l : Forall plain l -> forall s, inv init s -> exists s1, do_calls l s = Ok s1 /\ inv init s1.
Proof.
  induction 1 as [|c l Hc Hl IH]; intros s I; cbn [do_calls]; [exists s; auto|].
  destruct (call_inv init c s Hc I) as (s1 & E & I1). rewrite E. cbn. apply IH, I1.
Qed.
Lemma inv_init count : 0 <= count < 2 ^ 64 -> inv count (sem_init count).
Proof.
  intros H. constructor; cbn; auto; try solve [constructor].
  - rewrite Z.add_0_r, Z.sub_0_r, Z.mod_small; lia.
  - intros [].
Qed.

Lemma sem_correct count l : 0 <= count < 2 ^ 64 -> Forall plain l -> exists s,
  do_calls l (sem_init count) = Ok s /\
  s_count s = (count + signalled (s_log s) - taken (s_log s)) mod 2 ^ 64 /\
  takers (s_log s) ++ map e_id (s_wait s) = seq 0 (s_next s) /\
  queued (s_log s) = notified (s_log s) ++ in_flight (s_stack s) ++ map e_id (s_wait s) /\
  failures (s_log s) = [].
Proof.
  intros Hc Hl. destruct (calls_inv count l Hl _ (inv_init count Hc)) as (s & E & I). exists s.
  destruct I. auto.
Qed.

Lemma sem_leftover count l s : 0 <= count < 2 ^ 64 -> Forall plain l -> do_calls l (sem_init count) = Ok s ->
  in_flight (s_stack s) = [] -> fits s ->
  exists l1 i l2, s_log s = l1 ++ [Notified i] ++ l2 /\ no_signal l2.
Proof.
  intros Hc Hl E Hf F. destruct (calls_inv count l Hl _ (inv_init count Hc)) as (s' & E' & I).
  rewrite E in E'. injection E' as <-. destruct (i_fits _ _ I F) as [K|K]; [|exact K].
  rewrite (i_doing _ _ I), Hf in K. cbn in K. lia.
Qed.

(** ** Broke *)
Notation is_fb := (fun f => match f with FBroke => true | _ => false end).
Lemma broke_free_existsb k : Forall (fun f => f <> FBroke) k <-> existsb is_fb k = false.
Proof.
  induction k as [|[r|] k IH]; cbn.
  - split; [reflexivity|constructor].
  - rewrite <- IH. split; [intros H; inversion H; assumption|intros H; constructor; [discriminate|exact H]].
  - split; [intros H; inversion H; congruence|discriminate].
Qed.
Record binv (s : sem) : Prop := {
  b_one : match s_stack s with FBroke :: k => existsb is_fb k = false | _ => True end;
  b_wait : existsb is_fb (s_stack s) = true -> s_wait s <> [];
  b_broken : existsb is_fb (s_stack s) = true -> s_broken s = true;
  b_gone : s_broken s = true -> existsb is_fb (s_stack s) = false -> s_wait s = [];
  b_tail : forall a k, s_stack s = FSignal a :: k -> existsb is_fb k = false;
  b_perm : Permutation (queued (s_log s))
    (notified (s_log s) ++ failures (s_log s) ++ in_flight (s_stack s) ++ map e_id (untouched s)) }.

Lemma resume_binv s : binv s -> exists s1, resume s = Ok s1 /\ binv s1.
Proof.
  intros I. pose proof I as [B1 B2 B3 B4 B5 B6]. unfold resume, untouched in *.
  destruct (s_stack s) as [|[[|e r]|] k] eqn:Es.
  - exists s. auto.
  - pose proof (B5 _ _ eq_refl) as B. cbn [existsb] in *. rewrite B in *. cbn in *. eexists. split; [reflexivity|]. unfold with_stack. constructor; cbn; auto.
    + destruct k as [|[]]; auto. discriminate.
    + congruence.
    + congruence.
    + intros a k2 ->. cbn in B. exact B.
    + unfold untouched. cbn. rewrite B. exact B6.
  - pose proof (B5 _ _ eq_refl) as B. cbn [existsb] in *. rewrite B in *. cbn in *. eexists. split; [reflexivity|]. constructor; cbn; rewrite ?B; auto; try discriminate.
    + intros a k2 Q. injection Q as <- <-. exact B.
    + unfold untouched. cbn. rewrite B. rewrite queued_app, notified_app, failures_app. cbn. rewrite !app_nil_r, <- app_assoc.
      rewrite B6. apply Permutation_app_head. cbn. symmetry. apply Permutation_middle.
  - cbn [existsb] in *. cbn in B2, B3, B4, B6. specialize (B2 eq_refl). specialize (B3 eq_refl).
    destruct (s_wait s) as [|e0 [|e r]]; [congruence| |]; (eexists; split; [reflexivity|]); constructor; cbn; auto; try discriminate; try congruence.
    + destruct k as [|[]]; auto. discriminate.
    + intros a k2 ->. exact B1.
    + unfold untouched. cbn. rewrite B1. exact B6.
    + unfold untouched. cbn. rewrite queued_app, notified_app, failures_app. cbn. rewrite !app_nil_r, <- app_assoc.
      rewrite B6. do 2 apply Permutation_app_head. cbn. symmetry. apply Permutation_middle.
Qed.

Lemma binv_call c s : binv s -> (c = CBroke -> broke_free s) -> exists s1, do_call c s = Ok s1 /\ binv s1.
Proof.
  intros I H. pose proof I as [B1 B2 B3 B4 B5 B6].
  assert (W : forall n m, may_proceed m s = true -> binv
    {| s_wait := s_wait s; s_count := s_count s - n; s_broken := s_broken s; s_doing := s_doing s; s_stack := s_stack s;
       s_next := S (s_next s); s_log := s_log s ++ [Took (s_next s) n] |}).
  { intros n m M. constructor; cbn; auto. unfold untouched in *. cbn. rewrite queued_app, notified_app, failures_app. cbn.
    rewrite !app_nil_r. exact B6. }
  destruct c as [n|n|n| |]; cbn [do_call]; [| | | |apply resume_binv, I].
  - eexists. split; [reflexivity|]. unfold wait. destruct (may_proceed n s) eqn:M; [exact (W n n M)|].
    destruct (s_broken s) eqn:Eb.
    + constructor; cbn; auto. unfold untouched in *. cbn. rewrite queued_app, notified_app, failures_app. cbn. rewrite !app_nil_r. exact B6.
    + assert (Ef : existsb is_fb (s_stack s) = false).
      { destruct (existsb is_fb (s_stack s)); [|reflexivity]. specialize (B3 eq_refl). discriminate. }
      constructor; cbn; auto; try congruence.
      unfold untouched in *. cbn. rewrite Ef in *. rewrite queued_app, notified_app, failures_app, map_app. cbn. rewrite !app_nil_r.
      rewrite B6, <- !app_assoc. reflexivity.
  - eexists. split; [reflexivity|]. unfold try_wait. destruct (may_proceed n s) eqn:M; [exact (W n n M)|exact I].
  - unfold signal. destruct (s_broken s) eqn:Eb; [exists s; auto|].
    assert (Ef : existsb is_fb (s_stack s) = false).
    { destruct (existsb is_fb (s_stack s)); [|reflexivity]. specialize (B3 eq_refl). discriminate. }
    destruct (0 <? s_doing s).
    + eexists. split; [reflexivity|]. constructor; cbn; auto; try congruence.
      unfold untouched in *. cbn. rewrite Ef in *. rewrite queued_app, notified_app, failures_app. cbn. rewrite !app_nil_r. exact B6.
    + destruct (grab ((s_count s + n) mod 2 ^ 64) (s_wait s)) as [[ready c] rest] eqn:G.
      destruct (grab_spec _ _ _ _ _ G) as (G1 & _). destruct (took_simpl ready) as (T1 & T2 & T3 & T4 & T5).
      apply resume_binv. unfold untouched in B6. rewrite Ef in B6. rewrite G1 in B6.
      constructor; cbn [s_wait s_count s_broken s_doing s_stack s_next s_log existsb]; auto; rewrite ?Ef; cbn [orb]; try discriminate; try congruence.
      * unfold untouched. cbn [s_stack existsb s_wait s_log]. rewrite Ef. rewrite !queued_app, !notified_app, !failures_app, T2, T3, T4. cbn.
        rewrite !app_nil_r, B6, map_app. do 2 apply Permutation_app_head. rewrite !app_assoc. apply Permutation_app_tail, Permutation_app_comm.
  - specialize (H eq_refl). apply broke_free_existsb in H. unfold broke. eexists. split; [reflexivity|].
    unfold untouched in *. rewrite H in *. destruct (s_wait s) as [|e r] eqn:Ew.
    + constructor; cbn; auto; try congruence. unfold untouched. cbn. rewrite H. exact B6.
    + constructor; cbn; auto; try discriminate. unfold untouched. cbn. rewrite queued_app, notified_app, failures_app. cbn.
      rewrite !app_nil_r, B6, <- app_assoc. do 2 apply Permutation_app_head. cbn. symmetry. apply Permutation_middle.
Qed.

Lemma broke_correct count l : orderly l (sem_init count) -> exists s,
  do_calls l (sem_init count) = Ok s /\
  Permutation (queued (s_log s)) (notified (s_log s) ++ failures (s_log s) ++ in_flight (s_stack s) ++ map e_id (untouched s)) /\
  (s_broken s = true -> s_stack s = [] -> s_wait s = [] /\ Permutation (queued (s_log s)) (notified (s_log s) ++ failures (s_log s))).
Proof.
  intros O. assert (K : exists s, do_calls l (sem_init count) = Ok s /\ binv s).
  { assert (I : binv (sem_init count)) by (constructor; cbn; auto; discriminate).
    revert O I. generalize (sem_init count). induction l as [|c l IH]; intros s O I; cbn [do_calls]; [exists s; auto|].
    cbn in O. destruct O as (O1 & O2). destruct (binv_call c s I O1) as (s1 & E & I1). rewrite E in *. cbn. apply IH; assumption. }
  destruct K as (s & E & [B1 B2 B3 B4 B5 B6]). exists s. split; [exact E|]. split; [exact B6|].
  intros Hb Hs. unfold untouched in B6. rewrite Hs in *. cbn in *. rewrite (B4 Hb eq_refl) in *. split; [reflexivity|].
  cbn in B6. rewrite app_nil_r in B6. exact B6.
Qed.

(** ** Read-write lock *)
Lemma max_ops_eq : max_ops = 2 ^ 64 - 1. Proof. reflexivity. Qed.
Definition lock_num (n : Z) : Prop := n = 1 \/ n = max_ops.
Lemma lock_nums l : Forall (fun e => lock_num (e_num e)) l ->
  nums l = readers (took l) + max_ops * writers (took l) /\ 0 <= readers (took l) /\ 0 <= writers (took l).
Proof.
  unfold nums. induction 1 as [|e l [He|He] Hl (IH1 & IH2 & IH3)]; cbn [map taken readers writers]; [lia| |]; rewrite He.
  - change (1 =? 1) with true. cbv iota. lia.
  - change (max_ops =? 1) with false. cbv iota. lia.
Qed.
Record rinv (s : sem) : Prop := {
  r_inv : inv max_ops s;
  r_locks : Forall (fun e => lock_num (e_num e)) (s_wait s);
  r_count : s_count s = max_ops - readers (s_log s) - max_ops * writers (s_log s);
  r_readers : 0 <= readers (s_log s);
  r_writers : 0 <= writers (s_log s) }.

Lemma resume_rinv s s1 : rinv s -> resume s = Ok s1 -> inv max_ops s1 -> rinv s1.
Proof.
  intros [R1 R2 R3 R4 R5] E I1. unfold resume in E. destruct (s_stack s) as [|[[|e r]|] k] eqn:Es.
  - injection E as <-. constructor; auto.
  - injection E as <-. constructor; auto.
  - injection E as <-. constructor; cbn [s_wait s_count s_log]; rewrite ?readers_app, ?writers_app; cbn [readers writers]; try lia; assumption.
  - pose proof (i_sig _ _ R1) as H. unfold broke_free in H. rewrite Es in H. inversion H; congruence.
Qed.

Lemma rinv_step c s : rinv s ->
  match c with RwReadUnlock => 0 < readers (s_log s) | RwWriteUnlock => 0 < writers (s_log s) | _ => True end ->
  exists s1, do_call (rw_to_sem c) s = Ok s1 /\ rinv s1.
Proof.
  intros R M. pose proof R as [R1 R2 R3 R4 R5].
  assert (P : plain (rw_to_sem c)) by (destruct c; cbn; rewrite ?max_ops_eq; lia || exact Logic.I).
  destruct (call_inv max_ops _ s P R1) as (s1 & E & I1). exists s1. split; [exact E|].
  assert (W : forall n, lock_num n -> do_call (CWait n) s = Ok s1 \/ do_call (CTryWait n) s = Ok s1 -> rinv s1).
  { intros n Hn Q. pose proof max_ops_eq as Mx.
    assert (T : s1 = {| s_wait := s_wait s; s_count := s_count s - n; s_broken := s_broken s; s_doing := s_doing s; s_stack := s_stack s;
       s_next := S (s_next s); s_log := s_log s ++ [Took (s_next s) n] |} -> rinv s1).
    { intros ->. constructor; auto; cbn [s_wait s_count s_log]; rewrite ?readers_app, ?writers_app; cbn [readers writers]; auto;
        destruct Hn as [->| ->]; change (1 =? 1) with true; change (max_ops =? 1) with false; cbv iota; lia. }
    cbn [do_call] in Q. unfold wait, try_wait in Q. destruct (may_proceed n s); [destruct Q as [Q|Q]; injection Q as Q; apply T; congruence|].
    rewrite (i_ok _ _ R1) in Q. destruct Q as [Q|Q]; injection Q as Q; rewrite <- Q in *; [|exact R].
    constructor; auto; cbn [s_wait s_count s_log]; rewrite ?readers_app, ?writers_app; cbn [readers writers]; auto; try lia.
    apply Forall_app. split; [exact R2|]. constructor; [exact Hn|constructor]. }
  assert (S : forall n, (n = 1 /\ 0 < readers (s_log s)) \/ (n = max_ops /\ 0 < writers (s_log s)) -> do_call (CSignal n) s = Ok s1 -> rinv s1).
  { intros n Hn Q. cbn [do_call] in Q. unfold signal in Q. rewrite (i_ok _ _ R1) in Q. pose proof max_ops_eq as Mx.
    assert (Wr : writers (s_log s) = 0 \/ writers (s_log s) = 1 /\ readers (s_log s) = 0).
    { pose proof (i_count _ _ R1). nia. }
    assert (Hc : (s_count s + n) mod 2 ^ 64 = s_count s + n).
    { apply Z.mod_small. pose proof (i_count _ _ R1). destruct Hn as [(-> & Hn)|(-> & Hn)]; [nia|].
      destruct Wr as [Wr|(Wr & Wr2)]; [lia|]. rewrite Wr, Wr2 in R3. lia. }
    rewrite Hc in Q.
    assert (L : s_count s + n = max_ops - readers (s_log s ++ [Signalled n]) - max_ops * writers (s_log s ++ [Signalled n]) /\
                0 <= readers (s_log s ++ [Signalled n]) /\ 0 <= writers (s_log s ++ [Signalled n])).
    { rewrite readers_app, writers_app. cbn [readers writers]. destruct Hn as [(-> & Hn)|(-> & Hn)];
        change (1 =? 1) with true; change (max_ops =? 1) with false; cbv iota; lia. }
    destruct L as (L1 & L2 & L3).
    destruct (0 <? s_doing s).
    - injection Q as <-. constructor; auto.
    - destruct (grab (s_count s + n) (s_wait s)) as [[ready c0] rest] eqn:G.
      destruct (grab_spec _ _ _ _ _ G) as (G1 & G2 & _ & _). rewrite G1 in R2. apply Forall_app in R2. destruct R2 as (R2a & R2b).
      destruct (lock_nums ready R2a) as (N1 & N2 & N3).
      unfold resume in Q. cbn [s_stack] in Q. destruct ready as [|e r]; injection Q as <-; constructor; auto;
        unfold with_stack; cbn [s_wait s_count s_log]; rewrite ?readers_app, ?writers_app in *; cbn [map readers writers] in *; try lia; auto. }
  destruct c; cbn [rw_to_sem] in E.
  - apply (W 1); [left; reflexivity|auto].
  - apply (W max_ops); [right; reflexivity|auto].
  - apply (W 1); [left; reflexivity|auto].
  - apply (W max_ops); [right; reflexivity|auto].
  - apply (S 1); auto.
  - apply (S max_ops); auto.
  - eapply resume_rinv; [exact R|exact E|exact I1].
Qed.

Lemma rw_correct l : matched l (sem_init max_ops) -> exists s,
  do_calls (map rw_to_sem l) (sem_init max_ops) = Ok s /\
  0 <= readers (s_log s) /\ 0 <= writers (s_log s) <= 1 /\ (writers (s_log s) = 1 -> readers (s_log s) = 0) /\
  takers (s_log s) ++ map e_id (s_wait s) = seq 0 (s_next s).
Proof.
  intros O. assert (K : exists s, do_calls (map rw_to_sem l) (sem_init max_ops) = Ok s /\ rinv s).
  { assert (I : rinv (sem_init max_ops)).
    { constructor; cbn [s_wait s_count s_log sem_init readers writers]; auto; try lia. apply inv_init. rewrite max_ops_eq. lia. }
    revert O I. generalize (sem_init max_ops). induction l as [|c l IH]; intros s O I; cbn [map do_calls]; [exists s; auto|].
    cbn [matched] in O. destruct O as (O1 & O2). destruct (rinv_step c s I O1) as (s1 & E & I1). rewrite E in *. cbn. apply IH; assumption. }
  destruct K as (s & E & [R1 R2 R3 R4 R5]). exists s. split; [exact E|]. split; [exact R4|].
  pose proof (i_count _ _ R1) as C. pose proof max_ops_eq as Mx. assert (Wb : writers (s_log s) <= 1) by nia. split; [lia|].
  split; [intros Hw; rewrite Hw in R3; lia|]. exact (i_takers _ _ R1).
Qed.
