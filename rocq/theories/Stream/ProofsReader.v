(** Proofs about the reading side. *)
From Coq Require Import Permutation.
From Verif.Lib Require Import Base.
From Verif.Stream Require Import ModelReader SpecReader.
Local Open Scope Z_scope.

Section Proofs.
Context {A : Type}.
Implicit Types (l : list (call A)) (s : rd A).

Fixpoint somes (q : list (option A)) : list A :=
  match q with [] => [] | Some m :: r => m :: somes r | None :: r => somes r end.
Lemma somes_app a b : somes (a ++ b) = somes a ++ somes b.
Proof. induction a as [|[m|] a IH]; cbn [app somes]; [reflexivity| |]; rewrite IH; reflexivity. Qed.
Lemma delivered_app (a b : list (rresult A)) : delivered (a ++ b) = delivered a ++ delivered b.
Proof. induction a as [|[| |c [m|]] a IH]; cbn [app delivered]; auto. cbn. rewrite IH. reflexivity. Qed.
Lemma received_app l1 l2 : received (l1 ++ l2) = received l1 ++ received l2.
Proof. induction l1 as [|[|m|c|c|] l1 IH]; cbn [app received]; auto. rewrite IH. reflexivity. Qed.

Lemma do_call_somes c s : forall s1 r, do_call c s = (s1, r) ->
  somes (r_msgs s) ++ received [c] = delivered r ++ somes (r_msgs s1).
Proof.
  intros s1 r H. destruct c as [|m|x|x|]; cbn [do_call] in H.
  - injection H as <- <-. cbn. rewrite app_nil_r. unfold on_ready. destruct (r_state s); reflexivity.
  - injection H as <- <-. cbn. rewrite somes_app. reflexivity.
  - injection H as <- <-. cbn. rewrite app_nil_r. unfold on_finish. destruct (r_state s); cbn; rewrite ?somes_app, ?app_nil_r; reflexivity.
  - injection H as <- <-. cbn. rewrite app_nil_r. unfold on_error. destruct (r_state s); reflexivity.
  - unfold read in H. cbn [received]. rewrite app_nil_r.
    destruct (r_msgs s) as [|[m|] q] eqn:E; [destruct (r_state s)| |destruct (r_state s)]; injection H as <- <-;
      cbn; rewrite ?E; reflexivity.
Qed.

Lemma do_calls_somes l : forall s s1 r, do_calls l s = (s1, r) ->
  somes (r_msgs s) ++ received l = delivered r ++ somes (r_msgs s1).
Proof.
  induction l as [|c l IH]; intros s s1 r H.
  - injection H as <- <-. cbn. apply app_nil_r.
  - cbn [do_calls] in H. destruct (do_call c s) as [s2 r2] eqn:E. destruct (do_calls l s2) as [s3 r3] eqn:E3.
    injection H as <- <-. change (c :: l) with ([c] ++ l). rewrite received_app, app_assoc.
    rewrite (do_call_somes c s _ _ E), <- app_assoc, (IH _ _ _ E3), delivered_app, <- app_assoc. reflexivity.
Qed.

Lemma fifo l : exists rest, received l = delivered (snd (do_calls l rd_init)) ++ rest.
Proof.
  destruct (do_calls l rd_init) as [s r] eqn:E. exists (somes (r_msgs s)).
  apply (do_calls_somes l _ _ _ E).
Qed.

Lemma do_calls_app l1 l2 s : do_calls (l1 ++ l2) s =
  let (s1, r1) := do_calls l1 s in let (s2, r2) := do_calls l2 s1 in (s2, r1 ++ r2).
Proof.
  revert s. induction l1 as [|c l1 IH]; intros s; cbn [app do_calls]; [destruct (do_calls l2 s); reflexivity|].
  destruct (do_call c s) as [s1 r1]. rewrite IH. destruct (do_calls l1 s1) as [s2 r2]. destruct (do_calls l2 s2) as [s3 r3].
  rewrite <- app_assoc. reflexivity.
Qed.

(** While the stream runs: every queued element is a message, status OK. *)
Lemma run_ok l : Forall running_call l -> forall s s1 r, r_state s <> Error -> r_state s <> Finished -> r_status s = 0 ->
  r_msgs s = map Some (somes (r_msgs s)) ->
  do_calls l s = (s1, r) ->
  r_state s1 <> Error /\ r_state s1 <> Finished /\ r_status s1 = 0 /\ r_msgs s1 = map Some (somes (r_msgs s1)) /\
  Forall (fun x => x = RWait \/ exists m, x = RStatus 0 (Some m)) r.
Proof.
  induction 1 as [|c l Hc Hl IH]; intros s s1 r H1 H1f H2 H3 E.
  - injection E as <- <-. auto.
  - cbn [do_calls] in E. destruct (do_call c s) as [s2 r2] eqn:E2. destruct (do_calls l s2) as [s3 r3] eqn:E3.
    injection E as <- <-.
    assert (K : r_state s2 <> Error /\ r_state s2 <> Finished /\ r_status s2 = 0 /\ r_msgs s2 = map Some (somes (r_msgs s2)) /\
      Forall (fun x => x = RWait \/ exists m, x = RStatus 0 (Some m)) r2).
    { destruct c as [|m|x|x|]; try contradiction; cbn [do_call] in E2.
      - injection E2 as <- <-. unfold on_ready. destruct (r_state s) eqn:Es; cbn; rewrite ?Es; repeat split; auto; try discriminate; congruence.
      - injection E2 as <- <-. cbn. rewrite somes_app, map_app, <- H3. repeat split; auto.
      - unfold read in E2. destruct (r_msgs s) as [|[m|] q] eqn:Em.
        + destruct (r_state s) eqn:Es; injection E2 as <- <-; rewrite ?Es, ?Em; repeat split; auto; congruence.
        + injection E2 as <- <-. cbn. cbn in H3. injection H3 as H3. repeat split; auto.
          constructor; [right; exists m; rewrite H2; reflexivity|constructor].
        + exfalso. cbn in H3. destruct (somes q); discriminate. }
    destruct K as (K1 & K1f & K2 & K3 & K4). destruct (IH _ _ _ K1 K1f K2 K3 E3) as (J1 & J1f & J2 & J3 & J4).
    repeat split; auto. apply Forall_app. auto.
Qed.

(** Reading out a finished queue. *)
Lemma read_out n : forall ds s, r_msgs s = map Some ds ++ [None] -> r_state s <> Error ->
  snd (do_calls (repeat CRead n) s) =
    map (fun m => RStatus (r_status s) (Some m)) (firstn n ds) ++ repeat REof (n - length ds).
Proof.
  induction n as [|n IH]; intros ds s Hm Hs; [reflexivity|].
  cbn [repeat do_calls do_call]. unfold read at 1. destruct ds as [|d ds]; cbn [map app] in Hm; rewrite Hm.
  - assert (E : (match r_state s with Error => (RStatus (r_status s) None, s) | _ => (REof, s) end) = (@REof A, s)).
    { destruct (r_state s); try reflexivity. contradiction. }
    rewrite E. cbv iota beta. specialize (IH [] s Hm Hs). destruct (do_calls (repeat CRead n) s). cbn [snd] in *.
    rewrite IH. rewrite !firstn_nil. cbn. rewrite Nat.sub_0_r. reflexivity.
  - specialize (IH ds {| r_msgs := map Some ds ++ [None]; r_state := r_state s; r_status := r_status s |} eq_refl Hs).
    destruct (do_calls (repeat CRead n) _) as [s9 r9]. cbn [snd] in *. rewrite IH. reflexivity.
Qed.

Lemma complete l n c : Forall running_call l ->
  forall r s, do_calls l rd_init = (s, r) -> exists rest,
    received l = delivered r ++ rest /\
    Forall (fun x => x = RWait \/ exists m, x = RStatus 0 (Some m)) r /\
    snd (do_calls (l ++ [CFinish c] ++ repeat CRead n) rd_init) =
      r ++ map (fun m => RStatus c (Some m)) (firstn n rest) ++ repeat REof (n - length rest).
Proof.
  intros Hl r s E.
  destruct (run_ok l Hl rd_init s r) as (H1 & H1f & H2 & H3 & H4); [discriminate|discriminate|reflexivity|reflexivity|exact E|].
  exists (somes (r_msgs s)). split; [apply (do_calls_somes l _ _ _ E)|]. split; [exact H4|].
  rewrite do_calls_app, E. cbn [app do_calls do_call].
  set (s2 := on_finish c s).
  assert (Hm2 : r_msgs s2 = map Some (somes (r_msgs s)) ++ [None]).
  { unfold s2, on_finish. destruct (r_state s); try congruence; cbn; congruence. }
  assert (Hs2 : r_state s2 <> Error /\ r_status s2 = c).
  { unfold s2, on_finish. destruct (r_state s); try congruence; cbn; split; congruence. }
  destruct Hs2 as (Hs2 & Hc2).
  pose proof (read_out n _ s2 Hm2 Hs2) as K. destruct (do_calls (repeat CRead n) s2). cbn [snd] in *.
  rewrite K, Hc2. reflexivity.
Qed.

(** Reading out a failed stream. *)
Lemma read_out_error n : forall ds s, r_msgs s = map Some ds -> r_state s = Error ->
  snd (do_calls (repeat CRead n) s) =
    map (fun m => RStatus (r_status s) (Some m)) (firstn n ds) ++ repeat (RStatus (r_status s) None) (n - length ds).
Proof.
  induction n as [|n IH]; intros ds s Hm Hs; [reflexivity|].
  cbn [repeat do_calls do_call]. unfold read at 1. destruct ds as [|d ds]; cbn [map app] in Hm; rewrite Hm.
  - rewrite Hs. cbv iota beta. specialize (IH [] s Hm Hs). destruct (do_calls (repeat CRead n) s). cbn [snd] in *.
    rewrite IH. rewrite !firstn_nil. cbn. rewrite Nat.sub_0_r. reflexivity.
  - specialize (IH ds {| r_msgs := map Some ds; r_state := r_state s; r_status := r_status s |} eq_refl Hs).
    destruct (do_calls (repeat CRead n) _) as [s9 r9]. cbn [snd] in *. rewrite IH. reflexivity.
Qed.

Lemma complete_error l n c : Forall running_call l ->
  forall r s, do_calls l rd_init = (s, r) -> exists rest,
    received l = delivered r ++ rest /\
    snd (do_calls (l ++ [CError c] ++ repeat CRead n) rd_init) =
      r ++ map (fun m => RStatus c (Some m)) (firstn n rest) ++ repeat (RStatus c None) (n - length rest).
Proof.
  intros Hl r s E.
  destruct (run_ok l Hl rd_init s r) as (H1 & H1f & H2 & H3 & H4); [discriminate|discriminate|reflexivity|reflexivity|exact E|].
  exists (somes (r_msgs s)). split; [apply (do_calls_somes l _ _ _ E)|].
  rewrite do_calls_app, E. cbn [app do_calls do_call].
  set (s2 := on_error c s).
  assert (Hs2 : r_msgs s2 = map Some (somes (r_msgs s)) /\ r_state s2 = Error /\ r_status s2 = c).
  { unfold s2, on_error. destruct (r_state s); try congruence; cbn; auto. }
  destruct Hs2 as (Hm2 & Hs2 & Hc2).
  pose proof (read_out_error n _ s2 Hm2 Hs2) as K. destruct (do_calls (repeat CRead n) s2). cbn [snd] in *.
  rewrite K, Hc2. reflexivity.
Qed.

(** ** Asynchronous reads *)
Record ainv (s : ard A) : Prop := {
  ai_wait : forall p, p_pending s = Some p -> r_msgs (p_rd s) = [] /\ r_state (p_rd s) <> Error;
  ai_next : forall p, p_pending s = Some p -> 0 <= p < p_next s /\ (forall q, In q (map fst (p_done s)) -> q < p);
  ai_pos : 0 <= p_next s;
  ai_done : forall q, In q (map fst (p_done s)) -> q < p_next s;
  ai_nodup : NoDup (map fst (p_done s)) }.

(** Before notifying. *)
Record apre (s : ard A) : Prop := {
  ap_next : forall p, p_pending s = Some p -> 0 <= p < p_next s /\ (forall q, In q (map fst (p_done s)) -> q < p);
  ap_pos : 0 <= p_next s;
  ap_done : forall q, In q (map fst (p_done s)) -> q < p_next s;
  ap_nodup : NoDup (map fst (p_done s)) }.

Lemma nodup_snoc (l : list Z) p : NoDup l -> (forall q, In q l -> q < p) -> NoDup (l ++ [p]).
Proof.
  intros H1 H2. eapply Permutation_NoDup; [apply Permutation_cons_append|].
  constructor; [|exact H1]. intros I. specialize (H2 p I). lia.
Qed.

Lemma notify_inv (s : ard A) : apre s -> ainv (notify_pending s).
Proof.
  intros [P1 P0 P2 P3]. unfold notify_pending. destruct (p_pending s) as [p|] eqn:Ep.
  2:{ constructor; rewrite ?Ep; try discriminate; assumption. }
  destruct (P1 p eq_refl) as (Hp & Hq).
  assert (K : forall r d, ainv {| p_rd := d; p_pending := None; p_next := p_next s; p_done := p_done s ++ [(p, r)] |}).
  { intros r d. constructor; cbn; try discriminate; try assumption.
    - intros q I. rewrite map_app in I. apply in_app_or in I. destruct I as [I|[I|[]]]; [exact (P2 _ I)|]. cbn in I. lia.
    - rewrite map_app. apply nodup_snoc; assumption. }
  destruct (r_msgs (p_rd s)) as [|[m|] q] eqn:Em.
  - destruct (r_state (p_rd s)) eqn:Es; try apply K;
      (constructor; [intros p0 H; split; [exact Em|rewrite Es; discriminate]
        |intros p0 H; rewrite Ep in H; injection H as <-; split; assumption|exact P0|exact P2|exact P3]).
  - apply K.
  - destruct (r_state (p_rd s)); apply K.
Qed.

Lemma ainv_pre (s : ard A) d : ainv s -> apre (with_rd d s).
Proof. intros [I1 I2 I0 I3 I4]. constructor; cbn; assumption. Qed.

Lemma acall_inv c (s : ard A) : ainv s -> ainv (do_acall c s).
Proof.
  intros I. destruct c as [|m|x|x|]; cbn [do_acall].
  - destruct I as [I1 I2 I0 I3 I4]. unfold a_ready. constructor; cbn; try assumption.
    intros p Hp. destruct (I1 p Hp). unfold on_ready. destruct (r_state (p_rd s)) eqn:E; cbn; split; try assumption; try discriminate; congruence.
  - apply notify_inv, ainv_pre, I.
  - unfold a_finish. destruct (r_state (p_rd s)); try exact I; apply notify_inv, ainv_pre, I.
  - unfold a_error. destruct (r_state (p_rd s)); try exact I; apply notify_inv, ainv_pre, I.
  - apply notify_inv. destruct I as [I1 I2 I0 I3 I4]. constructor; cbn; try lia; try assumption.
    all: try (intros q Hq; specialize (I3 q Hq); lia).
    intros p H. injection H as <-. split; [lia|assumption].
Qed.

Lemma acalls_inv l : ainv (do_acalls l ard_init).
Proof.
  unfold do_acalls. assert (I : ainv (@ard_init A)).
  { constructor; cbn; try discriminate; try lia; try constructor. }
  revert I. generalize (@ard_init A). induction l as [|c l IH]; intros s I; [exact I|].
  cbn [fold_left]. apply IH, acall_inv, I.
Qed.

(** Order. *)
Lemma a_delivered_app (a b : list (Z * aresult A)) : a_delivered (a ++ b) = a_delivered a ++ a_delivered b.
Proof. induction a as [|[z [m| |c]] a IH]; cbn [app a_delivered]; auto. rewrite IH. reflexivity. Qed.

Lemma notify_somes (s : ard A) :
  a_delivered (p_done (notify_pending s)) ++ somes (r_msgs (p_rd (notify_pending s))) =
  a_delivered (p_done s) ++ somes (r_msgs (p_rd s)).
Proof.
  unfold notify_pending. destruct (p_pending s); [|reflexivity].
  destruct (r_msgs (p_rd s)) as [|[m|] q] eqn:Em; [destruct (r_state (p_rd s))| |destruct (r_state (p_rd s))]; cbn;
    rewrite ?a_delivered_app, ?Em, <- ?app_assoc; cbn; reflexivity.
Qed.

Lemma acall_somes c (s : ard A) :
  a_delivered (p_done (do_acall c s)) ++ somes (r_msgs (p_rd (do_acall c s))) =
  (a_delivered (p_done s) ++ somes (r_msgs (p_rd s))) ++ received [c].
Proof.
  destruct c as [|m|x|x|]; cbn [do_acall received]; rewrite ?app_nil_r.
  - unfold a_ready, on_ready. cbn. destruct (r_state (p_rd s)); reflexivity.
  - unfold a_data. rewrite notify_somes. cbn. rewrite somes_app, app_assoc. reflexivity.
  - unfold a_finish. destruct (r_state (p_rd s)) eqn:E; try reflexivity; rewrite notify_somes; cbn; unfold on_finish; rewrite E;
      cbn; rewrite somes_app; cbn; rewrite app_nil_r; reflexivity.
  - unfold a_error. destruct (r_state (p_rd s)) eqn:E; try reflexivity; rewrite notify_somes; cbn; unfold on_error; rewrite E; reflexivity.
  - unfold async_read. rewrite notify_somes. reflexivity.
Qed.

Lemma acalls_somes l : forall s : ard A,
  a_delivered (p_done (do_acalls l s)) ++ somes (r_msgs (p_rd (do_acalls l s))) =
  (a_delivered (p_done s) ++ somes (r_msgs (p_rd s))) ++ received l.
Proof.
  induction l as [|c l IH]; intros s; [cbn; rewrite app_nil_r; reflexivity|].
  change (do_acalls (c :: l) s) with (do_acalls l (do_acall c s)). rewrite IH, acall_somes, <- app_assoc.
  change (c :: l) with ([c] ++ l). rewrite received_app. reflexivity.
Qed.

Lemma a_fifo l : exists rest, received l = a_delivered (p_done (do_acalls l ard_init)) ++ rest /\
  NoDup (map fst (p_done (do_acalls l (@ard_init A)))) /\
  (forall p, p_pending (do_acalls l ard_init) = Some p -> rest = [] /\ r_state (p_rd (do_acalls l (@ard_init A))) <> Error).
Proof.
  exists (somes (r_msgs (p_rd (do_acalls l ard_init)))). pose proof (acalls_inv l) as I.
  split; [symmetry; apply (acalls_somes l ard_init)|]. split; [apply (ai_nodup _ I)|].
  intros p Hp. destruct (ai_wait _ I p Hp) as (E & H). rewrite E. auto.
Qed.

(** Every read has its promise resolved, or is the one that is pending. *)
Definition pend (s : ard A) : Z := match p_pending s with None => 0 | Some _ => 1 end.
Definition account (s : ard A) : Z := Z.of_nat (length (p_done s)) + pend s.

Lemma notify_account (s : ard A) : account (notify_pending s) = account s.
Proof.
  unfold notify_pending, account, pend. destruct (p_pending s) as [p|] eqn:Ep; [|rewrite Ep; reflexivity].
  destruct (r_msgs (p_rd s)) as [|[m|] q] eqn:Em; [destruct (r_state (p_rd s))| |destruct (r_state (p_rd s))]; cbn;
    rewrite ?Ep, ?app_length; cbn [length]; lia.
Qed.

Lemma acall_account c (s : ard A) : (c = CRead -> p_pending s = None) ->
  account (do_acall c s) = account s + count_reads [c].
Proof.
  intros H. destruct c as [|m|x|x|]; cbn [do_acall count_reads]; rewrite ?Z.add_0_r.
  - reflexivity.
  - unfold a_data. rewrite notify_account. reflexivity.
  - unfold a_finish. destruct (r_state (p_rd s)); try reflexivity; rewrite notify_account; reflexivity.
  - unfold a_error. destruct (r_state (p_rd s)); try reflexivity; rewrite notify_account; reflexivity.
  - unfold async_read. rewrite notify_account. unfold account, pend. cbn. rewrite (H eq_refl). lia.
Qed.

Lemma count_reads_cons c l : count_reads (c :: l) = count_reads [c] + count_reads l.
Proof. destruct c; cbn [count_reads]; lia. Qed.

Lemma acalls_account l : forall s : ard A, polite l s -> account (do_acalls l s) = account s + count_reads l.
Proof.
  induction l as [|c l IH]; intros s P; [cbn; lia|]. destruct P as (P1 & P2).
  change (do_acalls (c :: l) s) with (do_acalls l (do_acall c s)).
  rewrite IH by exact P2. rewrite acall_account by exact P1. rewrite (count_reads_cons c l). lia.
Qed.

Lemma a_all l : polite l (@ard_init A) ->
  Z.of_nat (length (p_done (do_acalls l (@ard_init A)))) =
    count_reads l - match p_pending (do_acalls l (@ard_init A)) with None => 0 | Some _ => 1 end.
Proof.
  intros P. pose proof (acalls_account l ard_init P) as H. change (account ard_init) with 0 in H. unfold account, pend in H. lia.
Qed.
End Proofs.
