(** Lemmas about the seconds limiter. *)
From Verif.Lib Require Import Base ListX.
From Verif.Overload Require Import Model Spec.
Local Open Scope Z_scope.

(** ** Non-overlapping callers *)

(** Earlier requests of the same second. *)
Fixpoint earlier (s : Z) (times : list Z) : Z :=
  match times with [] => 0 | t :: r => (if t =? s then 1 else 0) + earlier s r end.

Lemma earlier_app s a b : earlier s (a ++ b) = earlier s a + earlier s b.
Proof. induction a as [|t a IH]; cbn [app earlier]; [lia|]. rewrite IH. lia. Qed.

Lemma earlier_nonneg s l : 0 <= earlier s l.
Proof. induction l as [|t l IH]; cbn [earlier]; [lia|]. destruct (t =? s); lia. Qed.

Lemma earlier_lt s l : Forall (fun t => t < s) l -> earlier s l = 0.
Proof. induction 1 as [|t l H _ IH]; cbn [earlier]; auto. replace (t =? s) with false by lia. lia. Qed.

(** What the table means after the history [hist] (latest last), the latest second being [now]. *)
Definition sl_ok (st : seconds) (hist : list Z) (now : Z) : Prop :=
  (0 < length st)%nat /\ Forall (fun t => 0 <= t <= now) hist /\
  forall k, (k < length st)%nat ->
    let '(c, ts) := nth k st (0, 0) in
    0 <= ts <= now /\
    ((Z.to_nat (ts mod Z.of_nat (length st)) = k /\ c = earlier ts hist) \/ (ts = 0 /\ k <> O)) /\
    forall s, 0 <= s -> Z.to_nat (s mod Z.of_nat (length st)) = k -> ts < s -> earlier s hist = 0.

Lemma sl_check_ok limit st hist now t :
  sl_ok st hist now -> 0 <= now <= t ->
  sl_ok (fst (sl_check limit st t)) (hist ++ [t]) t /\
  snd (sl_check limit st t) = (limit <? earlier t hist + 1).
Proof.
  intros (Hl & Hh & Hk) Ht. unfold sl_check.
  set (k := Z.to_nat (t mod Z.of_nat (length st))).
  assert (Bk : (k < length st)%nat) by (pose proof (Z.mod_pos_bound t (Z.of_nat (length st)) ltac:(lia)); lia).
  pose proof (Hk k Bk) as K. destruct (nth k st (0, 0)) as [c ts] eqn:En.
  destruct K as (K1 & K3 & K4).
  assert (Hc : (if negb (ts =? t) then (0, t) else (c, ts)) = (earlier t hist, t)).
  { destruct (ts =? t) eqn:E; cbn [negb].
    - destruct K3 as [[_ ->]|[K3 K5]]; [f_equal; [f_equal|]; lia|].
      exfalso. apply K5. unfold k. replace t with 0 by lia. rewrite Zmod_0_l. reflexivity.
    - f_equal. symmetry. apply K4; auto; lia. }
  rewrite Hc. cbn [fst snd]. split; [|reflexivity].
  split; [rewrite lset_length; auto|]. split.
  { apply Forall_app. split; [|repeat constructor; lia]. eapply Forall_impl; [|exact Hh]. cbn. intros; lia. }
  rewrite lset_length. intros j Hj. rewrite nth_lset by auto.
  destruct (Nat.eqb_spec j k) as [->|Hne].
  - split; [lia|]. split; [left; split; [reflexivity|]; rewrite earlier_app; cbn [earlier]; rewrite Z.eqb_refl; lia|].
    intros s Hs Hsk Hlt. rewrite earlier_app. cbn [earlier].
    replace (t =? s) with false by lia.
    rewrite earlier_lt; [lia|]. eapply Forall_impl; [|exact Hh]. cbn. intros; lia.
  - pose proof (Hk j Hj) as J. destruct (nth j st (0, 0)) as [c' ts'].
    destruct J as (J1 & J3 & J4).
    split; [lia|]. split.
    { destruct J3 as [[J3 ->]|J3]; auto. left. split; auto. rewrite earlier_app. cbn [earlier].
      destruct (t =? ts') eqn:E; [|lia].
      assert (t = ts') by lia. subst ts'. fold k in J3. congruence. }
    intros s Hs Hsk Hlt. rewrite earlier_app, J4 by auto. cbn [earlier].
    replace (t =? s) with false; [lia|]. symmetry. apply Z.eqb_neq. intros ->. fold k in Hsk. congruence.
Qed.

Lemma sl_init_ok window : sl_ok (sl_init window) [] 0.
Proof.
  unfold sl_init. set (n := Z.to_nat _).
  assert (Hn : (0 < n)%nat) by (subst n; destruct (window <=? 0) eqn:E; lia).
  split; [rewrite repeat_length; auto|]. split; [constructor|].
  rewrite repeat_length. intros k Hk. rewrite nth_repeat. split; [lia|]. split.
  - destruct k; [left|right; split; auto]. rewrite Zmod_0_l. auto.
  - reflexivity.
Qed.

(** The decisions, as the specification wants them. *)
Fixpoint decisions (limit : Z) (hist times : list Z) : list bool :=
  match times with
  | [] => []
  | t :: r => (limit <? earlier t hist + 1) :: decisions limit (hist ++ [t]) r
  end.

Lemma sl_run_spec limit times : forall st hist now,
  sl_ok st hist now -> 0 <= now -> ordered now times ->
  snd (sl_run limit st times) = decisions limit hist times.
Proof.
  induction times as [|t ts IH]; intros st hist now Hok Hn Ho; cbn [sl_run decisions]; [reflexivity|].
  destruct Ho as [Ht Ho]. destruct (sl_check_ok limit st hist now t Hok (conj Hn Ht)) as [Hok' E].
  destruct (sl_check limit st t) as [s1 a]. cbn [fst snd] in *.
  specialize (IH s1 (hist ++ [t]) t Hok' ltac:(lia) Ho). destruct (sl_run limit s1 ts) as [s2 l]. cbn [snd] in *.
  congruence.
Qed.

(** Number admitted in second [s]. *)
Lemma decisions_count limit s times : forall hist,
  admitted_in s s times (map negb (decisions limit hist times)) =
  Z.max 0 (Z.min limit (earlier s hist + earlier s times) - Z.min (Z.max 0 limit) (earlier s hist)).
Proof.
  induction times as [|t ts IH]; intros hist; cbn [decisions map admitted_in earlier].
  - rewrite Z.add_0_r. lia.
  - rewrite IH, earlier_app. cbn [earlier]. pose proof (earlier_nonneg s ts). pose proof (earlier_nonneg s hist).
    pose proof (earlier_nonneg t hist).
    destruct (t =? s) eqn:E.
    + assert (t = s) by lia. subst t. destruct (limit <? earlier s hist + 1) eqn:L; cbn [negb andb]; [lia|].
      replace (s <=? s) with true by lia. cbn [andb]. lia.
    + replace (negb (limit <? earlier t hist + 1) && (s <=? t) && (t <=? s)) with false; [lia|].
      destruct (negb _); cbn [andb]; lia.
Qed.

Lemma sl_run_len limit times : forall st, length (snd (sl_run limit st times)) = length times.
Proof.
  induction times as [|t ts IH]; intros st; cbn [sl_run]; [reflexivity|].
  destruct (sl_check limit st t) as [s1 a]. specialize (IH s1). destruct (sl_run limit s1 ts). cbn [snd length] in *. lia.
Qed.

Lemma seconds_sequential limit window times s :
  ordered 0 times ->
  admitted_in s s times (map negb (snd (sl_run limit (sl_init window) times))) =
  Z.max 0 (Z.min limit (Z.of_nat (count_occ Z.eq_dec times s))).
Proof.
  intros Ho. rewrite (sl_run_spec limit times _ [] 0 (sl_init_ok window) ltac:(lia) Ho).
  rewrite decisions_count. cbn [earlier].
  assert (E : earlier s times = Z.of_nat (count_occ Z.eq_dec times s)).
  { clear. induction times as [|t ts IH]; cbn [earlier count_occ]; [reflexivity|].
    destruct (Z.eq_dec t s) as [->|N]; [rewrite Z.eqb_refl; lia|]. replace (t =? s) with false by lia. lia. }
  rewrite E. lia.
Qed.

(** ** Overlapping callers of one bucket *)
Definition lsec (p : sl_pc) (s : Z) : Prop :=
  match p with
  | LIdle => True
  | LLoad x | LLock x | LReload x | LReset x | LStamp x | LUnlock x | LAdd x => x = s
  end.
Definition holds (p : sl_pc) : Prop :=
  match p with LReload _ | LReset _ | LStamp _ | LUnlock _ => True | _ => False end.

Definition sl_inv (limit : Z) (m : sl_mach) : Prop :=
  (forall t, lsec (sm_thr m t) (sm_now m)) /\
  (forall t, holds (sm_thr m t) <-> sm_lock m = Some t) /\
  0 <= sm_stamp m <= sm_now m /\
  Forall (fun e => fst e <= sm_now m) (sm_log m) /\
  (sm_stamp m = sm_now m ->
     sm_count m = arrivals (sm_now m) (sm_log m) /\
     forall t, (forall s, sm_thr m t <> LReset s) /\ (forall s, sm_thr m t <> LStamp s)) /\
  (sm_stamp m <> sm_now m ->
     arrivals (sm_now m) (sm_log m) = 0 /\
     (forall t, (forall s, sm_thr m t <> LUnlock s) /\ (forall s, sm_thr m t <> LAdd s)) /\
     (forall t s, sm_thr m t = LStamp s -> sm_count m = 0)) /\
  (forall s, admitted s (sm_log m) = Z.max 0 (Z.min limit (arrivals s (sm_log m)))).

Lemma arrivals_lt s log : Forall (fun e => fst e < s) log -> arrivals s log = 0.
Proof.
  unfold arrivals. induction 1 as [|e log H _ IH]; cbn [filter]; auto.
  replace (fst e =? s) with false by lia. exact IH.
Qed.

Lemma arrivals_cons s e log : arrivals s (e :: log) = (if fst e =? s then 1 else 0) + arrivals s log.
Proof. unfold arrivals. cbn [filter]. destruct (fst e =? s); cbn [length]; lia. Qed.
Lemma admitted_cons s e log :
  admitted s (e :: log) = (if (fst e =? s) && negb (snd e) then 1 else 0) + admitted s log.
Proof. unfold admitted. cbn [filter]. destruct (_ && _); cbn [length]; lia. Qed.

Lemma sl_start_inv limit : sl_inv limit sl_start.
Proof.
  unfold sl_inv, sl_start. cbn [sm_thr sm_now sm_lock sm_stamp sm_log sm_count].
  split; [intros; exact I|]. split; [intros t; split; [intros []|discriminate]|].
  split; [lia|]. split; [constructor|]. split; [intros _; split; [reflexivity|intros t; split; discriminate]|].
  split; [congruence|]. intros s. unfold admitted, arrivals. cbn. lia.
Qed.

Ltac fs u t := destruct (Nat.eq_dec u t) as [->|?]; [rewrite ?fset_same in *|rewrite ?fset_other in * by auto].

Lemma sl_enter_inv limit m t s :
  sl_inv limit m -> sm_thr m t = LIdle -> sm_now m <= s ->
  (s = sm_now m \/ forall u, sm_thr m u = LIdle) -> sl_inv limit (sl_enter m t s).
Proof.
  intros (I1 & I2 & I3 & I4 & I5 & I6 & I7) Hid Hle Hs.
  unfold sl_inv, sl_enter. cbn [sm_thr sm_now sm_lock sm_stamp sm_log sm_count].
  split. { intros u. fs u t; [reflexivity|]. destruct Hs as [->|Hs]; [apply I1|rewrite Hs; exact I]. }
  split. { intros u. fs u t; [cbn [holds]; rewrite <- I2, Hid; reflexivity|apply I2]. }
  split; [lia|]. split. { eapply Forall_impl; [|exact I4]. cbn. intros; lia. }
  destruct (Z.eq_dec s (sm_now m)) as [->|Hne].
  - split; [|split; [|exact I7]].
    + intros H. destruct (I5 H) as [A B]. split; auto. intros u. fs u t; [split; discriminate|apply B].
    + intros H. destruct (I6 H) as (A & B & C). split; auto. split.
      * intros u. fs u t; [split; discriminate|apply B].
      * intros u x. fs u t; [discriminate|apply C].
  - destruct Hs as [|Hs]; [congruence|]. split; [|split; [|exact I7]].
    + intros H. lia.
    + intros _. split; [|split].
      * apply arrivals_lt. eapply Forall_impl; [|exact I4]. cbn. intros; lia.
      * intros u. fs u t; [split; discriminate|rewrite Hs; split; discriminate].
      * intros u x. fs u t; [discriminate|rewrite Hs; discriminate].
Qed.

Lemma sl_move_inv limit m t m' : sl_inv limit m -> sl_move limit m t = Some m' -> sl_inv limit m'.
Proof.
  intros (I1 & I2 & I3 & I4 & I5 & I6 & I7) Hm. unfold sl_move in Hm.
  pose proof (I1 t) as J1. pose proof (I2 t) as J2.
  destruct (sm_thr m t) as [|s|s|s|s|s|s|s] eqn:Et; cbn [lsec holds] in J1, J2.
  - discriminate.
  - (* load *)
    inversion Hm; subst m'; clear Hm. subst s. unfold sl_inv. cbn [sm_thr sm_now sm_lock sm_stamp sm_log sm_count].
    split. { intros u. fs u t; [destruct (_ =? _); reflexivity|apply I1]. }
    split. { intros u. fs u t; [|apply I2]. rewrite <- J2. destruct (_ =? _); reflexivity. }
    split; auto. split; auto. split; [|split; auto].
    + intros H. destruct (I5 H) as [A B]. split; auto. intros u.
      fs u t; [|apply B]. destruct (_ =? _); split; discriminate.
    + intros H. destruct (I6 H) as (A & B & C). split; auto. replace (sm_stamp m =? sm_now m) with false by lia.
      split; [intros u; fs u t; [split; discriminate|apply B]|].
      intros u x. fs u t; [discriminate|apply C].
  - (* lock *)
    destruct (sm_lock m) as [o|] eqn:El; [discriminate|].
    inversion Hm; subst m'; clear Hm. subst s. unfold sl_inv. cbn [sm_thr sm_now sm_lock sm_stamp sm_log sm_count].
    split. { intros u. fs u t; [reflexivity|apply I1]. }
    split. { intros u. fs u t; [split; auto; intros; exact I|]. rewrite I2. split; [discriminate|congruence]. }
    split; auto. split; auto. split; [|split; auto].
    + intros H. destruct (I5 H) as [A B]. split; auto. intros u. fs u t; [split; discriminate|apply B].
    + intros H. destruct (I6 H) as (A & B & C). split; auto.
      split; [intros u; fs u t; [split; discriminate|apply B]|].
      intros u x. fs u t; [discriminate|apply C].
  - (* reload *)
    inversion Hm; subst m'; clear Hm. subst s. unfold sl_inv. cbn [sm_thr sm_now sm_lock sm_stamp sm_log sm_count].
    split. { intros u. fs u t; [destruct (_ =? _); reflexivity|apply I1]. }
    split. { intros u. fs u t; [|apply I2]. rewrite <- J2. destruct (_ =? _); reflexivity. }
    split; auto. split; auto. split; [|split; auto].
    + intros H. destruct (I5 H) as [A B]. split; auto. intros u. replace (sm_stamp m =? sm_now m) with true by lia.
      fs u t; [|apply B]. split; discriminate.
    + intros H. destruct (I6 H) as (A & B & C). split; auto. replace (sm_stamp m =? sm_now m) with false by lia.
      split; [intros u; fs u t; [split; discriminate|apply B]|].
      intros u x. fs u t; [discriminate|apply C].
  - (* reset *)
    inversion Hm; subst m'; clear Hm. subst s. unfold sl_inv. cbn [sm_thr sm_now sm_lock sm_stamp sm_log sm_count].
    assert (Hst : sm_stamp m <> sm_now m).
    { intros H. destruct (I5 H) as [_ B]. destruct (B t) as [B1 _]. apply (B1 (sm_now m)). auto. }
    split. { intros u. fs u t; [reflexivity|apply I1]. }
    split. { intros u. fs u t; [exact J2|apply I2]. }
    split; auto. split; auto. split; [congruence|]. split; auto.
    intros H. destruct (I6 H) as (A & B & C). split; auto.
    split; [intros u; fs u t; [split; discriminate|apply B]|]. auto.
  - (* stamp *)
    inversion Hm; subst m'; clear Hm. subst s. unfold sl_inv. cbn [sm_thr sm_now sm_lock sm_stamp sm_log sm_count].
    assert (Hst : sm_stamp m <> sm_now m).
    { intros H. destruct (I5 H) as [_ B]. destruct (B t) as [_ B1]. apply (B1 (sm_now m)). auto. }
    destruct (I6 Hst) as (A & B & C).
    split. { intros u. fs u t; [reflexivity|apply I1]. }
    split. { intros u. fs u t; [exact J2|apply I2]. }
    split; [lia|]. split; auto. split; [|split; [congruence|auto]].
    intros _. split; [rewrite A; apply (C t (sm_now m)); auto|].
    intros u. fs u t; [split; discriminate|].
    assert (Hl : sm_lock m = Some t) by (apply J2; exact I).
    split; intros x Hx; assert (Hu : holds (sm_thr m u)) by (rewrite Hx; exact I);
      apply I2 in Hu; congruence.
  - (* unlock *)
    inversion Hm; subst m'; clear Hm. subst s. unfold sl_inv. cbn [sm_thr sm_now sm_lock sm_stamp sm_log sm_count].
    assert (Hst : sm_stamp m = sm_now m).
    { destruct (Z.eq_dec (sm_stamp m) (sm_now m)) as [|H]; auto. destruct (I6 H) as (_ & B & _).
      destruct (B t) as [B1 _]. exfalso. apply (B1 (sm_now m)). auto. }
    assert (Hl : sm_lock m = Some t) by (apply J2; exact I).
    split. { intros u. fs u t; [reflexivity|apply I1]. }
    split. { intros u. fs u t; [split; [intros []|discriminate]|]. rewrite I2, Hl. split; [congruence|discriminate]. }
    split; auto. split; auto. split; [|split; [congruence|auto]].
    intros H. destruct (I5 H) as [A B]. split; auto. intros u. fs u t; [split; discriminate|apply B].
  - (* add *)
    inversion Hm; subst m'; clear Hm. subst s. unfold sl_inv. cbn [sm_thr sm_now sm_lock sm_stamp sm_log sm_count].
    assert (Hst : sm_stamp m = sm_now m).
    { destruct (Z.eq_dec (sm_stamp m) (sm_now m)) as [|H]; auto. destruct (I6 H) as (_ & B & _).
      destruct (B t) as [_ B1]. exfalso. apply (B1 (sm_now m)). auto. }
    destruct (I5 Hst) as [A B].
    split. { intros u. fs u t; [exact I|apply I1]. }
    split. { intros u. fs u t; [exact J2|apply I2]. }
    split; auto. split; [constructor; [cbn; lia|auto]|]. split; [|split; [congruence|]].
    + intros _. split; [rewrite arrivals_cons, A; cbn [fst]; rewrite Z.eqb_refl; lia|].
      intros u. fs u t; [split; discriminate|apply B].
    + intros s. rewrite admitted_cons, arrivals_cons. cbn [fst snd]. specialize (I7 s).
      destruct (sm_now m =? s) eqn:E; cbn [andb]; [|lia].
      assert (sm_now m = s) by lia. subst s. rewrite A.
      assert (0 <= arrivals (sm_now m) (sm_log m)) by (unfold arrivals; lia).
      destruct (limit <? arrivals (sm_now m) (sm_log m) + 1) eqn:L; cbn [negb]; lia.
Qed.

Lemma sl_reach_inv limit m : sl_reach limit m -> sl_inv limit m.
Proof. induction 1; eauto using sl_start_inv, sl_enter_inv, sl_move_inv. Qed.

Lemma seconds_concurrent limit m s :
  sl_reach limit m -> admitted s (sm_log m) = Z.max 0 (Z.min limit (arrivals s (sm_log m))).
Proof. intros H. apply sl_reach_inv in H. apply H. Qed.

(** No caller is ever stuck: if somebody is inside, somebody can move. *)
Lemma seconds_progress limit m t :
  sl_reach limit m -> sm_thr m t <> LIdle -> exists u m', sl_move limit m u = Some m'.
Proof.
  intros H Ht. apply sl_reach_inv in H. destruct H as (_ & I2 & _).
  destruct (sm_thr m t) as [|s|s|s|s|s|s|s] eqn:Et; try congruence;
    try (exists t; unfold sl_move; rewrite Et; eexists; reflexivity).
  destruct (sm_lock m) as [o|] eqn:El.
  - exists o. assert (Ho : holds (sm_thr m o)) by (apply I2; auto). unfold sl_move.
    destruct (sm_thr m o); try contradiction; eexists; reflexivity.
  - exists t. unfold sl_move. rewrite Et, El. eexists. reflexivity.
Qed.

(** A caller that stalls for a whole window (here: it read second 100 and goes on in second 110)
    takes the bucket back: second 110 then admits more than the limit. *)
Lemma seconds_stalled :
  exists sched m, sl_sched 1 sl_start sched = Some m /\ admitted 110 (sm_log m) = 2.
Proof.
  exists ([inl (1%nat, 100); inl (2%nat, 110)] ++ repeat (inr 2%nat) 7 ++ repeat (inr 1%nat) 7 ++
          [inl (2%nat, 110)] ++ repeat (inr 2%nat) 7).
  eexists. split; vm_compute; reflexivity.
Qed.

(** The clock going back does the same without any overlap. *)
Lemma seconds_clock_back :
  admitted_in 110 110 [110; 100; 110] (map negb (snd (sl_run 1 (sl_init 10) [110; 100; 110]))) = 2.
Proof. reflexivity. Qed.
