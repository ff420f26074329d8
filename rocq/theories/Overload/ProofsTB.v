(** Lemmas about the token bucket. *)
From Verif.Lib Require Import Base.
From Verif.Overload Require Import Model Spec.
Local Open Scope Z_scope.

(** State reached at time [t]: nothing wraps from here on. *)
Definition tb_ok (burst : Z) (b : bucket) (t : Z) : Prop :=
  0 < tb_one b /\ 1 <= burst /\ tb_burst_el b = burst * tb_one b /\
  tb_burst_el b <= t /\ 0 <= tb_last b <= t.

Lemma u64_id z : 0 <= z < 2 ^ 64 -> u64 z = z.
Proof. intros. apply Z.mod_small. auto. Qed.

Lemma tb_step burst b t0 t :
  tb_ok burst b t0 -> t0 <= t < 2 ^ 64 ->
  let '(b', a) := tb_before b t in
  tb_ok burst b' t /\ tb_one b' = tb_one b /\ tb_burst_el b' = tb_burst_el b /\
  (a = false -> b' = b /\ t - tb_one b < tb_last b) /\
  (a = true -> tb_last b + tb_one b <= t /\
     tb_last b' = Z.max (tb_last b) (t - burst * tb_one b) + tb_one b).
Proof.
  intros (H1 & H2 & H3 & H4 & H5) Ht. unfold tb_before.
  assert (Hone : tb_one b <= tb_burst_el b) by nia.
  rewrite !(u64_id (t - _)) by lia.
  destruct (t - tb_one b <? tb_last b) eqn:E1; [|destruct (tb_last b <? t - tb_burst_el b) eqn:E2].
  - repeat split; auto; try lia; try discriminate.
  - rewrite u64_id by lia. unfold tb_ok; cbn [tb_one tb_burst_el tb_last].
    repeat split; auto; try lia; try discriminate.
  - rewrite u64_id by lia. unfold tb_ok; cbn [tb_one tb_burst_el tb_last].
    repeat split; auto; try lia; try discriminate.
Qed.

Lemma tb_ok_later burst b t t' : tb_ok burst b t -> t <= t' -> tb_ok burst b t'.
Proof. intros (H1 & H2 & H3 & H4 & H5) H. repeat split; auto; lia. Qed.

(** Admissions cost one interval each. *)
Lemma tb_cost burst times : forall b t0 a d,
  tb_ok burst b t0 -> ordered t0 times -> Forall (fun t => t < 2 ^ 64) times -> 0 <= d -> a <= a + d ->
  let '(b', adm) := tb_run b times in
  let n := admitted_in a (a + d) times adm in
  0 <= n /\ (0 < n -> n * tb_one b + Z.max (tb_last b) (a - burst * tb_one b) <= a + d).
Proof.
  induction times as [|t ts IH]; intros b t0 a d Hok Hord Hlt Hd _; cbn [tb_run admitted_in].
  - split; lia.
  - destruct Hord as [Ht Hord]. inversion Hlt as [|? ? Ht64 Hlt']; subst.
    pose proof (tb_step burst b t0 t Hok (conj Ht Ht64)) as S.
    destruct (tb_before b t) as [b1 x]. destruct S as (Hok1 & E1 & E2 & Sf & St).
    specialize (IH b1 t a d Hok1 Hord Hlt' Hd ltac:(lia)).
    destruct (tb_run b1 ts) as [b2 adm]. cbn [admitted_in]. destruct IH as [I0 I1].
    destruct x; cbn [andb].
    + destruct (St eq_refl) as [S1 S2]. clear Sf St.
      destruct (a <=? t) eqn:Ea; cbn [andb]; [destruct (t <=? a + d) eqn:Eb|].
      * split; [lia|]. intros _. destruct (Z.eq_dec (admitted_in a (a + d) ts adm) 0) as [Z0|NZ].
        -- rewrite Z0. destruct Hok as (K1 & K2 & K3 & K4 & K5). nia.
        -- specialize (I1 ltac:(lia)). rewrite E1 in I1. destruct Hok as (K1 & K2 & K3 & K4 & K5). nia.
      * split; [lia|]. intros Hn. specialize (I1 Hn). rewrite E1 in I1.
        destruct Hok as (K1 & K2 & K3 & K4 & K5). nia.
      * split; [lia|]. intros Hn. specialize (I1 Hn). rewrite E1 in I1.
        destruct Hok as (K1 & K2 & K3 & K4 & K5). nia.
    + destruct (Sf eq_refl) as [-> S1]. split; [lia|]. intros Hn. apply I1. lia.
Qed.

Lemma tb_init_ok burst rate t0 :
  1 <= burst -> rate <= 1000000000 -> burst * (1000000000 / Z.max rate 1) <= t0 -> t0 < 2 ^ 64 ->
  tb_ok burst (tb_init burst rate t0) t0 /\ tb_one (tb_init burst rate t0) = 1000000000 / Z.max rate 1.
Proof.
  intros Hb Hr Ht Ht64. split; [|reflexivity]. unfold tb_init, tb_ok. cbn [tb_one tb_burst_el tb_last].
  assert (0 < 1000000000 / Z.max rate 1) by (apply Z.div_str_pos; lia).
  rewrite u64_id by nia. repeat split; auto; nia.
Qed.

Lemma token_bucket_bound burst rate t0 times a d :
  1 <= burst -> rate <= 1000000000 ->
  let one := 1000000000 / Z.max rate 1 in
  burst * one <= t0 -> t0 < 2 ^ 64 -> ordered t0 times -> Forall (fun t => t < 2 ^ 64) times -> 0 <= d ->
  admitted_in a (a + d) times (snd (tb_run (tb_init burst rate t0) times)) <= burst + d / one.
Proof.
  intros Hb Hr one Ht Ht64 Hord Hlt Hd.
  destruct (tb_init_ok burst rate t0 Hb Hr Ht Ht64) as [Hok E].
  pose proof (tb_cost burst times _ t0 a d Hok Hord Hlt Hd ltac:(lia)) as C.
  destruct (tb_run (tb_init burst rate t0) times) as [b' adm]. cbn [snd]. destruct C as [C0 C1].
  rewrite E in C1. fold one in C1.
  assert (Hone : 0 < one) by (apply Z.div_str_pos; lia).
  set (n := admitted_in a (a + d) times adm) in *.
  destruct (Z_le_gt_dec n 0) as [|Hn]; [pose proof (Z.div_pos d one); lia|].
  specialize (C1 ltac:(lia)).
  assert (n - burst <= d / one); [|lia]. apply Z.div_le_lower_bound; [lia|]. nia.
Qed.

(** After [k] idle intervals, the next [k] requests are admitted. *)
Lemma tb_idle burst times : forall b t0,
  tb_ok burst b t0 -> ordered t0 times -> Forall (fun t => t < 2 ^ 64) times ->
  Z.of_nat (length times) <= burst ->
  (match times with [] => True | t :: _ => tb_last b + Z.of_nat (length times) * tb_one b <= t end) ->
  snd (tb_run b times) = repeat true (length times).
Proof.
  induction times as [|t ts IH]; intros b t0 Hok Hord Hlt Hk Hid; cbn [tb_run]; [reflexivity|].
  destruct Hord as [Ht Hord]. inversion Hlt as [|? ? Ht64 Hlt']; subst.
  pose proof (tb_step burst b t0 t Hok (conj Ht Ht64)) as S.
  destruct (tb_before b t) as [b1 x]. destruct S as (Hok1 & E1 & E2 & Sf & St).
  cbn [length] in *. destruct x.
  - destruct (St eq_refl) as [S1 S2].
    specialize (IH b1 t Hok1 Hord Hlt' ltac:(lia)).
    destruct (tb_run b1 ts) as [b2 adm]. cbn [snd repeat] in *. f_equal. apply IH.
    destruct ts as [|t2 ts]; auto. destruct Hord as [Ht2 _]. rewrite E1, S2. cbn [length] in *.
    destruct Hok as (K1 & K2 & K3 & K4 & K5). nia.
  - exfalso. destruct (Sf eq_refl) as [_ S1]. destruct Hok as (K1 & K2 & K3 & K4 & K5). nia.
Qed.

Lemma tb_run_ok burst times : forall b t0,
  tb_ok burst b t0 -> ordered t0 times -> Forall (fun t => t < 2 ^ 64) times ->
  tb_ok burst (fst (tb_run b times)) (last times t0) /\ tb_one (fst (tb_run b times)) = tb_one b.
Proof.
  induction times as [|t ts IH]; intros b t0 Hok Hord Hlt; cbn [tb_run fst]; [auto|].
  destruct Hord as [Ht Hord]. inversion Hlt as [|? ? Ht64 Hlt']; subst.
  pose proof (tb_step burst b t0 t Hok (conj Ht Ht64)) as S.
  destruct (tb_before b t) as [b1 x]. destruct S as (Hok1 & E1 & E2 & _).
  specialize (IH b1 t Hok1 Hord Hlt'). destruct (tb_run b1 ts) as [b2 adm]. cbn [fst] in *.
  destruct IH as [I1 I2]. split; [|congruence].
  assert (L : last (t :: ts) t0 = last ts t).
  { clear. revert t t0. induction ts as [|u us IHu]; intros t t0; [reflexivity|].
    change (last (t :: u :: us) t0) with (last (u :: us) t0). rewrite (IHu u t0), (IHu u t). reflexivity. }
  rewrite L. exact I1.
Qed.

Lemma token_bucket_idle burst rate t0 hist times :
  1 <= burst -> rate <= 1000000000 ->
  let one := 1000000000 / Z.max rate 1 in
  burst * one <= t0 -> t0 < 2 ^ 64 ->
  ordered t0 hist -> ordered (last hist t0) times -> Forall (fun t => t < 2 ^ 64) (hist ++ times) ->
  Z.of_nat (length times) <= burst ->
  Forall (fun t => last hist t0 + Z.of_nat (length times) * one <= t) times ->
  snd (tb_run (fst (tb_run (tb_init burst rate t0) hist)) times) = repeat true (length times).
Proof.
  intros Hb Hr one Ht Ht64 Hh Ho Hlt Hk Hid.
  destruct (tb_init_ok burst rate t0 Hb Hr Ht Ht64) as [Hok E].
  apply Forall_app in Hlt. destruct Hlt as [L1 L2].
  destruct (tb_run_ok burst hist _ t0 Hok Hh L1) as [Hok2 E2].
  eapply tb_idle; eauto. rewrite E2, E. fold one.
  destruct times as [|t ts]; auto. inversion Hid as [|? ? Hi _]; subst.
  destruct Hok2 as (_ & _ & _ & _ & K). lia.
Qed.

(** Shortly after boot (clock below burst_elapsed) the first admission sets the allocation time
    far into the future: everything later is rejected. *)
Lemma token_bucket_boot :
  exists burst rate t0 b,
    1 <= burst <= 100000 /\ 1 <= rate <= 1000 /\ 0 <= t0 /\
    tb_before (tb_init burst rate t0) (t0 + 3000000000) = (b, true) /\
    forall t, t0 + 3000000000 <= t < 2 ^ 63 -> tb_before b t = (b, false).
Proof.
  exists 1000, 1, 1000000000. eexists. split; [lia|]. split; [lia|]. split; [lia|].
  split; [vm_compute; reflexivity|].
  intros t Ht. unfold tb_before. cbn [tb_one tb_last tb_burst_el].
  replace (u64 (t - 1000000000)) with (t - 1000000000) by (symmetry; apply u64_id; lia).
  replace (_ <? _) with true; [reflexivity|]. symmetry. apply Z.ltb_lt.
  apply Z.lt_le_trans with (2 ^ 63); [lia|]. vm_compute. discriminate.
Qed.

(** burst = 0 still admits. *)
Lemma token_bucket_zero_burst :
  exists rate t0 t, 1 <= rate /\ 0 <= t0 <= t /\
    admitted_in t (t + 0) [t] (snd (tb_run (tb_init 0 rate t0) [t])) = 1.
Proof. exists 10, 1000000000, 2000000000. repeat split; try lia. Qed.

(** A rate that does not divide 10^9 is exceeded: at 700000000 per second (and burst 1) 11 requests
    pass in 10 ns, although burst + rate * time is 8. *)
Lemma token_bucket_rate :
  let t0 := 1000 in let times := [t0; t0 + 1; t0 + 2; t0 + 3; t0 + 4; t0 + 5; t0 + 6; t0 + 7; t0 + 8; t0 + 9; t0 + 10] in
  admitted_in t0 (t0 + 10) times (snd (tb_run (tb_init 1 700000000 100) times)) = 11 /\
  1 + 700000000 * 10 / 1000000000 = 8.
Proof. split; reflexivity. Qed.
