(** Lemmas about the hit queue and the smooth limiter. *)
From Verif.Lib Require Import Base ListX.
From Verif.Overload Require Import Model Spec.
Local Open Scope Z_scope.

Lemma total_cons x l : total (x :: l) = x + total l.
Proof. reflexivity. Qed.

Lemma total_app a b : total (a ++ b) = total a + total b.
Proof. induction a as [|x a IH]; cbn [app]; [reflexivity|]. rewrite !total_cons, IH. lia. Qed.

Lemma total_nonneg l : Forall (fun x => 0 <= x) l -> 0 <= total l.
Proof. induction 1; [cbn; lia|]. rewrite total_cons. lia. Qed.

Lemma total_firstn_le l n : Forall (fun x => 0 <= x) l -> 0 <= total (firstn n l) <= total l.
Proof.
  intros H. assert (E := total_app (firstn n l) (skipn n l)). rewrite firstn_skipn in E.
  rewrite <- (firstn_skipn n l) in H. apply Forall_app in H. destruct H as [H1 H2].
  apply total_nonneg in H1, H2. lia.
Qed.

Lemma skipn_nth {A} (l : list A) k d : (k < length l)%nat -> skipn k l = nth k l d :: skipn (S k) l.
Proof.
  revert l; induction k as [|k IH]; intros [|x l] H; cbn in *; try lia; auto. apply IH. lia.
Qed.

Lemma mod_off b j n : (b < n)%nat -> (j < n)%nat -> ((b + j) mod n)%nat = if (b + j <? n)%nat then (b + j)%nat else (b + j - n)%nat.
Proof.
  intros Hb Hj. destruct (Nat.ltb_spec (b + j) n) as [H|H].
  - apply Nat.mod_small. auto.
  - replace (b + j)%nat with (b + j - n + 1 * n)%nat at 1 by lia. rewrite Nat.mod_add by lia.
    apply Nat.mod_small. lia.
Qed.

Lemma mod_off_inj b j k n : (b < n)%nat -> (j < n)%nat -> (k < n)%nat -> ((b + j) mod n = (b + k) mod n)%nat -> j = k.
Proof.
  intros Hb Hj Hk. rewrite !mod_off by auto.
  destruct (Nat.ltb_spec (b + j) n), (Nat.ltb_spec (b + k) n); lia.
Qed.

(** [rs]: hits per frame of the window, latest first. *)
Definition rep (q : hitq) (w : nat) (rs : list Z) : Prop :=
  (0 < w)%nat /\ length (hq_frames q) = (w + 1)%nat /\ (hq_begin q < w + 1)%nat /\ length rs = w /\
  forall j, (j < w)%nat -> nth ((hq_begin q + (w - 1 - j)) mod (w + 1)) (hq_frames q) 0 = nth j rs 0.

Lemma rep_slot q w rs j :
  rep q w rs -> (j < w)%nat -> nth ((hq_begin q + j) mod (w + 1)) (hq_frames q) 0 = nth (w - 1 - j) rs 0.
Proof.
  intros (H1 & H2 & H3 & H4 & H5) Hj. rewrite <- H5 by lia. do 2 f_equal. lia.
Qed.

Lemma rep_new w : (0 < w)%nat -> rep (hq_new w) w (repeat 0 w).
Proof.
  intros H. unfold rep, hq_new. cbn [hq_frames hq_begin]. rewrite !repeat_length.
  repeat split; auto; try lia. intros j Hj. rewrite !nth_repeat. reflexivity.
Qed.

Lemma rep_window q w rs : rep q w rs -> hq_window q = w.
Proof. intros (H1 & H2 & _). unfold hq_window. lia. Qed.

Lemma next_mod b j n : (0 < n)%nat -> (((b + j) mod n + 1) mod n = (b + S j) mod n)%nat.
Proof. intros H. rewrite Nat.add_mod_idemp_l by lia. f_equal. lia. Qed.

Lemma sum_loop_spec q w rs : rep q w rs -> forall d j acc fuel,
  (j + d = w)%nat -> (d < fuel)%nat ->
  hq_sum_loop fuel q ((hq_begin q + j) mod (w + 1)) ((hq_begin q + w) mod (w + 1)) acc =
  Ok (acc + total (firstn d rs)).
Proof.
  intros Hr. pose proof Hr as (H1 & H2 & H3 & H4 & H5).
  induction d as [|d IH]; intros j acc [|fuel] Hj Hf; try lia; cbn [hq_sum_loop].
  - replace j with w by lia. rewrite Nat.eqb_refl. f_equal. cbn. lia.
  - destruct (Nat.eqb_spec ((hq_begin q + j) mod (w + 1)) ((hq_begin q + w) mod (w + 1))) as [E|_].
    + apply mod_off_inj in E; lia.
    + unfold hq_next_index. rewrite H2, next_mod by lia.
      rewrite IH by lia. f_equal. rewrite (rep_slot q w rs j) by (auto; lia).
      replace (w - 1 - j)%nat with d by lia.
      assert (E : firstn (S d) rs = firstn d rs ++ [nth d rs 0]).
      { clear -H4 Hj. assert (Hd : (d < length rs)%nat) by lia. clear - Hd. revert d Hd.
        induction rs as [|x rs IH]; intros [|d] Hd; cbn in *; try lia; auto. f_equal. apply IH. lia. }
      rewrite E, total_app. cbn [total fold_right]. lia.
Qed.

Lemma hq_sum_spec q w rs : rep q w rs -> hq_sum q = Ok (total rs).
Proof.
  intros Hr. pose proof Hr as (H1 & H2 & H3 & H4 & H5). unfold hq_sum, hq_end.
  rewrite (rep_window q w rs Hr), H2.
  replace (hq_begin q) with ((hq_begin q + 0) mod (w + 1))%nat at 1
    by (rewrite Nat.add_0_r; apply Nat.mod_small; auto).
  rewrite (sum_loop_spec q w rs Hr w) by lia. rewrite <- H4, firstn_all. reflexivity.
Qed.

Lemma current_slot q w rs : rep q w rs -> hq_current q (hq_begin q) = ((hq_begin q + (w - 1)) mod (w + 1))%nat.
Proof.
  intros Hr. pose proof Hr as (H1 & H2 & H3 & H4 & H5). unfold hq_current.
  rewrite (rep_window q w rs Hr), H2. f_equal. lia.
Qed.

Lemma rep_hit q w c rs :
  rep q w (c :: rs) ->
  rep (hq_hit q (hq_current q (hq_begin q))) w (c + 1 :: rs) /\ nth (hq_current q (hq_begin q)) (hq_frames q) 0 = c.
Proof.
  intros Hr. pose proof Hr as (H1 & H2 & H3 & H4 & H5). rewrite (current_slot q w _ Hr).
  assert (Hc : nth ((hq_begin q + (w - 1)) mod (w + 1)) (hq_frames q) 0 = c).
  { rewrite (rep_slot q w _ (w - 1) Hr) by lia. replace (w - 1 - (w - 1))%nat with 0%nat by lia. reflexivity. }
  split; auto. unfold hq_hit, rep. cbn [hq_frames hq_begin]. rewrite lset_length. cbn [length] in *.
  repeat split; auto. intros j Hj.
  assert (B : ((hq_begin q + (w - 1)) mod (w + 1) < length (hq_frames q))%nat)
    by (rewrite H2; apply Nat.mod_upper_bound; lia).
  rewrite nth_lset by auto.
  destruct (Nat.eqb_spec ((hq_begin q + (w - 1 - j)) mod (w + 1)) ((hq_begin q + (w - 1)) mod (w + 1))) as [E|N].
  - apply mod_off_inj in E; try lia. replace j with 0%nat by lia. cbn [nth]. lia.
  - destruct j as [|j]; [replace (w - 1 - 0)%nat with (w - 1)%nat in N by lia; congruence|].
    rewrite H5 by auto. reflexivity.
Qed.

Lemma rep_next q w rs : rep q w rs -> rep (hq_next_frame q) w (0 :: removelast rs).
Proof.
  intros Hr. pose proof Hr as (H1 & H2 & H3 & H4 & H5).
  unfold hq_next_frame, hq_clear, hq_next_index, hq_end, rep. cbn [hq_frames hq_begin].
  rewrite (rep_window q w rs Hr), H2, lset_length.
  assert (B : ((hq_begin q + w) mod (w + 1) < length (hq_frames q))%nat)
    by (rewrite H2; apply Nat.mod_upper_bound; lia).
  split; [auto|]. split; [auto|]. split; [apply Nat.mod_upper_bound; lia|]. split.
  { cbn [length]. destruct rs as [|x rs]; [cbn in H4; lia|].
    assert (E := removelast_firstn_len (x :: rs)). rewrite E, firstn_length. cbn [length] in *. lia. }
  intros j Hj. rewrite Nat.add_mod_idemp_l by lia.
  replace (hq_begin q + 1 + (w - 1 - j))%nat with (hq_begin q + (w - j))%nat by lia.
  rewrite nth_lset by auto.
  destruct (Nat.eqb_spec ((hq_begin q + (w - j)) mod (w + 1)) ((hq_begin q + w) mod (w + 1))) as [E|N].
  - apply mod_off_inj in E; try lia. replace j with 0%nat by lia. reflexivity.
  - destruct j as [|j]; [rewrite Nat.sub_0_r in N; congruence|].
    replace (w - S j)%nat with (w - 1 - j)%nat by lia. rewrite H5 by lia.
    cbn [nth]. rewrite removelast_firstn_len, H4.
    clear - Hj H4. symmetry.
    assert (G : forall n k (l : list Z), (k < n)%nat -> nth k (firstn n l) 0 = nth k l 0).
    { induction n as [|n IH]; intros k l H; [lia|]. destruct l as [|x l]; [destruct k; reflexivity|].
      destruct k as [|k]; [reflexivity|]. cbn. apply IH. lia. }
    apply G. lia.
Qed.

(** ** Callers that do not overlap *)

Lemma sm_check_spec limit q w c rs :
  rep q w (c :: rs) ->
  if limit <=? total (c :: rs) then sm_check limit q = Ok (q, true)
  else exists q1, sm_check limit q = Ok (q1, false) /\ rep q1 w (c + 1 :: rs).
Proof.
  intros Hr. unfold sm_check. rewrite (hq_sum_spec q w _ Hr). cbn [bind].
  destruct (limit <=? total (c :: rs)) eqn:E; [reflexivity|].
  destruct (rep_hit q w c rs Hr) as [Hr1 _].
  exists (hq_hit q (hq_current q (hq_begin q))). split; auto.
  unfold hq_add. rewrite (hq_sum_spec _ w _ Hr1). cbn [bind].
  rewrite total_cons in *. replace (limit <? c + 1 + total rs) with false by lia. reflexivity.
Qed.

Lemma smooth_sequential limit w evs :
  (0 < w)%nat -> smooth_run limit (hq_new w) evs = Ok (smooth_spec limit w [0] evs).
Proof.
  intros Hw.
  assert (G : forall evs q log rs, rep q w rs -> (0 < length log)%nat ->
    rs = firstn w (log ++ repeat 0 w) -> smooth_run limit q evs = Ok (smooth_spec limit w log evs)).
  { clear evs. induction evs as [|[|] evs IH]; intros q log rs Hr Hl He; cbn [smooth_run smooth_spec]; [reflexivity| |].
    - apply IH with (rs := 0 :: removelast rs); auto using rep_next; [cbn; lia|].
      destruct w as [|w]; [lia|]. cbn [app firstn]. f_equal. rewrite He.
      rewrite removelast_firstn by (rewrite app_length, repeat_length; lia). reflexivity.
    - destruct rs as [|c rs]; [destruct Hr as (_ & _ & _ & H & _); cbn in H; lia|].
      pose proof (sm_check_spec limit q w c rs Hr) as S.
      assert (Et : total (c :: rs) = total (firstn w log)).
      { rewrite He, firstn_app, total_app.
        assert (Z0 : forall n k, total (firstn n (repeat 0 k)) = 0).
        { intros n k. revert n. induction k as [|k IHk]; intros [|n]; cbn [repeat firstn]; auto.
          rewrite total_cons, IHk. lia. }
        rewrite Z0. lia. }
      rewrite <- Et. destruct (limit <=? total (c :: rs)).
      + rewrite S. cbn [bind]. rewrite (IH q log (c :: rs)); auto.
      + destruct S as (q1 & E1 & Hr1). rewrite E1. cbn [bind].
        destruct log as [|a log]; [cbn in Hl; lia|].
        rewrite (IH q1 (a + 1 :: log) (c + 1 :: rs)); [reflexivity|assumption|cbn; lia|].
        destruct w as [|w]; [lia|]. cbn [app firstn] in *. inversion He; subst. reflexivity. }
  apply G with (rs := repeat 0 w); [apply rep_new; auto|cbn; lia|].
  destruct w as [|w]; [lia|]. cbn [app firstn repeat]. f_equal.
  assert (F : forall n, repeat 0 n = firstn n (repeat 0 (S n))).
  { induction n as [|n IH]; [reflexivity|]. cbn [repeat firstn]. f_equal. exact IH. }
  apply F.
Qed.

(** ** Overlapping callers *)
Definition ticket (p : sm_pc) : option Z :=
  match p with MBegin2 _ n => Some n | MSum2 _ _ _ _ n => Some n | _ => None end.

Definition pc_ok (q : hitq) (w : nat) (rs : list Z) (p : sm_pc) : Prop :=
  match p with
  | MIdle | MSum1 _ _ _ | MBegin => True
  | MAdd k | MBegin2 k _ => k = hq_current q (hq_begin q)
  | MSum2 i en acc k n =>
      en = ((hq_begin q + w) mod (w + 1))%nat /\
      exists j, i = ((hq_begin q + j) mod (w + 1))%nat /\
        (((j < w)%nat /\ acc = total (skipn (w - j) rs)) \/ (j = w /\ total (tl rs) + n <= acc))
  end.

Definition sm_inv (limit : Z) (w : nat) (m : sm_mach) : Prop :=
  exists c rs a log adm,
    rep (mm_q m) w (c :: rs) /\ mm_log m = a :: log /\
    0 <= c /\ Forall (fun x => 0 <= x) rs /\ 0 <= a /\ Forall (fun x => 0 <= x) log /\
    (forall j, nth j (firstn (w - 1) log) 0 <= nth j rs 0) /\
    NoDup adm /\ a = Z.of_nat (length adm) /\
    (forall n, In n adm -> 1 <= n <= c /\ total rs + n <= limit) /\
    (forall t, pc_ok (mm_q m) w (c :: rs) (mm_thr m t)) /\
    (forall t n, ticket (mm_thr m t) = Some n -> 1 <= n <= c /\ ~ In n adm) /\
    (forall t u n, t <> u -> ticket (mm_thr m t) = Some n -> ticket (mm_thr m u) = Some n -> False) /\
    total (firstn w (a :: log)) <= Z.max 0 limit.

Lemma total_pointwise l1 l2 :
  (length l1 <= length l2)%nat -> Forall (fun x => 0 <= x) l2 -> (forall j, nth j l1 0 <= nth j l2 0) ->
  total l1 <= total l2.
Proof.
  revert l2; induction l1 as [|x l1 IH]; intros [|y l2] Hl Hn Hp; cbn [length] in Hl; try lia.
  - apply total_nonneg in Hn. cbn [total fold_right] in *. lia.
  - rewrite !total_cons. inversion Hn; subst. pose proof (Hp 0%nat) as H0. cbn [nth] in H0.
    specialize (IH l2 ltac:(lia) ltac:(auto) (fun j => Hp (S j))). lia.
Qed.

Lemma pigeon l K : NoDup l -> (forall n, In n l -> 1 <= n <= K) -> Z.of_nat (length l) <= Z.max 0 K.
Proof.
  intros Hn Hr. assert (Hi : incl l (map (fun i => Z.of_nat i + 1) (seq 0 (Z.to_nat K)))).
  { intros n H. specialize (Hr n H). apply in_map_iff. exists (Z.to_nat (n - 1)). split; [lia|].
    apply in_seq. lia. }
  apply NoDup_incl_length in Hi; auto. rewrite map_length, seq_length in Hi. lia.
Qed.

(** Steps that change neither the queue nor the tickets nor the log. *)
Lemma sm_inv_quiet limit w m t p :
  sm_inv limit w m -> (ticket p = None \/ ticket p = ticket (mm_thr m t)) ->
  (forall c rs, rep (mm_q m) w (c :: rs) -> pc_ok (mm_q m) w (c :: rs) (mm_thr m t) ->
     (forall n, ticket (mm_thr m t) = Some n -> 1 <= n <= c) -> pc_ok (mm_q m) w (c :: rs) p) ->
  sm_inv limit w (mk_smm (mm_q m) (fset (mm_thr m) t p) (mm_log m)).
Proof.
  intros (c & rs & a & log & adm & R & L & P1 & P2 & P3 & P4 & P5 & P6 & P7 & P8 & P9 & P10 & P11 & P12) Ht Hp.
  exists c, rs, a, log, adm. cbn [mm_q mm_thr mm_log]. repeat (split; [assumption|]).
  assert (Tk : forall u n, ticket (fset (mm_thr m) t p u) = Some n -> ticket (mm_thr m u) = Some n).
  { intros u n. unfold fset. destruct (Nat.eqb_spec u t) as [->|]; auto. intros H. destruct Ht; congruence. }
  split; [|split; [|split; [|assumption]]].
  - intros u. unfold fset. destruct (Nat.eqb_spec u t) as [->|]; auto. apply Hp; auto. intros n Hn. apply (P10 t n Hn).
  - intros u n H. apply (P10 u n). auto.
  - intros u v n Hne H1 H2. apply (P11 u v n Hne); auto.
Qed.

Lemma sm_step_inv limit w m t : sm_inv limit w m -> sm_inv limit w (sm_step limit m t).
Proof.
  intros HI. unfold sm_step. destruct (mm_thr m t) as [|i en acc| |k|k n|i en acc k n] eqn:Et; cbn [sm_move].
  - cbn [sm_bump]. apply sm_inv_quiet; auto. intros; exact I.
  - destruct (i =? en)%nat; [destruct (limit <=? acc)|]; cbn [sm_bump]; apply sm_inv_quiet; auto; intros; exact I.
  - cbn [sm_bump]. apply sm_inv_quiet; auto. intros; reflexivity.
  - (* fetch_add *)
    destruct HI as (c & rs & a & log & adm & R & L & P1 & P2 & P3 & P4 & P5 & P6 & P7 & P8 & P9 & P10 & P11 & P12).
    pose proof (P9 t) as Hk. rewrite Et in Hk. cbn [pc_ok] in Hk. subst k.
    destruct (rep_hit _ w c rs R) as [R1 Rc]. cbn [sm_bump]. rewrite Rc.
    exists (c + 1), rs, a, log, adm. cbn [mm_q mm_thr mm_log].
    split; [exact R1|]. split; [exact L|]. split; [lia|]. do 6 (split; [assumption|]).
    split; [intros n Hn; specialize (P8 n Hn); lia|].
    set (q1 := hq_hit (mm_q m) (hq_current (mm_q m) (hq_begin (mm_q m)))) in *.
    assert (Hb : hq_begin q1 = hq_begin (mm_q m)) by reflexivity.
    assert (Hc : hq_current q1 (hq_begin q1) = hq_current (mm_q m) (hq_begin (mm_q m))).
    { rewrite (current_slot q1 w _ R1), (current_slot _ w _ R), Hb. reflexivity. }
    split; [|split; [|split; [|assumption]]].
    + intros u. unfold fset. destruct (Nat.eqb_spec u t) as [->|Hu]; [cbn [pc_ok]; auto|].
      pose proof (P9 u) as Pu. destruct (mm_thr m u) as [|i en acc| |k|k n|i en acc k n]; cbn [pc_ok] in *; auto;
        try congruence.
      destruct Pu as (E1 & j & E2 & E3). split; [rewrite Hb; auto|]. exists j. split; [rewrite Hb; auto|].
      destruct E3 as [[E3 E4]|E3]; [|right; exact E3]. left. split; auto. rewrite E4.
      assert (Hs : exists z, (w - j)%nat = S z) by (exists (w - j - 1)%nat; lia). destruct Hs as (z & ->). reflexivity.
    + intros u n. unfold fset. destruct (Nat.eqb_spec u t) as [->|Hu].
      * cbn [ticket]. intros E; inversion E; subst n. split; [lia|]. intros Hin. specialize (P8 _ Hin). lia.
      * intros E. destruct (P10 u n E). split; auto. lia.
    + intros u v n Huv. unfold fset. destruct (Nat.eqb_spec u t) as [->|Hu]; destruct (Nat.eqb_spec v t) as [->|Hv];
        try congruence; cbn [ticket].
      * intros E1 E2. inversion E1; subst n. specialize (P10 v _ E2). lia.
      * intros E1 E2. inversion E2; subst n. specialize (P10 u _ E1). lia.
      * apply P11; auto.
  - cbn [sm_bump]. apply sm_inv_quiet; auto; [right; rewrite Et; reflexivity|].
    intros c rs R _ _. cbn [pc_ok]. pose proof R as (H1 & H2 & H3 & H4 & H5).
    split; [unfold hq_end; rewrite (rep_window _ w _ R), H2; reflexivity|]. exists 0%nat. split.
    + rewrite Nat.add_0_r. symmetry. apply Nat.mod_small. auto.
    + left. split; auto. rewrite Nat.sub_0_r, <- H4, skipn_all. reflexivity.
  - destruct (i =? en)%nat eqn:Ei.
    + (* verdict *)
      destruct (limit <? acc) eqn:El; cbn [sm_bump]; [apply sm_inv_quiet; auto; intros; exact I|].
      destruct HI as (c & rs & a & log & adm & R & L & P1 & P2 & P3 & P4 & P5 & P6 & P7 & P8 & P9 & P10 & P11 & P12).
      rewrite L. cbn [sm_bump].
      pose proof R as (H1 & H2 & H3 & H4 & H5).
      pose proof (P9 t) as Pt. rewrite Et in Pt. cbn [pc_ok tl] in Pt. destruct Pt as (E1 & j & E2 & E3).
      apply Nat.eqb_eq in Ei.
      assert (Hacc : total rs + n <= acc).
      { destruct E3 as [[E3 _]|[_ E3]]; auto. exfalso. rewrite E2, E1 in Ei. apply mod_off_inj in Ei; lia. }
      destruct (P10 t n) as [Pn Pni]; [rewrite Et; reflexivity|].
      assert (Hlen : a + 1 <= limit - total rs).
      { assert (G := pigeon (n :: adm) (limit - total rs)).
        assert (ND : NoDup (n :: adm)) by (constructor; auto).
        specialize (G ND). cbn [length] in G.
        assert (Z.of_nat (S (length adm)) <= Z.max 0 (limit - total rs)).
        { apply G. intros x [<-|Hx]; [lia|]. specialize (P8 x Hx). lia. }
        lia. }
      exists c, rs, (a + 1), log, (n :: adm). cbn [mm_q mm_thr mm_log].
      split; [exact R|]. split; [reflexivity|]. split; [lia|]. split; [assumption|]. split; [lia|].
      split; [assumption|]. split; [assumption|]. split; [constructor; auto|]. split; [cbn [length]; lia|].
      split. { intros x [<-|Hx]; [lia|apply P8; auto]. }
      split. { intros u. unfold fset. destruct (Nat.eqb_spec u t) as [->|Hu]; [exact I|apply P9]. }
      split. { intros u x. unfold fset. destruct (Nat.eqb_spec u t) as [->|Hu]; [discriminate|].
               intros E. destruct (P10 u x E) as [Q1 Q2]. split; auto. intros [<-|Hx]; auto.
               apply (P11 u t n); auto. rewrite Et. reflexivity. }
      split. { intros u v x Huv. unfold fset.
               destruct (Nat.eqb_spec u t) as [->|Hu]; [discriminate|].
               destruct (Nat.eqb_spec v t) as [->|Hv]; [discriminate|]. apply P11; auto. }
      destruct w as [|w]; [lia|]. cbn [firstn]. rewrite total_cons.
      replace (S w - 1)%nat with w in * by lia.
      assert (total (firstn w log) <= total rs); [|lia].
      apply total_pointwise; auto. cbn [length] in H4. rewrite firstn_length. lia.
    + cbn [sm_bump]. apply sm_inv_quiet; auto; [right; rewrite Et; reflexivity|].
      intros c rs R Pt Pn. rewrite Et in Pt. cbn [pc_ok] in *. destruct Pt as (E1 & j & E2 & E3).
      pose proof R as (H1 & H2 & H3 & H4 & H5). split; auto. apply Nat.eqb_neq in Ei.
      destruct E3 as [[E3 E4]|[E3 _]]; [|exfalso; subst j i en; congruence].
      exists (S j). split; [unfold hq_next_index; rewrite E2, H2; apply next_mod; lia|].
      rewrite E2, (rep_slot _ w _ j R E3), E4.
      destruct (Nat.eq_dec (S j) w) as [Ej|Ej].
      * right. split; auto. replace (w - 1 - j)%nat with 0%nat by lia. replace (w - j)%nat with 1%nat by lia.
        cbn [nth skipn tl]. rewrite Et in Pn. specialize (Pn n eq_refl). lia.
      * left. split; [lia|]. replace (w - S j)%nat with (w - 1 - j)%nat by lia.
        rewrite (skipn_nth (c :: rs) (w - 1 - j) 0) by lia. rewrite total_cons.
        replace (S (w - 1 - j)) with (w - j)%nat by lia. lia.
Qed.

Lemma sm_tick_inv limit w m : sm_inv limit w m -> (forall t, mm_thr m t = MIdle) -> sm_inv limit w (sm_tick m).
Proof.
  intros (c & rs & a & log & adm & R & L & P1 & P2 & P3 & P4 & P5 & P6 & P7 & P8 & P9 & P10 & P11 & P12) Hid.
  pose proof (rep_next _ w _ R) as R1.
  assert (W0 : (0 < w)%nat) by apply R.
  assert (Wl : length (c :: rs) = w) by apply R.
  assert (Fr : Forall (fun x => 0 <= x) (c :: rs)) by (constructor; auto).
  exists 0, (removelast (c :: rs)), 0, (a :: log), []. unfold sm_tick. cbn [mm_q mm_thr mm_log]. rewrite L.
  split; [exact R1|]. split; [reflexivity|]. split; [lia|].
  split. { rewrite removelast_firstn_len. rewrite <- (firstn_skipn (pred (length (c :: rs))) (c :: rs)) in Fr.
           apply Forall_app in Fr. apply Fr. }
  split; [lia|]. split; [constructor; auto|].
  split.
  { intros j. rewrite removelast_firstn_len, Wl. replace (pred w) with (w - 1)%nat by lia.
    assert (G : forall n k (l : list Z), nth k (firstn n l) 0 = if (k <? n)%nat then nth k l 0 else 0).
    { induction n as [|n IH]; intros k l; [destruct k; reflexivity|].
      destruct l as [|x l]; [destruct k; cbn [firstn nth]; destruct (_ <? _)%nat; reflexivity|].
      destruct k as [|k]; [reflexivity|]. cbn [firstn nth]. rewrite IH. reflexivity. }
    rewrite !G. destruct (Nat.ltb_spec j (w - 1)) as [Hj|Hj]; [|lia].
    destruct j as [|j]; cbn [nth].
    - pose proof (pigeon adm c P6 (fun n Hn => proj1 (P8 n Hn))). lia.
    - specialize (P5 j). rewrite G in P5. replace (j <? w - 1)%nat with true in P5 by (symmetry; apply Nat.ltb_lt; lia). exact P5. }
  split; [constructor|]. split; [reflexivity|]. split; [intros n []|].
  split; [intros t; rewrite Hid; exact I|]. split; [intros t n; rewrite Hid; discriminate|].
  split; [intros t u n _; rewrite Hid; discriminate|].
  destruct w as [|w]; [lia|]. cbn [firstn]. rewrite total_cons.
  assert (F : Forall (fun x => 0 <= x) (firstn (S w) (a :: log))).
  { assert (F0 : Forall (fun x => 0 <= x) (a :: log)) by (constructor; auto).
    rewrite <- (firstn_skipn (S w) (a :: log)) in F0. apply Forall_app in F0. apply F0. }
  pose proof (total_firstn_le _ w F) as T. rewrite firstn_firstn in T. replace (Nat.min w (S w)) with w in T by lia.
  lia.
Qed.

Lemma smooth_concurrent limit w m :
  (0 < w)%nat -> sm_reach limit w m -> total (firstn w (mm_log m)) <= Z.max 0 limit.
Proof.
  intros Hw H. assert (HI : sm_inv limit w m).
  { induction H as [|m t H IH|m H IH Hid]; auto using sm_step_inv, sm_tick_inv.
    destruct w as [|w]; [lia|].
    exists 0, (repeat 0 w), 0, [], []. cbn [mm_q mm_thr mm_log].
    split; [apply (rep_new (S w)); auto|]. split; [reflexivity|]. split; [lia|].
    split; [clear; induction w; constructor; auto; lia|]. split; [lia|]. split; [constructor|].
    split; [intros j; rewrite firstn_nil, nth_repeat; destruct j; cbn; lia|].
    split; [constructor|]. split; [reflexivity|]. split; [intros n []|]. split; [intros t; exact I|].
    split; [discriminate|]. split; [discriminate|]. cbn [firstn]. rewrite firstn_nil. cbn. lia. }
  destruct HI as (c & rs & a & log & adm & R & L & P). rewrite L. apply P.
Qed.

(** Two overlapping callers with room for one request: both are rejected. *)
Lemma smooth_both_rejected :
  exists sched m, sm_sched 1 (mk_smm (hq_new 1) (fun _ => MIdle) [0]) sched = m /\
    mm_thr m 1%nat = MIdle /\ mm_thr m 2%nat = MIdle /\ mm_log m = [0] /\ hq_frames (mm_q m) <> hq_frames (hq_new 1).
Proof.
  exists [Some 1; Some 2; Some 1; Some 2; Some 1; Some 2; Some 1; Some 2; Some 1; Some 2; Some 1; Some 1; Some 1;
          Some 2; Some 2; Some 2]%nat.
  eexists. split; [reflexivity|]. vm_compute. repeat split; discriminate.
Qed.

(** A tick in the middle of a call lets two requests through in one frame although the limit is 1. *)
Lemma smooth_tick_overlap :
  exists sched m, sm_sched 1 (mk_smm (hq_new 1) (fun _ => MIdle) [0]) sched = m /\
    total (firstn 1 (mm_log m)) = 2.
Proof.
  exists (repeat (Some 1) 4 ++ [None] ++ repeat (Some 2) 8 ++ repeat (Some 1) 4)%nat.
  eexists. split; [reflexivity|]. vm_compute. reflexivity.
Qed.
