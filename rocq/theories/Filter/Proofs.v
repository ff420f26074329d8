(** Lemmas about filter chains and the retry limiter. *)
From Verif.Lib Require Import Base ListX.
From Verif.Filter Require Import Model Spec.

Definition has (p : nat) (f : filt) : bool := existsb (fun q => q =? p) (f_points f).

Lemma push_points_spec f ps : NoDup ps -> forall d p,
  push_points f ps d p = if existsb (fun q => q =? p) ps then (if post_order p then f :: d p else d p ++ [f]) else d p.
Proof.
  induction 1 as [|q ps Hn Hd IH]; intros d p; cbn [push_points existsb]; [reflexivity|].
  rewrite IH. destruct (Nat.eqb_spec q p) as [->|Hne]; cbn [orb].
  - assert (E : existsb (fun q => q =? p) ps = false).
    { destruct (existsb _ ps) eqn:E; auto. apply existsb_exists in E. destruct E as (x & Hx & Hp).
      apply Nat.eqb_eq in Hp. subst. contradiction. }
    rewrite E. rewrite fset_same. reflexivity.
  - rewrite fset_other by auto. reflexivity.
Qed.

(** The deque of a point after registration. *)
Definition chain (p : nat) (l : list filt) : list filt :=
  if post_order p then rev (filter (has p) l) else filter (has p) l.

Lemma chain_snoc p l f :
  chain p (l ++ [f]) = if has p f then (if post_order p then f :: chain p l else chain p l ++ [f]) else chain p l.
Proof.
  unfold chain. rewrite filter_app. cbn [filter]. destruct (has p f), (post_order p); rewrite ?app_nil_r, ?rev_app_distr; reflexivity.
Qed.

Definition side (g : bool) (acc : list (bool * filt)) : list filt :=
  map snd (filter (fun x => Bool.eqb (fst x) g) acc).

Lemma register_spec regs : Forall (fun x => NoDup (f_points (snd x))) regs -> forall s acc0,
  (forall p, fs_global s p = chain p (side true acc0)) ->
  (forall p, fs_service s p = chain p (side false acc0)) ->
  let '(s', acc) := register s regs in
  (forall p, fs_global s' p = chain p (side true (acc0 ++ acc))) /\
  (forall p, fs_service s' p = chain p (side false (acc0 ++ acc))).
Proof.
  induction 1 as [|[g f] regs Hf Hr IH]; intros s acc0 Hg Hs; cbn [register].
  - rewrite app_nil_r. auto.
  - cbn [snd] in Hf.
    assert (Side : forall b, side b (acc0 ++ [(g, f)]) = side b acc0 ++ (if Bool.eqb g b then [f] else [])).
    { intros b. unfold side. rewrite filter_app, map_app. cbn [filter fst]. destruct (Bool.eqb g b); reflexivity. }
    assert (Push : forall (d : nat -> list filt) l, (forall p, d p = chain p l) ->
               forall p, push_points f (f_points f) d p = chain p (l ++ [f])).
    { intros d l Hd p. rewrite push_points_spec by auto. rewrite chain_snoc. unfold has. rewrite Hd. reflexivity. }
    destruct (if g then add_global s f else add_service s f) as [s1 ok] eqn:E.
    destruct ok.
    + assert (H1 : (forall p, fs_global s1 p = chain p (side true (acc0 ++ [(g, f)]))) /\
                   (forall p, fs_service s1 p = chain p (side false (acc0 ++ [(g, f)])))).
      { destruct g; unfold add_global, add_service in E;
          (destruct (match f_points f with [] => false | p :: _ => _ end); inversion E; subst s1);
          cbn [fs_global fs_service]; split; intros p; rewrite Side; cbn [Bool.eqb]; rewrite ?app_nil_r; auto. }
      destruct H1 as [H1 H2]. specialize (IH s1 (acc0 ++ [(g, f)]) H1 H2).
      destruct (register s1 regs) as [s2 acc]. rewrite <- app_assoc in IH. exact IH.
    + assert (s1 = s). { destruct g; unfold add_global, add_service in E;
          (destruct (match f_points f with [] => false | p :: _ => _ end); inversion E; subst s1); reflexivity. }
      subst s1. specialize (IH s acc0 Hg Hs). destruct (register s regs). exact IH.
Qed.

Lemma run_until_none rej l : forall i, find rej l = None -> run_until rej i l = (l, None).
Proof.
  induction l as [|f l IH]; intros i H; cbn in *; [reflexivity|]. destruct (rej f); [discriminate|].
  rewrite IH; auto.
Qed.

Lemma run_until_some rej l : forall i x, find rej l = Some x ->
  run_until rej i l = (completed rej l ++ [x], Some (i + length (completed rej l))).
Proof.
  induction l as [|f l IH]; intros i x H; cbn [find run_until completed] in *; [discriminate|].
  destruct (rej f) eqn:E.
  - inversion H; subst. cbn. rewrite Nat.add_0_r. reflexivity.
  - rewrite (IH (S i) x H). cbn [length app]. rewrite Nat.add_succ_comm. reflexivity.
Qed.

Lemma completed_none {A} (rej : A -> bool) l : find rej l = None -> completed rej l = l.
Proof. induction l as [|f l IH]; cbn; auto. destruct (rej f); [discriminate|]. intros; f_equal; auto. Qed.

Lemma completed_app {A} (rej : A -> bool) a b :
  completed rej (a ++ b) = match find rej a with Some _ => completed rej a | None => a ++ completed rej b end.
Proof.
  induction a as [|x a IH]; cbn; [reflexivity|]. destruct (rej x) eqn:E; [reflexivity|]. rewrite IH.
  destruct (find rej a); reflexivity.
Qed.

Lemma find_app {A} (rej : A -> bool) a b :
  find rej (a ++ b) = match find rej a with Some x => Some x | None => find rej b end.
Proof. induction a as [|x a IH]; cbn; [reflexivity|]. destruct (rej x); auto. Qed.

Lemma completed_prefix {A} (rej : A -> bool) l : completed rej l = firstn (length (completed rej l)) l.
Proof. induction l as [|x l IH]; cbn; [reflexivity|]. destruct (rej x); cbn; [reflexivity|]. f_equal. auto. Qed.

Lemma completed_length {A} (rej : A -> bool) l : length (completed rej l) <= length l.
Proof. induction l as [|x l IH]; cbn; [lia|]. destruct (rej x); cbn; lia. Qed.

(** What the two runs do on chains [g], [v]. *)
Lemma run_pre s rej p c :
  post_order p = false ->
  let l := fs_global s p ++ fs_service s p in
  (length l <= 128 \/ find rej l = None) ->
  run_filters s rej p c =
    Ok (match find rej l with Some _ => fset c (p / 2) (Z.of_nat (length (completed rej l))) | None => c end,
        completed rej l ++ rejecter rej l, if find rej l then true else false).
Proof.
  intros Hp l Hl. unfold run_filters. rewrite Hp. cbn [negb]. unfold rejecter. subst l.
  set (g := fs_global s p) in *. set (v := fs_service s p) in *.
  rewrite find_app, completed_app in *. destruct (find rej g) as [x|] eqn:Eg.
  - rewrite (run_until_some rej g 0 x Eg). cbn [Nat.add bind].
    unfold set_index. replace (Z.of_nat (length (completed rej g)) <=? 127)%Z with true; [reflexivity|].
    symmetry. apply Z.leb_le. destruct Hl as [Hl|]; [|discriminate].
    assert (length (completed rej g) < length g).
    { clear -Eg. revert x Eg. induction g as [|y g IH]; intros x Eg; cbn in *; [discriminate|].
      destruct (rej y); cbn; [lia|]. specialize (IH x Eg). lia. }
    rewrite app_length in Hl. lia.
  - rewrite (run_until_none rej g 0 Eg). destruct (find rej v) as [x|] eqn:Ev.
    + rewrite (run_until_some rej v 0 x Ev). cbn [Nat.add bind]. unfold set_index.
      replace (Z.of_nat (length (completed rej v) + length g) <=? 127)%Z with true.
      * cbn [bind]. rewrite !app_length, app_assoc. do 3 f_equal. f_equal. lia.
      * symmetry. apply Z.leb_le. destruct Hl as [Hl|]; [|discriminate].
        assert (length (completed rej v) < length v).
        { clear -Ev. revert x Ev. induction v as [|y g IH]; intros x Ev; cbn in *; [discriminate|].
          destruct (rej y); cbn; [lia|]. specialize (IH x Ev). lia. }
        rewrite app_length in Hl. lia.
    + rewrite (run_until_none rej v 0 Ev). rewrite app_nil_r, (completed_none rej v Ev). reflexivity.
Qed.

Lemma skipn_rev {A} (l : list A) n : skipn (length l - n) (rev l) = rev (firstn n l).
Proof.
  rewrite <- (firstn_skipn n l) at 2. rewrite rev_app_distr, skipn_app.
  rewrite rev_length, skipn_length. rewrite skipn_all2 by (rewrite rev_length, skipn_length; lia).
  replace (length l - n - (length l - n)) with 0 by lia. reflexivity.
Qed.

Lemma run_post s rej p c g v n :
  post_order (S p) = true -> Nat.even p = true ->
  fs_global s (S p) = rev g -> fs_service s (S p) = rev v ->
  c (p / 2) = (if (length g + length v <? n)%nat then (-1)%Z else Z.of_nat n) ->
  run_filters s rej (S p) c = Ok (c, rev (firstn n (g ++ v)), false).
Proof.
  intros Hp He Hg Hv Hc. unfold run_filters. rewrite Hp. cbn [negb]. rewrite Hg, Hv, !rev_length.
  assert (Hm : match_point (S p) = p).
  { unfold match_point. rewrite Nat.even_succ. rewrite <- Nat.negb_even, He. cbn. lia. }
  rewrite Hm. unfold get_index. rewrite Hc. clear Hc.
  destruct (Nat.ltb_spec (length g + length v) n) as [Hn|Hn].
  - rewrite Z.eqb_refl.
    assert (E : firstn n (g ++ v) = g ++ v) by (apply firstn_all2; rewrite app_length; lia). rewrite E.
    destruct (Nat.ltb_spec (length g) (length g + length v)) as [H|H].
    + replace (length v - (length g + length v - length g)) with 0 by lia.
      rewrite Nat.sub_diag. cbn [skipn]. rewrite rev_app_distr. reflexivity.
    + assert (length v = 0) by lia. destruct v; [|cbn in *; lia]. cbn [length]. rewrite Nat.add_0_r, Nat.sub_diag.
      cbn [skipn app]. rewrite app_nil_r. reflexivity.
  - replace (Z.of_nat n =? -1)%Z with false by (symmetry; apply Z.eqb_neq; lia). rewrite Nat2Z.id.
    rewrite firstn_app. destruct (Nat.ltb_spec (length g) n) as [H|H].
    + rewrite skipn_rev. rewrite Nat.sub_diag. cbn [skipn]. rewrite rev_app_distr.
      rewrite (firstn_all2 g) by lia. reflexivity.
    + rewrite skipn_rev. replace (n - length g) with 0 by lia. cbn [firstn app]. rewrite app_nil_r. reflexivity.
Qed.

Lemma filters_nest regs p rej c :
  Nat.even p = true ->
  Forall (fun x => NoDup (f_points (snd x))) regs ->
  Forall (fun x => In p (f_points (snd x)) <-> In (S p) (f_points (snd x))) regs ->
  c (p / 2) = (-1)%Z ->
  let '(s, acc) := register fs_none regs in
  let l := filter (has p) (side true acc) ++ filter (has p) (side false acc) in
  (length l <= 128 \/ find rej l = None) ->
  exists c',
    run_filters s rej p c = Ok (c', completed rej l ++ rejecter rej l, if find rej l then true else false) /\
    forall rej', run_filters s rej' (S p) c' = Ok (c', rev (completed rej l), false).
Proof.
  intros He Hnd Hm Hc.
  pose proof (register_spec regs Hnd fs_none [] ) as R.
  assert (Hacc : forall s, Forall (fun x => In p (f_points (snd x)) <-> In (S p) (f_points (snd x))) (snd (register s regs))).
  { clear -Hm. induction Hm as [|[g f] regs H _ IH]; intros s; cbn [register]; [constructor|].
    destruct (if g then add_global s f else add_service s f) as [s1 ok]. specialize (IH s1).
    destruct (register s1 regs) as [s2 acc]. cbn [snd] in *. destruct ok; auto. }
  specialize (Hacc fs_none).
  destruct (register fs_none regs) as [s acc]. cbn [snd] in Hacc.
  destruct R as [Rg Rs]; [intros q; unfold chain; cbn; destruct (post_order q); reflexivity..|].
  cbn [app] in Rg, Rs.
  assert (Ep : post_order p = false) by (unfold post_order; rewrite <- Nat.negb_even, He; reflexivity).
  assert (Ep1 : post_order (S p) = true) by (unfold post_order; rewrite Nat.odd_succ; auto).
  assert (Same : forall b, filter (has (S p)) (side b acc) = filter (has p) (side b acc)).
  { intros b. apply filter_ext_in. intros f Hf. unfold side in Hf. apply in_map_iff in Hf.
    destruct Hf as ([b' f'] & Ef & Hf). cbn in Ef. subst f'. apply filter_In in Hf. destruct Hf as [Hf _].
    rewrite Forall_forall in Hacc. specialize (Hacc _ Hf). cbn in Hacc. unfold has.
    assert (I : forall q, existsb (fun x => x =? q) (f_points f) = true <-> In q (f_points f)).
    { intros q. rewrite existsb_exists. split.
      - intros (x & Hx & Hq). apply Nat.eqb_eq in Hq. subst. auto.
      - intros Hq. exists q. rewrite Nat.eqb_refl. auto. }
    pose proof (I p) as I1. pose proof (I (S p)) as I2.
    destruct (existsb (fun x => x =? S p) (f_points f)), (existsb (fun x => x =? p) (f_points f)); intuition congruence. }
  pose proof (Rg p) as G0. pose proof (Rs p) as S0. pose proof (Rg (S p)) as G1. pose proof (Rs (S p)) as S1.
  unfold chain in G0, S0, G1, S1. rewrite Ep in G0, S0. rewrite Ep1 in G1, S1. rewrite Same in G1, S1.
  set (g := filter (has p) (side true acc)) in *. set (v := filter (has p) (side false acc)) in *.
  intros l Hl. pose proof (run_pre s rej p c Ep) as P. rewrite G0, S0 in P. fold l in P. cbv zeta in P.
  specialize (P Hl). rewrite P. eexists. split; [reflexivity|]. intros rej'.
  destruct (find rej l) as [x|] eqn:Ef.
  - rewrite (run_post s rej' p _ g v (length (completed rej l)) Ep1 He G1 S1).
    + fold l. rewrite <- completed_prefix. reflexivity.
    + rewrite fset_same. pose proof (completed_length rej l) as L. unfold l in L at 2. rewrite app_length in L.
      replace (length g + length v <? length (completed rej l)) with false by (symmetry; apply Nat.ltb_ge; lia).
      reflexivity.
  - rewrite (run_post s rej' p c g v (S (length l)) Ep1 He G1 S1).
    + fold l. rewrite firstn_all2 by lia. rewrite (completed_none rej l Ef). reflexivity.
    + unfold l. rewrite app_length. replace (_ <? _) with true by (symmetry; apply Nat.ltb_lt; lia). exact Hc.
Qed.

(** A context used for a second call keeps the first call's index. *)
Lemma filters_reused_context :
  exists regs rej, let s := fst (register fs_none regs) in
    exists c1 c2 calls1 calls2 posts,
      run_filters s rej 2 fresh_index = Ok (c1, calls1, true) /\
      run_filters s (fun _ => false) 2 c1 = Ok (c2, calls2, false) /\
      run_filters s (fun _ => false) 3 c2 = Ok (c2, posts, false) /\
      length calls2 = 2 /\ length posts = 1.
Proof.
  exists [(true, mk_filt 1 [2; 3]); (false, mk_filt 2 [2; 3])], (fun f => f_name f =? 2).
  cbn [register fst]. do 5 eexists. split; [vm_compute; reflexivity|]. split; [vm_compute; reflexivity|].
  split; [vm_compute; reflexivity|]. split; reflexivity.
Qed.

(** The duplicate check looks at the first point only. *)
Lemma filters_duplicate :
  exists regs, let '(s, acc) := register fs_none regs in
    map (fun x => f_name (snd x)) acc = [1; 1] /\ length (fs_service s 2) = 2.
Proof. exists [(false, mk_filt 1 [2; 3]); (false, mk_filt 1 [0; 1; 2; 3])]. vm_compute. split; reflexivity. Qed.

(* ------------------------------------------------------------------------- *)
(** * Retry limiter *)
Local Open Scope Z_scope.

Lemma counts_cons b l :
  succ_count (b :: l) = (if b then 1 else 0) + succ_count l /\
  fail_count (b :: l) = (if b then 0 else 1) + fail_count l.
Proof. unfold succ_count, fail_count. destruct b; cbn [filter negb length]; lia. Qed.

Lemma rl_run_bounds mx ratio outcomes :
  rl_config_ok mx ratio -> - ratio <= rl_run mx ratio outcomes <= mx.
Proof.
  intros (H1 & H2). unfold rl_run.
  assert (G : forall l t, - ratio <= t <= mx -> - ratio <= fold_left (rl_post mx ratio) l t <= mx).
  { induction l as [|b l IH]; intros t Ht; cbn [fold_left]; auto. apply IH. unfold rl_post.
    destruct b; [destruct (Z.leb_spec mx t)|destruct (Z.ltb_spec t 0)]; lia. }
  apply G. lia.
Qed.

Lemma rl_run_budget mx ratio outcomes :
  rl_config_ok mx ratio ->
  mx - ratio * fail_count outcomes <= rl_run mx ratio outcomes <=
  Z.max (succ_count outcomes) (mx + succ_count outcomes - ratio * fail_count outcomes).
Proof.
  intros (H1 & H2). unfold rl_run.
  assert (G : forall l t lo hi s, lo <= mx -> lo <= t <= Z.max s hi -> 0 <= s ->
    lo - ratio * fail_count l <= fold_left (rl_post mx ratio) l t <=
    Z.max (s + succ_count l) (hi + succ_count l - ratio * fail_count l)).
  { induction l as [|b l IH]; intros t lo hi s Hlo Ht Hs; cbn [fold_left]; [cbn; lia|].
    destruct (counts_cons b l) as [-> ->].
    destruct b; unfold rl_post at 2; unfold rl_post at 3.
    - destruct (Z.leb_spec mx t) as [H|H].
      + specialize (IH (t + 1 - 1) lo (hi + 1) (s + 1)). nia.
      + specialize (IH (t + 1) lo (hi + 1) (s + 1)). nia.
    - destruct (Z.ltb_spec t 0) as [H|H].
      + specialize (IH 0 (lo - ratio) (hi - ratio) s). nia.
      + specialize (IH (t - ratio) (lo - ratio) (hi - ratio) s). nia. }
  pose proof (G outcomes mx mx mx 0 ltac:(lia) ltac:(lia) ltac:(lia)). lia.
Qed.

Lemma rl_failures_keep mx ratio outcomes n :
  rl_config_ok mx ratio -> rl_cancels mx (rl_run mx ratio outcomes) = true ->
  rl_cancels mx (rl_run mx ratio (outcomes ++ repeat false n)) = true.
Proof.
  intros (H1 & H2). unfold rl_run. rewrite fold_left_app.
  generalize (fold_left (rl_post mx ratio) outcomes mx). unfold rl_cancels.
  assert (Hh : 0 <= Z.shiftr mx 1) by (rewrite Z.shiftr_nonneg; lia).
  induction n as [|n IH]; intros t Ht; cbn [repeat fold_left]; auto. apply IH. unfold rl_post.
  destruct (Z.ltb_spec t 0); lia.
Qed.

Lemma rl_successes_restore mx ratio outcomes n :
  rl_config_ok mx ratio -> Z.shiftr mx 1 + ratio < Z.of_nat n ->
  rl_cancels mx (rl_run mx ratio (outcomes ++ repeat true n)) = false.
Proof.
  intros Hc Hn. pose proof (rl_run_bounds mx ratio outcomes Hc) as B. destruct Hc as (H1 & H2).
  unfold rl_run in *. rewrite fold_left_app. revert B. generalize (fold_left (rl_post mx ratio) outcomes mx).
  intros t B. unfold rl_cancels. apply Z.leb_gt.
  assert (Hh : Z.shiftr mx 1 < mx) by (rewrite Z.shiftr_div_pow2 by lia; apply Z.div_lt; lia).
  assert (G : forall k u, u <= mx -> fold_left (rl_post mx ratio) (repeat true k) u = Z.min mx (u + Z.of_nat k)).
  { induction k as [|k IH]; intros u Hu; cbn [repeat fold_left]; [lia|]. unfold rl_post at 2.
    destruct (Z.leb_spec mx u); rewrite IH by lia; lia. }
  rewrite G by lia. lia.
Qed.

Definition subs (l : list rl_pc) : Z :=
  Z.of_nat (length (filter (fun p => match p with RSub => true | _ => false end) l)).

Lemma subs_lset l t p q : nth_error l t = Some q ->
  subs (lset l t p) = subs l + (match p with RSub => 1 | _ => 0 end) - (match q with RSub => 1 | _ => 0 end).
Proof.
  revert t; induction l as [|x l IH]; intros [|t] H; cbn [nth_error] in H; try discriminate.
  - inversion H; subst. unfold subs. cbn [lset filter]. destruct p, q; cbn [length]; lia.
  - specialize (IH t H). unfold subs in *. cbn [lset filter]. destruct x; cbn [length]; lia.
Qed.

Lemma rl_concurrent_inv mx ratio n m :
  rl_config_ok mx ratio -> rl_reach mx ratio n m -> rl_tokens m <= mx + subs (rl_thr m).
Proof.
  intros Hc H. induction H as [|m m' H IH S]; cbn [rl_tokens rl_thr].
  - unfold subs. lia.
  - destruct Hc as (H1 & H2). assert (0 <= subs (rl_thr m)) by (unfold subs; lia).
    destruct S as [m t E|m t E|m t E|m t E]; cbn [rl_tokens rl_thr]; rewrite (subs_lset _ _ _ _ E).
    + destruct (Z.leb_spec mx (rl_tokens m)); lia.
    + destruct (Z.ltb_spec (rl_tokens m) 0); lia.
    + lia.
    + assert (0 <= subs (lset (rl_thr m) t RIdle)) by (unfold subs; lia). rewrite (subs_lset _ _ _ _ E) in *. lia.
Qed.

Lemma rl_concurrent mx ratio n m :
  rl_config_ok mx ratio -> rl_reach mx ratio n m -> Forall (fun p => p = RIdle) (rl_thr m) -> rl_tokens m <= mx.
Proof.
  intros Hc H F. pose proof (rl_concurrent_inv mx ratio n m Hc H).
  assert (subs (rl_thr m) = 0); [|lia]. clear -F. unfold subs. induction F as [|x l -> F IH]; cbn; auto.
Qed.

(** A delayed store wipes out the tokens earned since. *)
Lemma rl_late_store :
  exists pre, let m := fold_left (rl_act 4 2) (pre ++ concat (repeat [inl (1, true); inr 1] 20))%nat (mk_rl 4 [RIdle; RIdle]) in
    let m' := rl_act 4 2 m (inr 0%nat) in
    rl_tokens m = 4 /\ rl_tokens m' = 0 /\ rl_thr m' = [RIdle; RIdle].
Proof.
  exists [inl (0, false); inl (0, false); inl (0, false); inl (0, false)]%nat. vm_compute. auto.
Qed.
