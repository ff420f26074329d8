(** Proofs about smooth weighted round robin and polling. *)
From Verif.Lib Require Import Base Bytes.
From Verif.LoadBalance Require Import Model Spec.
From Coq Require Import Permutation.
Local Open Scope Z_scope.

(** ** Sums and pointwise additions. *)
Lemma sum_cons x l : sum (x :: l) = x + sum l.
Proof. reflexivity. Qed.
Lemma sum_nil : sum [] = 0.
Proof. reflexivity. Qed.
Local Opaque sum.

Definition zadd (a b : list Z) : list Z := map (fun p => fst p + snd p) (combine a b).

Lemma zadd_length a b : length a = length b -> length (zadd a b) = length a.
Proof. intros H. unfold zadd. rewrite map_length, combine_length. lia. Qed.

Lemma zadd_nth a b i : length a = length b -> nth i (zadd a b) 0 = nth i a 0 + nth i b 0.
Proof.
  revert b i; induction a as [|x a IH]; intros [|y b] i H; try discriminate.
  - destruct i; reflexivity.
  - destruct i; [reflexivity|]. cbn in H. unfold zadd in *. cbn. apply IH. lia.
Qed.

Lemma zadd_sum a b : length a = length b -> sum (zadd a b) = sum a + sum b.
Proof.
  revert b; induction a as [|x a IH]; intros [|y b] H; try discriminate; [reflexivity|].
  cbn in H. unfold zadd in *. cbn [combine map fst snd]. rewrite !sum_cons, IH by lia. lia.
Qed.

Lemma sum_nonneg l : (forall i, (i < length l)%nat -> 0 <= nth i l 0) -> 0 <= sum l.
Proof.
  induction l as [|x l IH]; intros H; rewrite ?sum_cons, ?sum_nil; [lia|].
  pose proof (H O ltac:(cbn; lia)) as H0. cbn in H0.
  assert (0 <= sum l) by (apply IH; intros i Hi; apply (H (S i)); cbn; lia). lia.
Qed.

Lemma sum_nth_le l i : (forall i, (i < length l)%nat -> 0 <= nth i l 0) -> (i < length l)%nat -> nth i l 0 <= sum l.
Proof.
  revert i; induction l as [|x l IH]; intros i H Hi; cbn in Hi; [lia|].
  pose proof (H O ltac:(cbn; lia)) as H0. cbn in H0.
  assert (Hl : forall j, (j < length l)%nat -> 0 <= nth j l 0) by (intros j Hj; apply (H (S j)); cbn; lia).
  pose proof (sum_nonneg l Hl). rewrite sum_cons. destruct i; cbn [nth]; [lia|]. specialize (IH i Hl ltac:(lia)). lia.
Qed.

(** All entries above -W and sum 0: each entry is below (n - 1) W. *)
Lemma sum_bound l W i :
  0 <= W -> (forall j, (j < length l)%nat -> - W < nth j l 0) -> (i < length l)%nat ->
  nth i l 0 <= sum l + (Z.of_nat (length l) - 1) * W.
Proof.
  revert i; induction l as [|x l IH]; intros i HW H Hi; cbn [length] in *; [lia|].
  pose proof (H O ltac:(lia)) as H0. cbn in H0.
  assert (Hl : forall j, (j < length l)%nat -> - W < nth j l 0) by (intros j Hj; apply (H (S j)); lia).
  assert (Hs : - (Z.of_nat (length l) * W) <= sum l).
  { clear IH Hi H H0. induction l as [|y l IH]; cbn [length]; rewrite ?sum_cons, ?sum_nil; [lia|].
    pose proof (Hl O ltac:(cbn; lia)) as H0. cbn in H0. cbn [length] in *.
    assert (- (Z.of_nat (length l) * W) <= sum l) by (apply IH; intros j Hj; apply (Hl (S j)); lia).
    lia. }
  rewrite sum_cons. destruct i; cbn [nth].
  - lia.
  - specialize (IH i HW Hl ltac:(lia)). lia.
Qed.

Lemma upd_length {A} (l : list A) i f : length (upd l i f) = length l.
Proof. revert i; induction l as [|x l IH]; intros [|i]; cbn; auto. Qed.

Lemma upd_nth_same (l : list Z) i f : (i < length l)%nat -> nth i (upd l i f) 0 = f (nth i l 0).
Proof.
  revert i; induction l as [|x l IH]; intros [|i] H; cbn in *; try lia; auto.
  apply IH. lia.
Qed.

Lemma upd_nth_other (l : list Z) i j f : i <> j -> nth j (upd l i f) 0 = nth j l 0.
Proof.
  revert i j; induction l as [|x l IH]; intros [|i] [|j] H; cbn; auto; try congruence.
Qed.

Lemma upd_sum l i f : (i < length l)%nat -> sum (upd l i f) = sum l - nth i l 0 + f (nth i l 0).
Proof.
  revert i; induction l as [|x l IH]; intros [|i] H; cbn in *; try lia; rewrite !sum_cons; try lia.
  rewrite IH by lia. lia.
Qed.

(** ** The selection loop. *)
Lemma sw_loop_spec cur ws i mx sel :
  length cur = length ws ->
  (forall j, (j < length cur)%nat -> - 2 ^ 31 <= nth j cur 0 + nth j ws 0 < 2 ^ 31) ->
  exists s, sw_loop cur ws i mx sel = Ok (zadd cur ws, s) /\
    ((s = sel /\ forall j, (j < length cur)%nat -> nth j (zadd cur ws) 0 <= mx) \/
     exists j, s = Some (i + j)%nat /\ (j < length cur)%nat /\ mx < nth j (zadd cur ws) 0 /\
       forall k, (k < length cur)%nat -> nth k (zadd cur ws) 0 <= nth j (zadd cur ws) 0).
Proof.
  revert ws i mx sel; induction cur as [|c cur IH]; intros [|w ws] i mx sel Hl Hb; try discriminate.
  - exists sel. split; [reflexivity|]. left; split; auto. cbn. lia.
  - cbn in Hl. pose proof (Hb O ltac:(cbn; lia)) as H0. cbn in H0.
    cbn [sw_loop]. unfold add_int.
    replace ((- 2 ^ 31 <=? c + w) && (c + w <? 2 ^ 31)) with true by lia. cbn [bind].
    assert (Hb' : forall j, (j < length cur)%nat -> - 2 ^ 31 <= nth j cur 0 + nth j ws 0 < 2 ^ 31)
      by (intros j Hj; apply (Hb (S j)); cbn; lia).
    change (zadd (c :: cur) (w :: ws)) with (c + w :: zadd cur ws).
    destruct (Z.ltb_spec mx (c + w)) as [Hlt|Hge].
    + destruct (IH ws (S i) (c + w) (Some i) ltac:(lia) Hb') as (s & E & D). rewrite E. cbn [bind].
      exists s. split; [reflexivity|]. right. destruct D as [(-> & D)|(j & -> & Hj & D1 & D2)].
      * exists O. split; [f_equal; lia|]. split; [cbn; lia|]. split; [exact Hlt|].
        intros [|k] Hk; cbn [nth]; [lia|]. apply D. cbn in Hk; lia.
      * exists (S j). split; [f_equal; lia|]. split; [cbn; lia|]. split; [cbn [nth]; lia|].
        intros [|k] Hk; cbn [nth]; [lia|]. apply D2. cbn in Hk; lia.
    + destruct (IH ws (S i) mx sel ltac:(lia) Hb') as (s & E & D). rewrite E. cbn [bind].
      exists s. split; [reflexivity|]. destruct D as [(-> & D)|(j & -> & Hj & D1 & D2)].
      * left. split; auto. intros [|k] Hk; cbn [nth]; [lia|]. apply D. cbn in Hk; lia.
      * right. exists (S j). split; [f_equal; lia|]. split; [cbn; lia|]. split; [exact D1|].
        intros [|k] Hk; cbn [nth]; [lia|]. apply D2. cbn in Hk; lia.
Qed.

Lemma sum_pos_entry l : 0 < sum l -> exists j, (j < length l)%nat /\ 0 < nth j l 0.
Proof.
  induction l as [|x l IH]; rewrite ?sum_cons, ?sum_nil; intros H; [lia|].
  destruct (Z.ltb_spec 0 x) as [Hx|Hx].
  - exists O. cbn; split; lia.
  - destruct IH as (j & Hj & H'). { lia. } exists (S j). cbn; split; [lia|auto].
Qed.

Lemma i32_id z : - 2 ^ 31 <= z < 2 ^ 31 -> i32 z = z.
Proof. intros H. unfold i32. rewrite Z.mod_small by lia. lia. Qed.

(** The invariant: [n] counts the selections so far. *)
Definition sw_inv (s : swrr) (ws : list Z) (W t : Z) (n : nat -> Z) : Prop :=
  sw_weights s = ws /\ sw_total s = W /\ length (sw_cur s) = length ws /\ length (sw_eps s) = length ws /\
  sum (sw_cur s) = 0 /\
  (forall i, (i < length ws)%nat -> - W < nth i (sw_cur s) 0) /\
  (forall i, (i < length ws)%nat -> nth i (sw_cur s) 0 = t * nth i ws 0 - W * n i).

  Lemma picked_cons i r rs :
    picked i (r :: rs) = picked i rs + match r with Some j => if (j =? i)%nat then 1 else 0 | None => 0 end.
  Proof.
    unfold picked. cbn [count_occ]. destruct r as [j|].
    - destruct (Nat.eqb_spec j i) as [->|Hne].
      + match goal with |- context [if ?d then _ else _] => destruct d as [E|E] end; [lia|congruence].
      + match goal with |- context [if ?d then _ else _] => destruct d as [E|E] end; [congruence|lia].
    - match goal with |- context [if ?d then _ else _] => destruct d as [E|E] end; [congruence|lia].
  Qed.

Section Swrr.
  Variable ws : list Z.
  Variable W : Z.
  Hypothesis Hws : forall i, (i < length ws)%nat -> 0 <= nth i ws 0.
  Hypothesis HW : W = sum ws.
  Hypothesis Hpos : 0 < W.
  Hypothesis Hbnd : Z.of_nat (length ws) * W < 2 ^ 31.

  Lemma sw_next_inv s t n :
    sw_inv s ws W t n ->
    exists s' i, sw_next s = Ok (s', Some i) /\ (i < length ws)%nat /\ sw_eps s' = sw_eps s /\
      sw_inv s' ws W (t + 1) (fun j => n j + if (i =? j)%nat then 1 else 0).
  Proof.
    intros (I1 & I2 & I3 & I4 & I5 & I6 & I7). unfold sw_next.
    assert (Hlen : (0 < length ws)%nat).
    { destruct ws; cbn in *; [rewrite sum_nil in HW; lia|lia]. }
    destruct (sw_eps s) as [|e0 es] eqn:Eeps; [cbn in I4; lia|]. rewrite <- Eeps in *. clear Eeps e0 es.
    assert (HL : 1 <= Z.of_nat (length ws)) by lia.
    assert (Hup : forall j, (j < length ws)%nat -> nth j (sw_cur s) 0 <= (Z.of_nat (length ws) - 1) * W).
    { intros j Hj. pose proof (sum_bound (sw_cur s) W j ltac:(lia)) as B. rewrite I3, I5 in B.
      specialize (B ltac:(intros k Hk; apply I6; auto) Hj). lia. }
    assert (Hw : forall j, (j < length ws)%nat -> nth j ws 0 <= W).
    { intros j Hj. rewrite HW. apply sum_nth_le; auto. }
    assert (Hb : forall j, (j < length ws)%nat -> - W < nth j (sw_cur s) 0 + nth j ws 0 <= Z.of_nat (length ws) * W).
    { intros j Hj. specialize (Hup j Hj). specialize (Hw j Hj). specialize (I6 j Hj). specialize (Hws j Hj). lia. }
    assert (HWs : W < 2 ^ 31) by nia.
    rewrite I1. destruct (sw_loop_spec (sw_cur s) ws 0 (-1) None I3) as (sel & E & D).
    { intros j Hj. specialize (Hb j ltac:(lia)). lia. }
    rewrite E. cbn [bind]. set (a := zadd (sw_cur s) ws) in *.
    assert (Ha : length a = length ws) by (unfold a; rewrite zadd_length; auto).
    assert (Hsum : sum a = W) by (unfold a; rewrite zadd_sum by auto; lia).
    destruct (sum_pos_entry a ltac:(lia)) as (p & Hp1 & Hp2).
    destruct D as [(_ & D)|(i & -> & Hi & D1 & D2)].
    { specialize (D p ltac:(lia)). lia. }
    rewrite Nat.add_0_l. rewrite I3 in Hi. exists (mk_swrr (sw_eps s) ws (upd a i (fun c => i32 (c - sw_total s))) (sw_total s)), i.
    split; [reflexivity|]. split; [auto|]. split; [reflexivity|].
    assert (Hmax : 0 < nth i a 0) by (specialize (D2 p ltac:(lia)); lia).
    assert (Hai : forall j, nth j a 0 = nth j (sw_cur s) 0 + nth j ws 0) by (intros j; unfold a; apply zadd_nth; auto).
    assert (Hsub : i32 (nth i a 0 - sw_total s) = nth i a 0 - W).
    { rewrite I2. apply i32_id. rewrite Hai. specialize (Hb i Hi). rewrite Hai in Hmax. lia. }
    unfold sw_inv. cbn [sw_weights sw_total sw_cur sw_eps].
    repeat (split; [auto; rewrite ?upd_length; lia|]). split; [|split].
    - rewrite upd_sum by lia. rewrite Hsub. lia.
    - intros j Hj. destruct (Nat.eq_dec i j) as [<-|Hne].
      + rewrite upd_nth_same by lia. lia.
      + rewrite upd_nth_other by auto. rewrite Hai. specialize (Hb j Hj). lia.
    - intros j Hj. destruct (Nat.eq_dec i j) as [<-|Hne].
      + rewrite upd_nth_same by lia. rewrite Hsub, Hai, I7, Nat.eqb_refl by auto. lia.
      + rewrite upd_nth_other by auto. rewrite Hai, I7 by auto.
        replace (i =? j)%nat with false by (symmetry; apply Nat.eqb_neq; auto). lia.
  Qed.

  Lemma sw_nexts_inv k : forall s t n,
    sw_inv s ws W t n ->
    exists s' sels, sw_nexts s k = Ok (s', sels) /\ length sels = k /\ sw_eps s' = sw_eps s /\
      Forall (fun o => exists i, o = Some i /\ (i < length ws)%nat) sels /\
      sw_inv s' ws W (t + Z.of_nat k) (fun j => n j + picked j sels).
  Proof.
    induction k as [|k IH]; intros s t n Hinv.
    - exists s, []. split; [reflexivity|]. split; [reflexivity|]. split; [reflexivity|]. split; [constructor|].
      destruct Hinv as (I1 & I2 & I3 & I4 & I5 & I6 & I7). repeat (split; [auto|]).
      intros j Hj. rewrite I7 by auto. unfold picked. cbn. lia.
    - destruct (sw_next_inv s t n Hinv) as (s1 & i & E1 & Hi & Ee & Hinv1).
      destruct (IH _ _ _ Hinv1) as (s2 & rs & E2 & El & Ee2 & Ef & Hinv2).
      exists s2, (Some i :: rs). cbn [sw_nexts]. rewrite E1. cbn [bind]. rewrite E2. cbn [bind].
      split; [reflexivity|]. split; [cbn; lia|]. split; [congruence|].
      split; [constructor; eauto|].
      destruct Hinv2 as (I1 & I2 & I3 & I4 & I5 & I6 & I7). repeat (split; [auto|]).
      intros j Hj. rewrite I7 by auto. rewrite picked_cons. lia.
  Qed.
End Swrr.

Lemma sw_nexts_app s a b :
  sw_nexts s (a + b) = (bind (sw_nexts s a) (fun '(s1, r1) =>
                        bind (sw_nexts s1 b) (fun '(s2, r2) => Ok (s2, r1 ++ r2)))).
Proof.
  revert s; induction a as [|a IH]; intros s.
  - cbn [sw_nexts Nat.add bind]. destruct (sw_nexts s b) as [[s2 r2]| | |]; reflexivity.
  - cbn [sw_nexts Nat.add]. destruct (sw_next s) as [[s1 r]| | |]; cbn [bind]; auto.
    rewrite IH. destruct (sw_nexts s1 a) as [[s2 r2]| | |]; cbn [bind]; auto.
    destruct (sw_nexts s2 b) as [[s3 r3]| | |]; cbn [bind]; auto.
Qed.

Lemma list_zero (l : list Z) m :
  length l = m -> (forall i, (i < m)%nat -> nth i l 0 = 0) -> l = repeat 0 m.
Proof.
  revert m; induction l as [|x l IH]; intros m Hl H; subst m; [reflexivity|].
  cbn [length repeat]. f_equal; [apply (H O); cbn; lia|]. apply IH; auto. intros i Hi. apply (H (S i)). cbn; lia.
Qed.

Lemma sum_le (a b : list Z) :
  length a = length b -> (forall i, (i < length a)%nat -> nth i a 0 <= nth i b 0) -> sum a <= sum b.
Proof.
  revert b; induction a as [|u a IH]; intros [|v b] Hl H; try discriminate Hl; rewrite ?sum_cons, ?sum_nil; [lia|].
  cbn [length] in *. pose proof (H O ltac:(lia)) as H0. cbn [nth] in H0.
  specialize (IH b ltac:(lia) ltac:(intros i Hi; apply (H (S i)); lia)). lia.
Qed.

Lemma sum_ge_eq (a b : list Z) :
  length a = length b -> (forall i, (i < length a)%nat -> nth i a 0 <= nth i b 0) -> sum a = sum b ->
  forall i, (i < length a)%nat -> nth i a 0 = nth i b 0.
Proof.
  revert b; induction a as [|x a IH]; intros [|y b] Hl H Hs i Hi; try discriminate Hl; cbn [length] in *; try lia.
  pose proof (H O ltac:(lia)) as H0. cbn [nth] in H0. rewrite !sum_cons in Hs.
  assert (H' : forall i, (i < length a)%nat -> nth i a 0 <= nth i b 0) by (intros j Hj; apply (H (S j)); lia).
  pose proof (sum_le a b ltac:(lia) H').
  destruct i as [|i]; cbn [nth]; [lia|]. apply IH; auto; lia.
Qed.

Lemma picked_sum m sels :
  Forall (fun o => exists i, o = Some i /\ (i < m)%nat) sels ->
  sum (map (fun i => picked i sels) (seq 0 m)) = Z.of_nat (length sels).
Proof.
  induction 1 as [|o sels (i & -> & Hi) Hf IH].
  - assert (G : forall k, sum (map (fun i => picked i []) (seq k m)) = 0); [|apply G].
    induction m as [|m IH]; intros k; cbn [seq map]; [reflexivity|]. rewrite sum_cons, IH. reflexivity.
  - cbn [length]. rewrite Nat2Z.inj_succ, <- IH. clear IH Hf.
    transitivity (sum (map (fun j => picked j sels + if (i =? j)%nat then 1 else 0) (seq 0 m))).
    { f_equal. apply map_ext. intros j. rewrite picked_cons. reflexivity. }
    assert (G : forall k, (k <= i < k + m)%nat ->
      sum (map (fun j => picked j sels + if (i =? j)%nat then 1 else 0) (seq k m)) =
      Z.succ (sum (map (fun j => picked j sels) (seq k m)))).
    { clear Hi. induction m as [|m IH]; intros k Hk; [lia|]. cbn [seq map]. rewrite !sum_cons.
      destruct (Nat.eqb_spec i k) as [->|Hne].
      - assert (E : forall b, (k < b)%nat -> map (fun j => picked j sels + if (k =? j)%nat then 1 else 0) (seq b m)
                   = map (fun j => picked j sels) (seq b m)).
        { intros b Hb. apply map_ext_in. intros j Hj. apply in_seq in Hj.
          replace (k =? j)%nat with false by (symmetry; apply Nat.eqb_neq; lia). lia. }
        rewrite E by lia. lia.
      - rewrite IH by lia. lia. }
    apply G. lia.
Qed.

Section SwrrMain.
  Variable eps : list endpoint.
  Let ws := map weight eps.
  Let W := sum ws.
  Hypothesis Hw : Forall (fun e => 0 <= weight e) eps.
  Hypothesis Hpos : 0 < W.
  Hypothesis Hbnd : Z.of_nat (length eps) * W < 2 ^ 31.

  Lemma ws_nonneg : forall i, (i < length ws)%nat -> 0 <= nth i ws 0.
  Proof.
    unfold ws. intros i Hi. rewrite map_length in Hi.
    rewrite nth_indep with (d' := weight (mk_ep [] 0 0 0 0)) by (rewrite map_length; auto).
    rewrite map_nth. rewrite Forall_forall in Hw. apply Hw. apply nth_In. auto.
  Qed.

  Lemma len_ws : length ws = length eps.
  Proof. unfold ws. apply map_length. Qed.

  Lemma W_lt : W < 2 ^ 31.
  Proof.
    destruct eps as [|e r] eqn:E.
    - subst W ws. cbn [map] in Hpos. rewrite sum_nil in Hpos. lia.
    - cbn [length] in Hbnd. nia.
  Qed.

  Lemma fresh_inv : sw_inv (sw_fresh eps) ws W 0 (fun _ => 0).
  Proof.
    pose proof W_lt as HWlt. pose proof ws_nonneg as Hnn.
    unfold sw_inv, sw_fresh. cbn [sw_weights sw_total sw_cur sw_eps].
    assert (Ez : forall i, nth i (map (fun _ : endpoint => 0) eps) 0 = 0).
    { clear. induction eps as [|e l IH]; intros [|i]; cbn; auto. }
    split; [|split; [|split; [|split; [|split; [|split]]]]].
    - unfold ws. apply map_ext_in. intros e He. apply i32_id.
      rewrite Forall_forall in Hw. specialize (Hw e He).
      destruct (In_nth eps e (mk_ep [] 0 0 0 0) He) as (i & Hi & E).
      pose proof (sum_nth_le ws i Hnn ltac:(rewrite len_ws; auto)) as B.
      unfold ws in B at 1.
      rewrite nth_indep with (d' := weight (mk_ep [] 0 0 0 0)) in B by (rewrite map_length; auto).
      rewrite map_nth, E in B. fold W in B. lia.
    - assert (G : forall l a, 0 <= a -> Forall (fun e => 0 <= weight e) l -> a + sum (map weight l) < 2 ^ 32 ->
                fold_left (fun t e => (t + weight e) mod 2 ^ 32) l a = a + sum (map weight l)).
      { induction l as [|e l IH]; intros a Ha Hl Hs; cbn [map fold_left] in *; rewrite ?sum_cons, ?sum_nil in *; [lia|].
        inversion Hl as [|? ? He Hr]; subst.
        assert (0 <= sum (map weight l)).
        { apply sum_nonneg. intros i Hi. rewrite map_length in Hi.
          rewrite nth_indep with (d' := weight (mk_ep [] 0 0 0 0)) by (rewrite map_length; auto).
          rewrite map_nth. rewrite Forall_forall in Hr. apply Hr, nth_In; auto. }
        rewrite Z.mod_small by lia. rewrite IH; auto; lia. }
      rewrite G; auto; try lia. fold ws W. lia.
    - rewrite map_length, len_ws. reflexivity.
    - rewrite len_ws. reflexivity.
    - clear. induction eps as [|e l IH]; cbn [map]; [reflexivity|]. rewrite sum_cons, IH. reflexivity.
    - intros i Hi. rewrite Ez. lia.
    - intros i Hi. rewrite Ez. lia.
  Qed.

  Lemma Hbnd' : Z.of_nat (length ws) * W < 2 ^ 31.
  Proof. rewrite len_ws. exact Hbnd. Qed.

  Lemma swrr_run t :
    exists s sels, sw_nexts (sw_fresh eps) t = Ok (s, sels) /\ length sels = t /\
      Forall (fun o => exists i, o = Some i /\ (i < length eps)%nat) sels /\ sw_eps s = eps /\
      sw_inv s ws W (Z.of_nat t) (fun j => picked j sels).
  Proof.
    destruct (sw_nexts_inv ws W ws_nonneg eq_refl Hpos Hbnd' t _ _ _ fresh_inv)
      as (s & sels & E1 & E2 & E3 & E4 & E5).
    exists s, sels. split; [exact E1|]. split; [exact E2|]. split; [rewrite <- len_ws; exact E4|]. split; [exact E3|].
    destruct E5 as (I1 & I2 & I3 & I4 & I5 & I6 & I7). repeat (split; [auto|]).
    intros i Hi. rewrite I7 by auto. lia.
  Qed.

  Lemma swrr_never_ahead t :
    exists s sels, sw_nexts (sw_fresh eps) t = Ok (s, sels) /\ length sels = t /\
      Forall (fun o => exists i, o = Some i /\ (i < length eps)%nat) sels /\
      forall i, (i < length eps)%nat -> picked i sels * W < Z.of_nat t * nth i ws 0 + W.
  Proof.
    destruct (swrr_run t) as (s & sels & E1 & E2 & E3 & E4 & I1 & I2 & I3 & I4 & I5 & I6 & I7).
    exists s, sels. repeat (split; [auto|]). intros i Hi. rewrite <- len_ws in Hi.
    specialize (I6 i Hi). specialize (I7 i Hi). lia.
  Qed.

  Lemma swrr_zero_weight t i s sels :
    (i < length eps)%nat -> nth i ws 0 = 0 -> sw_nexts (sw_fresh eps) t = Ok (s, sels) -> ~ In (Some i) sels.
  Proof.
    intros Hi Hz E. destruct (swrr_never_ahead t) as (s' & sels' & E' & _ & _ & G).
    rewrite E in E'. inversion E'; subst s' sels'. specialize (G i Hi). rewrite Hz in G.
    assert (Hp : picked i sels = 0) by (unfold picked in *; nia).
    unfold picked in Hp. intros Hin.
    apply (count_occ_In opt_nat_dec) in Hin. lia.
  Qed.

  Lemma swrr_period : exists sels, sw_nexts (sw_fresh eps) (Z.to_nat W) = Ok (sw_fresh eps, sels).
  Proof.
    destruct (swrr_run (Z.to_nat W)) as (s & sels & E1 & E2 & E3 & E4 & I1 & I2 & I3 & I4 & I5 & I6 & I7).
    exists sels. rewrite E1. f_equal. f_equal.
    assert (Hle : forall i, (i < length ws)%nat -> picked i sels <= nth i ws 0).
    { intros i Hi. specialize (I6 i Hi). rewrite (I7 i Hi) in I6. rewrite Z2Nat.id in I6 by lia. nia. }
    assert (Heq : forall i, (i < length ws)%nat -> picked i sels = nth i ws 0).
    { pose proof (picked_sum (length eps) sels E3) as Hsum. rewrite E2, Z2Nat.id in Hsum by lia.
      set (ps := map (fun i => picked i sels) (seq 0 (length eps))) in *.
      assert (Hnth : forall i, (i < length ws)%nat -> nth i ps 0 = picked i sels).
      { intros i Hi. rewrite len_ws in Hi. unfold ps.
        rewrite nth_indep with (d' := (fun i => picked i sels) 0%nat) by (rewrite map_length, seq_length; auto).
        rewrite (map_nth (fun i => picked i sels)). rewrite seq_nth by auto. reflexivity. }
      assert (Hlen : length ps = length ws) by (unfold ps; rewrite map_length, seq_length, len_ws; reflexivity).
      intros i Hi. rewrite <- Hnth by auto. apply (sum_ge_eq ps ws); auto; try lia.
      intros j Hj. rewrite Hnth by lia. apply Hle. lia. }
    destruct fresh_inv as (F1 & F2 & F3 & F4 & F5 & F6 & F7).
    assert (Hcur : sw_cur s = sw_cur (sw_fresh eps)).
    { rewrite (list_zero (sw_cur s) (length ws) I3).
      - symmetry. apply list_zero; auto. intros i Hi. rewrite F7 by auto. lia.
      - intros i Hi. rewrite I7, Heq by auto. rewrite Z2Nat.id by lia. lia. }
    destruct s as [e w c T]. cbn [sw_eps sw_weights sw_cur sw_total] in *.
    rewrite E4, I1, I2, Hcur, <- F1, <- F2. reflexivity.
  Qed.

  Lemma swrr_window t :
    exists s pre sels, sw_nexts (sw_fresh eps) t = Ok (s, pre) /\
      sw_nexts s (Z.to_nat W) = Ok (s, sels) /\
      forall i, (i < length eps)%nat -> picked i sels = nth i ws 0.
  Proof.
    destruct (swrr_run t) as (s & pre & E1 & E2 & E3 & E4 & Hinv).
    destruct (sw_nexts_inv ws W ws_nonneg eq_refl Hpos Hbnd' (Z.to_nat W) _ _ _ Hinv)
      as (s' & sels & G1 & G2 & G3 & G4 & G5).
    destruct swrr_period as (sw & P).
    assert (Hs : s' = s).
    { pose proof (sw_nexts_app (sw_fresh eps) t (Z.to_nat W)) as A. rewrite E1 in A. cbn [bind] in A.
      rewrite G1 in A. cbn [bind] in A. rewrite Nat.add_comm in A.
      rewrite sw_nexts_app, P in A. cbn [bind] in A. rewrite E1 in A. cbn [bind] in A. congruence. }
    subst s'. exists s, pre, sels. split; auto. split; auto. intros i Hi. rewrite <- len_ws in Hi.
    destruct Hinv as (_ & _ & _ & _ & _ & _ & I7). destruct G5 as (_ & _ & _ & _ & _ & _ & J7).
    specialize (I7 i Hi). specialize (J7 i Hi). rewrite I7 in J7. rewrite Z2Nat.id in J7 by lia. nia.
  Qed.
End SwrrMain.

(** All weights zero: the first endpoint is always selected. *)
Lemma swrr_all_zero_case :
  let e n := mk_ep [Byte.x61] n 0 0 0 in
  exists s, sw_nexts (sw_fresh [e 1; e 2]) 4 = Ok (s, [Some 0; Some 0; Some 0; Some 0]%nat).
Proof. eexists. vm_compute. reflexivity. Qed.

(** A race of two Next calls loses an update and the weights never sum to 0 again. *)
Lemma swrr_race :
  exists sched cur p q,
    sw_run2 [1; 1] 2 [0; 0] (PLoad 0 (-1) None) (PLoad 0 (-1) None) sched = (cur, PDone p, PDone q) /\
    p <> None /\ q <> None /\ sum cur <> 0.
Proof.
  exists ([true; false] ++ repeat true 10 ++ repeat false 10). eexists. eexists. eexists.
  split; [vm_compute; reflexivity|]. repeat split; discriminate.
Qed.

(** A weight of 2^31 becomes a negative int: the endpoint loses the first selection to one of
    weight 1, and the second Next overflows a signed int. *)
Lemma swrr_huge_weight :
  exists eps s, Forall (fun e => 0 < weight e < 2 ^ 32) eps /\ nth 0 (map weight eps) 0 = 2 ^ 31 /\
    sw_nexts (sw_fresh eps) 1 = Ok (s, [Some 1%nat]) /\ sw_nexts (sw_fresh eps) 2 = UB.
Proof.
  exists [mk_ep [] 1 0 (2 ^ 31) 0; mk_ep [] 2 0 1 0]. eexists.
  split; [repeat constructor; cbn; lia|]. split; [reflexivity|].
  split; [vm_compute; reflexivity|vm_compute; reflexivity].
Qed.
