(** Lemmas about the bounded queue and rounding. *)
From Verif.Lib Require Import Base ListX.
From Verif.Container Require Import Model Spec.
Local Open Scope Z_scope.

Lemma u32_id z : 0 <= z < 2 ^ 32 -> u32 z = z.
Proof. intros. apply Z.mod_small. auto. Qed.

Lemma bq_mod_spec off cap :
  0 <= off < 2 * cap -> cap <= 2 ^ 31 -> bq_mod off cap = Ok (if off <? cap then off else off - cap).
Proof.
  intros H1 H2. unfold bq_mod. change (2 ^ 31) with 2147483648 in H2. rewrite u32_id by lia. cbn [bq_mod_loop].
  rewrite Z.geb_leb. destruct (Z.leb_spec cap off) as [H|H].
  - rewrite u32_id by lia. rewrite Z.geb_leb. replace (cap <=? off - cap) with false by lia.
    replace (off <? cap) with false by lia. reflexivity.
  - replace (off <? cap) with true by lia. reflexivity.
Qed.

Section Queue.
Context {A : Type}.
Implicit Types (q : bq A) (l : list A).

Definition item (l : list A) (i : Z) : option A := nth_error l (Z.to_nat i).

(** Distance of position [k] from the start. *)
Definition idx (cap start k : Z) : Z := if k <? start then k - start + cap else k - start.

Definition rep (cap : Z) q l : Prop :=
  bq_cap q = cap /\ 0 <= bq_start q < cap /\ bq_count q = size l /\ size l <= cap /\
  forall k, 0 <= k < cap -> bq_items q k = item l (idx cap (bq_start q) k).

Lemma rep_new cap : 1 <= cap <= 2 ^ 31 -> rep cap (bq_new A cap) [].
Proof.
  intros H. unfold rep, bq_new. cbn [bq_cap bq_start bq_count bq_items]. change (2 ^ 31) with 2147483648 in H.
  rewrite u32_id by lia. repeat split; try lia; [unfold size; cbn; lia|].
  intros k Hk. unfold item. destruct (Z.to_nat _); reflexivity.
Qed.

Lemma item_app l x i : 0 <= i -> item (l ++ [x]) i = if i =? size l then Some x else item l i.
Proof.
  intros H. unfold item, size. destruct (Z.eqb_spec i (Z.of_nat (length l))) as [->|Hn].
  - rewrite Nat2Z.id. rewrite nth_error_app2 by lia. rewrite Nat.sub_diag. reflexivity.
  - destruct (Z.ltb_spec i (Z.of_nat (length l))) as [H1|H1].
    + rewrite nth_error_app1 by lia. reflexivity.
    + rewrite nth_error_app2 by lia. rewrite (proj2 (nth_error_None l _)) by lia.
      apply nth_error_None. cbn. lia.
Qed.

Lemma item_cons l x i : 0 <= i -> item (x :: l) i = if i =? 0 then Some x else item l (i - 1).
Proof.
  intros H. unfold item. destruct (Z.eqb_spec i 0) as [->|Hn]; [reflexivity|].
  replace (Z.to_nat i) with (S (Z.to_nat (i - 1))) by lia. reflexivity.
Qed.

Lemma item_none l i : size l <= i -> item l i = None.
Proof. intros H. unfold item, size in *. apply nth_error_None. lia. Qed.

Lemma item_some l i : 0 <= i < size l -> exists x, item l i = Some x.
Proof.
  intros H. unfold item, size in *. destruct (nth_error l (Z.to_nat i)) eqn:E; eauto.
  apply nth_error_None in E. lia.
Qed.

Lemma size_app l x : size (l ++ [x]) = size l + 1.
Proof. unfold size. rewrite app_length. cbn. lia. Qed.
Lemma size_cons l x : size (x :: l) = size l + 1.
Proof. unfold size. cbn [length]. lia. Qed.
Lemma size_nonneg l : 0 <= size l.
Proof. unfold size. lia. Qed.

Ltac sizes := repeat match goal with |- context [size ?l] => lazymatch goal with
                | _ : 0 <= size l |- _ => fail | _ => pose proof (size_nonneg l) end end.

Variable cap : Z.
Hypothesis Hcap : 1 <= cap <= 2 ^ 31.

Lemma cap_num : 1 <= cap <= 2147483648.
Proof. change 2147483648 with (2 ^ 31). exact Hcap. Qed.

(** The state after replacing one item. *)
Lemma rep_put q l start' count' l' k0 v :
  rep cap q l -> 0 <= start' < cap -> count' = size l' -> size l' <= cap ->
  (forall k, 0 <= k < cap -> k <> k0 -> item l' (idx cap start' k) = item l (idx cap (bq_start q) k)) ->
  (0 <= k0 < cap -> item l' (idx cap start' k0) = v) ->
  rep cap (mk_bq count' (bq_cap q) start' (zset (bq_items q) k0 v)) l'.
Proof.
  intros (R1 & R2 & R3 & R4 & R5) H1 H2 H3 H4 H5. unfold rep. cbn [bq_cap bq_start bq_count bq_items].
  repeat split; auto; try lia. intros k Hk. unfold zset. destruct (Z.eqb_spec k k0) as [->|Hn].
  - symmetry. auto.
  - rewrite R5 by auto. symmetry. auto.
Qed.

Lemma construct_ok q l k x :
  rep cap q l -> 0 <= k < cap -> size l <= idx cap (bq_start q) k ->
  construct q k x = Ok (zset (bq_items q) k (Some x)).
Proof.
  intros (R1 & R2 & R3 & R4 & R5) Hk Hi. unfold construct. rewrite R1.
  replace ((0 <=? k) && (k <? cap)) with true by lia. rewrite R5 by auto. rewrite item_none by auto. reflexivity.
Qed.

Lemma destroy_ok q l k x :
  rep cap q l -> 0 <= k < cap -> item l (idx cap (bq_start q) k) = Some x ->
  destroy q k = Ok (x, zset (bq_items q) k None).
Proof.
  intros (R1 & R2 & R3 & R4 & R5) Hk Hi. unfold destroy. rewrite R1.
  replace ((0 <=? k) && (k <? cap)) with true by lia. rewrite R5 by auto. rewrite Hi. reflexivity.
Qed.

Lemma bq_push_ok q l x :
  rep cap q l -> size l < cap ->
  exists q', bq_push q x = Ok (q', true) /\ rep cap q' (l ++ [x]).
Proof.
  intros R Hl. pose proof cap_num. pose proof R as (R1 & R2 & R3 & R4 & R5). unfold bq_push.
  rewrite R1, R3. replace (size l <? cap) with true by lia. pose proof (size_nonneg l).
  rewrite bq_mod_spec by lia. cbn [bind].
  set (k0 := if bq_start q + size l <? cap then bq_start q + size l else bq_start q + size l - cap).
  assert (Hk0 : 0 <= k0 < cap /\ idx cap (bq_start q) k0 = size l).
  { unfold k0, idx. destruct (Z.ltb_spec (bq_start q + size l) cap);
      [destruct (Z.ltb_spec (bq_start q + size l) (bq_start q))
      |destruct (Z.ltb_spec (bq_start q + size l - cap) (bq_start q))]; lia. }
  destruct Hk0 as [Hk0 Hi]. rewrite (construct_ok q l k0 x R Hk0) by lia. cbn [bind].
  eexists. split; [reflexivity|]. rewrite u32_id by lia. rewrite <- R1 at 2.
  apply (rep_put q l); auto; try (rewrite size_app; lia).
  - intros k Hk Hn. rewrite item_app.
    + replace (idx cap (bq_start q) k =? size l) with false; [reflexivity|]. symmetry. apply Z.eqb_neq.
      unfold idx in *. destruct (Z.ltb_spec k (bq_start q)), (Z.ltb_spec k0 (bq_start q)); lia.
    + unfold idx. destruct (Z.ltb_spec k (bq_start q)); lia.
  - intros _. rewrite Hi, item_app by lia. rewrite Z.eqb_refl. reflexivity.
Qed.

Lemma bq_push_top_ok q l x :
  rep cap q l -> size l < cap ->
  exists q', bq_push_top q x = Ok (q', true) /\ rep cap q' (x :: l).
Proof.
  intros R Hl. pose proof cap_num. pose proof R as (R1 & R2 & R3 & R4 & R5). unfold bq_push_top.
  rewrite R1, R3. replace (size l <? cap) with true by lia. pose proof (size_nonneg l).
  rewrite (u32_id (cap - 1)) by lia.
  set (s := if negb (bq_start q =? 0) then bq_start q - 1 else cap - 1).
  assert (Hs : 0 <= s < cap /\ idx cap (bq_start q) s = cap - 1 /\
    forall k, 0 <= k < cap -> k <> s -> idx cap s k = idx cap (bq_start q) k + 1 /\ 0 <= idx cap (bq_start q) k).
  { unfold s. destruct (Z.eqb_spec (bq_start q) 0) as [E|E]; cbn [negb].
    - split; [lia|]. split; [unfold idx; destruct (Z.ltb_spec (cap - 1) (bq_start q)); lia|].
      intros k Hk Hn. unfold idx. destruct (Z.ltb_spec k (cap - 1)), (Z.ltb_spec k (bq_start q)); lia.
    - split; [lia|]. split; [unfold idx; destruct (Z.ltb_spec (bq_start q - 1) (bq_start q)); lia|].
      intros k Hk Hn. unfold idx. destruct (Z.ltb_spec k (bq_start q - 1)), (Z.ltb_spec k (bq_start q)); lia. }
  destruct Hs as (Hs & Hi & Hk). rewrite (construct_ok q l s x R Hs) by lia. cbn [bind].
  eexists. split; [reflexivity|]. rewrite u32_id by lia. rewrite <- R1 at 2.
  apply (rep_put q l); auto; try (rewrite size_cons; lia).
  - intros k Hk0 Hn. destruct (Hk k Hk0 Hn) as [E1 E2]. rewrite E1, item_cons by lia.
    replace (idx cap (bq_start q) k + 1 =? 0) with false by lia. f_equal. lia.
  - intros _. unfold idx. replace (s <? s) with false by lia. rewrite Z.sub_diag, item_cons by lia. reflexivity.
Qed.

Lemma bq_pop_ok q x l :
  rep cap q (x :: l) -> exists q', bq_pop q = Ok (q', Some x) /\ rep cap q' l.
Proof.
  intros R. pose proof cap_num. pose proof R as (R1 & R2 & R3 & R4 & R5). unfold bq_pop.
  rewrite R1, R3. rewrite size_cons in *. pose proof (size_nonneg l).
  replace (size l + 1 =? 0) with false by lia. cbn [negb].
  rewrite (destroy_ok q (x :: l) (bq_start q) x R R2)
    by (unfold idx; rewrite Z.ltb_irrefl, Z.sub_diag; reflexivity).
  cbn [bind]. rewrite bq_mod_spec by lia. cbn [bind].
  eexists. split; [reflexivity|]. rewrite <- R1 at 2.
  set (s := if bq_start q + 1 <? cap then bq_start q + 1 else bq_start q + 1 - cap).
  assert (Hs : 0 <= s < cap) by (unfold s; destruct (Z.ltb_spec (bq_start q + 1) cap); lia).
  apply (rep_put q (x :: l)); auto; try lia.
  - intros k Hk Hn.
    assert (E : idx cap s k = idx cap (bq_start q) k - 1 /\ 0 < idx cap (bq_start q) k).
    { unfold s, idx. destruct (Z.ltb_spec (bq_start q + 1) cap).
      - destruct (Z.ltb_spec k (bq_start q + 1)), (Z.ltb_spec k (bq_start q)); lia.
      - destruct (Z.ltb_spec k (bq_start q + 1 - cap)), (Z.ltb_spec k (bq_start q)); lia. }
    destruct E as [E1 E2]. rewrite E1, item_cons by lia.
    replace (idx cap (bq_start q) k =? 0) with false by lia. reflexivity.
  - intros _. apply item_none. unfold s, idx. destruct (Z.ltb_spec (bq_start q + 1) cap).
    + replace (bq_start q <? bq_start q + 1) with true by lia. lia.
    + destruct (Z.ltb_spec (bq_start q) (bq_start q + 1 - cap)); lia.
Qed.

Lemma bq_pop_bottom_ok q x l :
  rep cap q (l ++ [x]) -> exists q', bq_pop_bottom q = Ok (q', Some x) /\ rep cap q' l.
Proof.
  intros R. pose proof cap_num. pose proof R as (R1 & R2 & R3 & R4 & R5). unfold bq_pop_bottom.
  rewrite R1, R3. rewrite size_app in *. pose proof (size_nonneg l).
  replace (size l + 1 =? 0) with false by lia. cbn [negb].
  replace (size l + 1 - 1) with (size l) by lia. rewrite bq_mod_spec by lia. cbn [bind].
  set (k0 := if bq_start q + size l <? cap then bq_start q + size l else bq_start q + size l - cap).
  assert (Hk0 : 0 <= k0 < cap /\ idx cap (bq_start q) k0 = size l).
  { unfold k0, idx. destruct (Z.ltb_spec (bq_start q + size l) cap);
      [destruct (Z.ltb_spec (bq_start q + size l) (bq_start q))
      |destruct (Z.ltb_spec (bq_start q + size l - cap) (bq_start q))]; lia. }
  destruct Hk0 as [Hk0 Hi].
  rewrite (destroy_ok q (l ++ [x]) k0 x R Hk0) by (rewrite Hi, item_app by lia; rewrite Z.eqb_refl; reflexivity).
  cbn [bind]. eexists. split; [reflexivity|]. rewrite <- R1 at 2.
  apply (rep_put q (l ++ [x])); auto; try lia.
  - intros k Hk Hn. rewrite item_app.
    + replace (idx cap (bq_start q) k =? size l) with false; [reflexivity|]. symmetry. apply Z.eqb_neq.
      unfold idx in *. destruct (Z.ltb_spec k (bq_start q)), (Z.ltb_spec k0 (bq_start q)); lia.
    + unfold idx. destruct (Z.ltb_spec k (bq_start q)); lia.
  - intros _. rewrite Hi. apply item_none. lia.
Qed.

Lemma bq_elim_push_full q x y l :
  rep cap q (y :: l) -> size (y :: l) = cap ->
  exists q', bq_elim_push q x = Ok q' /\ rep cap q' (l ++ [x]).
Proof.
  intros R Hfull. pose proof cap_num. pose proof R as (R1 & R2 & R3 & R4 & R5). unfold bq_elim_push.
  rewrite R1, R3, Hfull, Z.ltb_irrefl. rewrite size_cons in *. pose proof (size_nonneg l).
  rewrite (destroy_ok q (y :: l) (bq_start q) y R R2)
    by (unfold idx; rewrite Z.ltb_irrefl, Z.sub_diag; reflexivity).
  cbn [bind]. rewrite bq_mod_spec by lia. cbn [bind].
  eexists. split; [reflexivity|].
  set (s := if bq_start q + 1 <? cap then bq_start q + 1 else bq_start q + 1 - cap).
  assert (Hs : 0 <= s < cap) by (unfold s; destruct (Z.ltb_spec (bq_start q + 1) cap); lia).
  assert (G : rep cap (mk_bq (size (l ++ [x])) (bq_cap q) s (zset (bq_items q) (bq_start q) (Some x))) (l ++ [x])).
  { apply (rep_put q (y :: l)); auto; try (rewrite size_app; lia).
    - intros k Hk Hn.
      assert (E : idx cap s k = idx cap (bq_start q) k - 1 /\ 0 < idx cap (bq_start q) k < cap).
      { unfold s, idx. destruct (Z.ltb_spec (bq_start q + 1) cap).
        - destruct (Z.ltb_spec k (bq_start q + 1)), (Z.ltb_spec k (bq_start q)); lia.
        - destruct (Z.ltb_spec k (bq_start q + 1 - cap)), (Z.ltb_spec k (bq_start q)); lia. }
      destruct E as [E1 E2]. rewrite E1, item_cons, item_app by lia.
      replace (idx cap (bq_start q) k =? 0) with false by lia.
      replace (idx cap (bq_start q) k - 1 =? size l) with false by lia. reflexivity.
    - intros _. assert (E : idx cap s (bq_start q) = size l).
      { unfold s, idx. destruct (Z.ltb_spec (bq_start q + 1) cap).
        - replace (bq_start q <? bq_start q + 1) with true by lia. lia.
        - destruct (Z.ltb_spec (bq_start q) (bq_start q + 1 - cap)); lia. }
      rewrite E, item_app by lia. rewrite Z.eqb_refl. reflexivity. }
  destruct G as (G1 & G2 & G3 & G4 & G5). unfold rep. cbn [bq_cap bq_start bq_count bq_items] in *.
  rewrite size_app in *. repeat split; auto; try lia. intros k Hk. rewrite <- G5 by auto. unfold zset.
  destruct (k =? bq_start q); reflexivity.
Qed.

Lemma bq_clear_loop_ok n : forall q l i,
  bq_cap q = cap -> 0 <= bq_start q < cap -> 0 <= i -> i + Z.of_nat n = size l -> size l <= cap ->
  (forall k, 0 <= k < cap -> bq_items q k = if idx cap (bq_start q) k <? i then None else item l (idx cap (bq_start q) k)) ->
  exists q', bq_clear_loop q n i = Ok q' /\ bq_cap q' = cap /\ forall k, 0 <= k < cap -> bq_items q' k = None.
Proof.
  pose proof cap_num.
  induction n as [|n IH]; intros q l i H1 H2 H3 H4 H5 H6; cbn [bq_clear_loop].
  - exists q. split; [reflexivity|]. split; auto. intros k Hk. rewrite H6 by auto.
    destruct (Z.ltb_spec (idx cap (bq_start q) k) i); auto. apply item_none. lia.
  - rewrite H1. rewrite bq_mod_spec by lia. cbn [bind].
    set (k0 := if bq_start q + i <? cap then bq_start q + i else bq_start q + i - cap).
    assert (Hk0 : 0 <= k0 < cap /\ idx cap (bq_start q) k0 = i).
    { unfold k0, idx. destruct (Z.ltb_spec (bq_start q + i) cap);
        [destruct (Z.ltb_spec (bq_start q + i) (bq_start q))
        |destruct (Z.ltb_spec (bq_start q + i - cap) (bq_start q))]; lia. }
    destruct Hk0 as [Hk0 Hi].
    destruct (item_some l i ltac:(lia)) as [x Hx].
    unfold destroy. rewrite H1. replace ((0 <=? k0) && (k0 <? cap)) with true by lia.
    rewrite H6 by auto. rewrite Hi, Z.ltb_irrefl, Hx. cbn [bind].
    apply (IH _ l); cbn [bq_cap bq_start bq_items]; auto; try lia.
    intros k Hk. unfold zset. destruct (Z.eqb_spec k k0) as [->|Hn].
    + rewrite Hi. replace (i <? i + 1) with true by lia. reflexivity.
    + rewrite H6 by auto.
      assert (idx cap (bq_start q) k <> i)
        by (unfold idx in *; destruct (Z.ltb_spec k (bq_start q)), (Z.ltb_spec k0 (bq_start q)); lia).
      destruct (Z.ltb_spec (idx cap (bq_start q) k) i), (Z.ltb_spec (idx cap (bq_start q) k) (i + 1)); auto; lia.
Qed.

Lemma bq_clear_ok q l : rep cap q l -> exists q', bq_clear q = Ok q' /\ rep cap q' [].
Proof.
  intros (R1 & R2 & R3 & R4 & R5). pose proof cap_num. unfold bq_clear. rewrite R3. pose proof (size_nonneg l).
  destruct (bq_clear_loop_ok (Z.to_nat (size l)) q l 0) as (q' & E & C & I); auto; try lia.
  { intros k Hk. rewrite R5 by auto. replace (idx cap (bq_start q) k <? 0) with false; [reflexivity|].
    symmetry. unfold idx. destruct (Z.ltb_spec k (bq_start q)); lia. }
  rewrite E. cbn [bind]. eexists. split; [reflexivity|]. unfold rep. cbn [bq_cap bq_start bq_count bq_items].
  split; [auto|]. split; [lia|]. split; [reflexivity|]. split; [unfold size; cbn; lia|]. intros k Hk. rewrite I by auto.
  symmetry. unfold item. destruct (Z.to_nat (idx cap 0 k)); reflexivity.
Qed.

Lemma bq_read_ok q l i :
  rep cap q l -> 0 <= i < size l ->
  bind (bq_mod (bq_start q + i) (bq_cap q)) (fun k => bq_read q k) = Ok (item l i).
Proof.
  intros (R1 & R2 & R3 & R4 & R5) Hi. pose proof cap_num. rewrite R1. rewrite bq_mod_spec by lia. cbn [bind].
  set (k0 := if bq_start q + i <? cap then bq_start q + i else bq_start q + i - cap).
  assert (Hk0 : 0 <= k0 < cap /\ idx cap (bq_start q) k0 = i).
  { unfold k0, idx. destruct (Z.ltb_spec (bq_start q + i) cap);
      [destruct (Z.ltb_spec (bq_start q + i) (bq_start q))
      |destruct (Z.ltb_spec (bq_start q + i - cap) (bq_start q))]; lia. }
  destruct Hk0 as [Hk0 Hii]. unfold bq_read. rewrite R1. replace ((0 <=? k0) && (k0 <? cap)) with true by lia.
  rewrite R5 by auto. rewrite Hii. destruct (item_some l i Hi) as [x ->]. reflexivity.
Qed.

Lemma nth_error_rev l i : (i < length l)%nat -> nth_error (rev l) i = nth_error l (length l - 1 - i).
Proof.
  clear. intros H. destruct l as [|d l']; [cbn in H; lia|]. set (l := d :: l') in *.
  rewrite (nth_error_nth' _ d) by (rewrite rev_length; auto). rewrite (nth_error_nth' _ d) by lia.
  rewrite rev_nth by auto. do 2 f_equal. lia.
Qed.

Lemma bq_do_ok q l c :
  rep cap q l -> exists q', bq_do q c = Ok (q', snd (deque_do cap l c)) /\ rep cap q' (fst (deque_do cap l c)).
Proof.
  intros R. pose proof cap_num. pose proof R as (R1 & R2 & R3 & R4 & R5).
  destruct c as [x|x|x| | | |i|i| | | ]; cbn [bq_do deque_do].
  - destruct (Z.ltb_spec (size l) cap) as [Hl|Hl]; cbn [fst snd].
    + destruct (bq_push_ok q l x R Hl) as (q' & E & R'). rewrite E. cbn [bind]. eauto.
    + unfold bq_push. rewrite R1, R3. replace (size l <? cap) with false by lia. cbn [bind]. eauto.
  - destruct (Z.ltb_spec (size l) cap) as [Hl|Hl]; cbn [fst snd].
    + destruct (bq_push_ok q l x R Hl) as (q' & E & R'). unfold bq_elim_push. rewrite R1, R3.
      replace (size l <? cap) with true by lia. rewrite E. cbn [bind]. eauto.
    + destruct l as [|y l]; [unfold size in Hl; cbn in Hl; lia|]. cbn [tl].
      destruct (bq_elim_push_full q x y l R ltac:(lia)) as (q' & E & R'). rewrite E. cbn [bind]. eauto.
  - destruct (Z.ltb_spec (size l) cap) as [Hl|Hl]; cbn [fst snd].
    + destruct (bq_push_top_ok q l x R Hl) as (q' & E & R'). rewrite E. cbn [bind]. eauto.
    + unfold bq_push_top. rewrite R1, R3. replace (size l <? cap) with false by lia. cbn [bind]. eauto.
  - destruct l as [|y l]; cbn [tl hd_error fst snd].
    + unfold bq_pop. rewrite R3. cbn. eauto.
    + destruct (bq_pop_ok q y l R) as (q' & E & R'). rewrite E. cbn [bind]. eauto.
  - destruct l as [|y l'] using rev_ind; cbn [fst snd].
    + unfold bq_pop_bottom. rewrite R3. cbn. eauto.
    + rewrite removelast_last, rev_app_distr. cbn [rev app hd_error].
      destruct (bq_pop_bottom_ok q y l' R) as (q' & E & R'). rewrite E. cbn [bind]. eauto.
  - destruct (bq_clear_ok q l R) as (q' & E & R'). rewrite E. cbn [bind fst snd]. eauto.
  - cbn [fst snd]. unfold bq_top. rewrite R3. unfold size. destruct (Z.ltb_spec (Z.of_nat i) (Z.of_nat (length l))) as [Hi|Hi].
    + rewrite (bq_read_ok q l (Z.of_nat i) R) by (unfold size; lia). cbn [bind]. unfold item. rewrite Nat2Z.id. eauto.
    + cbn [bind]. rewrite (proj2 (nth_error_None l i)) by lia. eauto.
  - cbn [fst snd]. unfold bq_bottom. rewrite R3. unfold size. destruct (Z.ltb_spec (Z.of_nat i) (Z.of_nat (length l))) as [Hi|Hi].
    + replace (bq_start q + Z.of_nat (length l) - Z.of_nat i - 1) with (bq_start q + Z.of_nat (length l - 1 - i)) by lia.
      rewrite (bq_read_ok q l _ R) by (unfold size; lia). cbn [bind]. unfold item.
      rewrite Nat2Z.id, nth_error_rev by lia. eauto.
    + cbn [bind]. rewrite (proj2 (nth_error_None (rev l) i)) by (rewrite rev_length; lia). eauto.
  - cbn [fst snd]. exists q. split; auto. unfold bq_empty. rewrite R3. destruct l; reflexivity.
  - cbn [fst snd]. exists q. split; auto. unfold bq_full. rewrite R1, R3. rewrite Z.eqb_sym. reflexivity.
  - cbn [fst snd]. exists q. split; auto. rewrite R3. reflexivity.
Qed.
End Queue.

Lemma bounded_queue_deque (A : Type) c1 c2 calls :
  1 <= c1 <= 2 ^ 31 -> 1 <= c2 <= 2 ^ 31 ->
  let '(l1, l2, answers) := deque_calls c1 c2 [] [] calls in
  exists q1 q2, bq_calls (bq_new A c1) (bq_new A c2) calls = Ok (q1, q2, answers).
Proof.
  intros H1 H2.
  assert (G : forall calls c1 c2 q1 q2 (l1 l2 : list A),
    1 <= c1 <= 2 ^ 31 -> 1 <= c2 <= 2 ^ 31 -> rep c1 q1 l1 -> rep c2 q2 l2 ->
    let '(m1, m2, answers) := deque_calls c1 c2 l1 l2 calls in
    exists p1 p2, bq_calls q1 q2 calls = Ok (p1, p2, answers)).
  { clear. induction calls as [|[[[|] c]|[]] calls IH]; intros c1 c2 q1 q2 l1 l2 H1 H2 R1 R2; cbn [bq_calls deque_calls].
    - exists q1, q2. reflexivity.
    - destruct (bq_do_ok c1 H1 q1 l1 c R1) as (q' & E & R'). destruct (deque_do c1 l1 c) as [l' a].
      cbn [fst snd] in *. rewrite E. cbn [bind]. specialize (IH c1 c2 q' q2 l' l2 H1 H2 R' R2).
      destruct (deque_calls c1 c2 l' l2 calls) as [[m1 m2] ans]. destruct IH as (p1 & p2 & E2). rewrite E2. cbn [bind]. eauto.
    - destruct (bq_do_ok c2 H2 q2 l2 c R2) as (q' & E & R'). destruct (deque_do c2 l2 c) as [l' a].
      cbn [fst snd] in *. rewrite E. cbn [bind]. specialize (IH c1 c2 q1 q' l1 l' H1 H2 R1 R').
      destruct (deque_calls c1 c2 l1 l' calls) as [[m1 m2] ans]. destruct IH as (p1 & p2 & E2). rewrite E2. cbn [bind]. eauto.
    - apply (IH c2 c1 q2 q1 l2 l1); auto. }
  exact (G calls c1 c2 (bq_new A c1) (bq_new A c2) [] [] H1 H2 (rep_new c1 H1) (rep_new c2 H2)).
Qed.

(** A queue of 2^32 - 1 items: start_ + count_ wraps and the third item overwrites the second. *)
Lemma bounded_queue_huge :
  bq_calls (bq_new nat (2 ^ 32 - 1)) (bq_new nat 1)
    [inl (true, QPushTop 1%nat); inl (true, QPush 2%nat); inl (true, QPush 3%nat)] = UB.
Proof. vm_compute. reflexivity. Qed.

Lemma bounded_queue_zero : forall q2 x, bq_calls (bq_new nat 0) q2 [inl (true, QElimPush x)] = UB.
Proof. intros. reflexivity. Qed.

(* ------------------------------------------------------------------------- *)
(** * Rounding *)

Lemma round_loop_spec n : forall f e,
  0 <= e <= 64 -> 2 ^ e <= 2 * Z.max n 1 -> 0 <= n < 2 ^ 63 -> (64 <= e + Z.of_nat f) ->
  exists r, round_loop (S f) (2 ^ e) n = Ok (2 ^ r) /\ 0 <= r <= 63 /\ n < 2 ^ r /\ (2 ^ r <= 2 ^ e \/ 2 ^ r <= 2 * n).
Proof.
  induction f as [|f IH]; intros e He H1 Hn Hf.
  - exfalso. assert (e = 64) by lia. subst e. change (2 ^ 64) with (2 * 2 ^ 63) in H1. lia.
  - cbn [round_loop]. destruct (Z.leb_spec (2 ^ e) n) as [Hl|Hl].
    + assert (He63 : e < 63). { destruct (Z.ltb_spec e 63); auto. assert (2 ^ 63 <= 2 ^ e) by (apply Z.pow_le_mono_r; lia). lia. }
      assert (E : (2 ^ e * 2) mod 2 ^ 64 = 2 ^ (e + 1)).
      { rewrite Z.mul_comm, <- Z.pow_succ_r by lia. apply Z.mod_small.
        split; [apply Z.pow_nonneg; lia|apply Z.pow_lt_mono_r; lia]. }
      rewrite E. assert (Es : 2 ^ (e + 1) = 2 * 2 ^ e) by (rewrite Z.pow_add_r by lia; lia).
      destruct (IH (e + 1)) as (r & R1 & R2 & R3 & R4); try lia.
      exists r. split; [exact R1|]. split; [lia|]. split; [lia|]. lia.
    + exists e. split; [reflexivity|].
      assert (He63 : e <= 63). { destruct (Z.leb_spec e 63); auto. assert (e = 64) by lia. subst e.
         change (2 ^ 64) with (2 * 2 ^ 63) in H1. lia. }
      split; [lia|]. split; [lia|]. left. lia.
Qed.

(** n & (n - 1) = 0 means a power of two. *)
Lemma land_pred n : 2 <= n -> (Z.land n (n - 1) = 0 <-> exists e, 0 < e /\ n = 2 ^ e).
Proof.
  intros Hn. split.
  - intros H. exists (Z.log2 n). assert (L : 0 < Z.log2 n) by (apply Z.log2_pos; lia). split; auto.
    destruct (Z.log2_spec n) as [L1 L2]; [lia|].
    destruct (Z.eq_dec n (2 ^ Z.log2 n)) as [|Hne]; auto. exfalso.
    assert (B : Z.testbit (Z.land n (n - 1)) (Z.log2 n) = true).
    { rewrite Z.land_spec, Z.bit_log2 by lia. cbn [andb].
      assert (Hl : Z.log2 (n - 1) = Z.log2 n) by (apply Z.log2_unique; lia).
      rewrite <- Hl. apply Z.bit_log2. lia. }
    rewrite H, Z.bits_0 in B. discriminate.
  - intros (e & He & ->). apply Z.bits_inj'. intros i Hi. rewrite Z.land_spec, Z.bits_0, Z.pow2_bits_eqb by lia.
    destruct (Z.eqb_spec e i) as [->|]; cbn [andb]; auto.
    replace (2 ^ i - 1) with (Z.ones i) by (rewrite Z.ones_equiv; lia).
    rewrite Z.ones_spec_high by lia. reflexivity.
Qed.

Lemma round_up_spec n :
  0 <= n <= 2 ^ 63 ->
  exists e r, round_up n = Ok r /\ 0 <= e <= 63 /\ r = 2 ^ e /\ n <= r /\ 1 <= r /\
    ((exists k, 0 < k /\ n = 2 ^ k) -> r = n) /\ (2 <= n -> r < 2 * n).
Proof.
  intros Hn. unfold round_up. destruct ((2 <=? n) && (Z.land n (n - 1) =? 0)) eqn:E.
  - apply andb_true_iff in E. destruct E as [E1 E2]. apply Z.leb_le in E1. apply Z.eqb_eq in E2.
    apply land_pred in E2; auto. destruct E2 as (e & He & En). exists e, n.
    assert (e <= 63). { apply (Z.pow_le_mono_r_iff 2); try lia. }
    repeat split; auto; lia.
  - assert (N : ~ (exists k, 0 < k /\ n = 2 ^ k)).
    { intros (k & Hk & En). assert (H2 : 2 <= n) by (rewrite En; change 2 with (2 ^ 1) at 1; apply Z.pow_le_mono_r; lia).
      assert (H3 : Z.land n (n - 1) = 0) by (apply land_pred; eauto).
      replace (2 <=? n) with true in E by lia. rewrite H3 in E. discriminate. }
    assert (Hlt : n < 2 ^ 63). { destruct (Z.eq_dec n (2 ^ 63)) as [En|]; [|lia]. exfalso. apply N. exists 63. lia. }
    destruct (round_loop_spec n 69 0) as (r & R1 & R2 & R3 & R4); try lia.
    change (2 ^ 0) with 1 in *. rewrite R1. exists r, (2 ^ r). repeat split; auto; try lia.
    + intros H. contradiction.
    + intros H2. assert (2 ^ r <= 2 * n) by lia.
      destruct (Z.eq_dec (2 ^ r) (2 * n)) as [En|]; [|lia]. exfalso. apply N.
      destruct (Z.eq_dec r 0) as [->|]; [cbn in R3; lia|]. exists (r - 1).
      assert (2 ^ r = 2 * 2 ^ (r - 1)) by (rewrite <- Z.pow_succ_r by lia; f_equal; lia).
      assert (r <> 1) by (intros ->; change (2 ^ 1) with 2 in En; lia). lia.
Qed.

(** Above 2^63 the loop never ends: after 64 doublings tmp is 0 and stays 0. *)
Lemma round_loop_hangs n : 2 ^ 63 < n < 2 ^ 64 -> forall f e, 0 <= e <= 64 ->
  round_loop f ((2 ^ e) mod 2 ^ 64) n = NoFuel.
Proof.
  intros Hn. induction f as [|f IH]; intros e He; [reflexivity|]. cbn [round_loop].
  assert (Hle : (2 ^ e) mod 2 ^ 64 <= n).
  { destruct (Z.eq_dec e 64) as [->|]; [rewrite Z.mod_same by lia; lia|].
    rewrite Z.mod_small by (split; [apply Z.pow_nonneg; lia|apply Z.pow_lt_mono_r; lia]).
    assert (2 ^ e <= 2 ^ 63) by (apply Z.pow_le_mono_r; lia). lia. }
  replace ((2 ^ e) mod 2 ^ 64 <=? n) with true by lia.
  rewrite Z.mul_mod_idemp_l by lia. destruct (Z.eq_dec e 64) as [->|].
  - change ((2 ^ 64 * 2) mod 2 ^ 64) with ((2 ^ 64) mod 2 ^ 64). apply IH. lia.
  - rewrite Z.mul_comm, <- Z.pow_succ_r by lia. apply IH. lia.
Qed.

Lemma round_up_hangs n : 2 ^ 63 < n < 2 ^ 64 -> forall fuel, round_loop fuel 1 n = NoFuel.
Proof. intros Hn f. apply (round_loop_hangs n Hn f 0). lia. Qed.
