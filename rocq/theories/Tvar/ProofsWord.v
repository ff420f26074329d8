(** The words of IntRecorder. *)
From Coq Require Import List ZArith Bool Lia.
From Verif.Tvar Require Import Model Spec.
Import ListNotations.
Open Scope Z_scope.

Lemma lor_disjoint a b n : 0 <= n -> 0 <= b < 2 ^ n -> Z.lor (a * 2 ^ n) b = a * 2 ^ n + b.
Proof.
  intros Hn Hb.
  assert (E : Z.land (a * 2 ^ n) b = 0).
  { apply Z.bits_inj'. intros i Hi. rewrite Z.land_spec, Z.bits_0.
    destruct (Z.ltb_spec i n) as [L|L].
    - rewrite Z.mul_pow2_bits_low by lia. reflexivity.
    - rewrite <- (Z.mod_small b (2 ^ n)) by lia. rewrite Z.mod_pow2_bits_high by lia. apply andb_false_r. }
  rewrite <- Z.lxor_lor by exact E. symmetry. apply Z.add_nocarry_lxor. exact E.
Qed.

Lemma max_sum_ones : max_sum = Z.ones 44.
Proof. reflexivity. Qed.

Lemma land_max a : Z.land a max_sum = a mod 2 ^ 44.
Proof. rewrite max_sum_ones. apply Z.land_ones. lia. Qed.

Lemma get_sum_word c x : get_sum (word c x) = x mod 2 ^ 44.
Proof.
  unfold get_sum, word. rewrite land_max. rewrite Z.add_comm, Z.mod_add by lia. apply Z.mod_mod. lia.
Qed.
Lemma get_num_word c x : get_num (word c x) = c.
Proof.
  unfold get_num, word. change sum_bits with 44. rewrite Z.shiftr_div_pow2 by lia.
  pose proof (Z.mod_pos_bound x (2 ^ 44) ltac:(lia)).
  rewrite Z.div_add_l by lia. rewrite Z.div_small by lia. lia.
Qed.

Lemma word_mod y : (y mod 2 ^ 64) mod 2 ^ 44 = y mod 2 ^ 44.
Proof.
  change (2 ^ 64) with (2 ^ 44 * 2 ^ 20). rewrite Z.rem_mul_r by lia.
  rewrite Z.mul_comm, Z.mod_add by lia. apply Z.mod_mod. lia.
Qed.

Lemma extend_small y : 0 <= y < 2 ^ 43 -> extend_sign y = y.
Proof.
  intros H. unfold extend_sign. change sum_bits with 44. change (44 - 1) with 43.
  replace (Z.land (2 ^ 43) y) with 0.
  - rewrite Z.mul_0_r. unfold to_word. rewrite Z.mod_0_l by (unfold two64; lia). rewrite Z.lor_0_l.
    unfold to_signed. destruct (Z.ltb_spec y (2 ^ 63)); lia.
  - symmetry. apply Z.bits_inj'. intros i Hi. rewrite Z.land_spec, Z.bits_0, Z.pow2_bits_eqb by lia.
    destruct (Z.eqb_spec 43 i) as [<-|]; [|reflexivity].
    rewrite <- (Z.mod_small y (2 ^ 43)) by lia. rewrite Z.mod_pow2_bits_high by lia. reflexivity.
Qed.

Lemma extend_big y : 2 ^ 43 <= y < 2 ^ 44 -> extend_sign y = y - 2 ^ 44.
Proof.
  intros H. unfold extend_sign. change sum_bits with 44. change (44 - 1) with 43.
  replace (Z.land (2 ^ 43) y) with (2 ^ 43).
  - change (to_word ((2 ^ (64 - 44 + 1) - 1) * 2 ^ 43)) with (2097151 * 2 ^ 43).
    replace y with (1 * 2 ^ 43 + (y - 2 ^ 43)) by lia.
    rewrite <- (lor_disjoint 1 (y - 2 ^ 43) 43) by lia.
    rewrite Z.lor_assoc. change (Z.lor (2097151 * 2 ^ 43) (1 * 2 ^ 43)) with (2097151 * 2 ^ 43).
    rewrite !lor_disjoint by lia. unfold to_signed, two64.
    destruct (Z.ltb_spec (2097151 * 2 ^ 43 + (y - 2 ^ 43)) (2 ^ 63)); lia.
  - symmetry. apply Z.bits_inj'. intros i Hi. rewrite Z.land_spec, Z.pow2_bits_eqb by lia.
    destruct (Z.eqb_spec 43 i) as [<-|]; [|reflexivity]. rewrite andb_true_l.
    replace y with (1 * 2 ^ 43 + (y - 2 ^ 43)) by lia. rewrite Z.add_comm.
    rewrite Z.testbit_odd, Z.shiftr_div_pow2, Z.div_add by lia. rewrite Z.div_small by lia. reflexivity.
Qed.

Lemma extend_word x : - 2 ^ 43 <= x < 2 ^ 43 -> extend_sign (x mod 2 ^ 44) = x.
Proof.
  intros H. destruct (Z.ltb_spec x 0) as [L|L].
  - replace (x mod 2 ^ 44) with (x + 2 ^ 44).
    + rewrite extend_big by lia. lia.
    + symmetry. rewrite <- (Z.mod_add x 1) by lia. rewrite Z.mul_1_l. apply Z.mod_small. lia.
  - rewrite Z.mod_small by lia. apply extend_small. lia.
Qed.

Lemma compress_word c x v : 0 <= c -> c + 1 < 2 ^ 20 ->
  compress (c + 1) (x mod 2 ^ 44 + complement v) = word (c + 1) (x + v).
Proof.
  intros H0 H. unfold compress, complement, to_word. change sum_bits with 44. rewrite Z.shiftl_mul_pow2 by lia.
  rewrite (Z.mod_small ((c + 1) * 2 ^ 44)) by (unfold two64; lia).
  rewrite !land_max. unfold two64. rewrite !word_mod.
  rewrite <- Z.add_mod by lia.
  rewrite lor_disjoint; [reflexivity|lia|]. apply Z.mod_pos_bound. lia.
Qed.

Lemma overflow_ok x v : - 2 ^ 43 <= x < 2 ^ 43 -> - 2 ^ 31 <= v < 2 ^ 31 ->
  will_overflow x v = false -> - 2 ^ 43 <= x + v < 2 ^ 43.
Proof.
  intros Hx Hv. unfold will_overflow. change (Z.shiftr max_sum 1) with (2 ^ 43 - 1).
  destruct (Z.ltb_spec 0 x), (Z.ltb_spec 0 v), (Z.ltb_spec (2 ^ 43 - 1) (x + v)), (Z.ltb_spec x 0), (Z.ltb_spec v 0),
    (Z.ltb_spec (x + v) (- (2 ^ 43 - 1) - 1)); cbn; intros E; try discriminate; lia.
Qed.

Lemma clamp_int v : clamp v = as_int v.
Proof.
  unfold clamp, as_int. destruct (Z.ltb_spec (2 ^ 31 - 1) v), (Z.ltb_spec v (- 2 ^ 31)); lia.
Qed.
Lemma as_int_range v : - 2 ^ 31 <= as_int v < 2 ^ 31.
Proof. unfold as_int. lia. Qed.

Lemma sum_app l m : sum (l ++ m) = sum l + sum m.
Proof. unfold sum. induction l as [|x l IH]; cbn [app fold_right]; [lia|]. rewrite IH. lia. Qed.

(** A word that holds the values g. *)
Definition rep_rec (b : Z) (g : list Z) : Prop :=
  b = word (Z.of_nat (length g)) (sum (map as_int g)) /\ Z.of_nat (length g) < 2 ^ 20 /\ - 2 ^ 43 <= sum (map as_int g) < 2 ^ 43.

Lemma rep_rec_nil : rep_rec 0 [].
Proof. unfold rep_rec. cbn. split; [reflexivity|lia]. Qed.

Lemma merge_rec l b g : rep_rec b g -> merge recorder (average_of l) b = average_of (l ++ g).
Proof.
  intros (-> & Hn & Hs). cbn [merge recorder]. rewrite get_sum_word, get_num_word, extend_word by exact Hs.
  unfold average_of. cbn [fst snd]. rewrite map_app, sum_app, app_length, Nat2Z.inj_add. reflexivity.
Qed.

Lemma plan_rec n g v n' : rep_rec n g -> plan recorder n v = Some n' -> rep_rec n' (g ++ [v]).
Proof.
  intros (-> & Hn & Hs). cbn [plan recorder]. rewrite get_sum_word, get_num_word, extend_word, clamp_int by exact Hs.
  change max_num with (2 ^ 20 - 1).
  destruct (Z.ltb_spec (2 ^ 20 - 1) (Z.of_nat (length g) + 1)) as [L|L]; cbn [orb]; [discriminate|].
  destruct (will_overflow _ _) eqn:E; [discriminate|]. intros [= <-].
  apply overflow_ok in E; [|exact Hs|apply as_int_range].
  rewrite compress_word by lia. unfold rep_rec. rewrite map_app, sum_app, app_length, Nat2Z.inj_add.
  change (sum (map as_int [v])) with (as_int v + 0). rewrite Z.add_0_r. cbn [length]. change (Z.of_nat 1) with 1.
  split; [reflexivity|]. split; [lia|exact E].
Qed.

Lemma plan_rec_0 v : plan recorder 0 v <> None.
Proof.
  cbn [plan recorder]. change (get_num 0) with 0. change (get_sum 0) with 0. change (extend_sign 0) with 0.
  unfold will_overflow. rewrite Z.ltb_irrefl. change (max_num <? 0 + 1) with false. cbn [andb orb]. discriminate.
Qed.
