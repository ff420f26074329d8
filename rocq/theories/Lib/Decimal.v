(** Decimal notation of integers as std::to_string and printf("%u") produce it (library code,
    shared vocabulary). *)
From Verif.Lib Require Import Base Bytes.
Local Open Scope Z_scope.

Definition digit (d : Z) : byte := z2b (48 + d).

Fixpoint dec_loop (fuel : nat) (n : Z) (acc : list byte) : list byte :=
  match fuel with
  | O => acc
  | S f => let acc' := digit (n mod 10) :: acc in
           if n <? 10 then acc' else dec_loop f (n / 10) acc'
  end.

(** Non-negative integers. *)
Definition dec_nat (n : Z) : list byte := dec_loop (S (Z.to_nat (Z.log2 n))) n [].

(** std::to_string(int), (long long) ... *)
Definition dec_int (z : Z) : list byte := if z <? 0 then Byte.x2d :: dec_nat (- z) else dec_nat z.

(** Value of a digit string. *)
Definition is_digit (b : byte) : bool := (48 <=? b2z b) && (b2z b <=? 57).
Definition dval (l : list byte) : Z := fold_left (fun a b => a * 10 + (b2z b - 48)) l 0.

Lemma digit_val d : 0 <= d < 10 -> b2z (digit d) = 48 + d.
Proof. intros H. unfold digit. rewrite b2z_z2b. apply Z.mod_small. lia. Qed.

Lemma digit_is d : 0 <= d < 10 -> is_digit (digit d) = true.
Proof. intros H. unfold is_digit. rewrite digit_val by auto. lia. Qed.

Lemma dval_snoc l b : dval (l ++ [b]) = dval l * 10 + (b2z b - 48).
Proof. unfold dval. rewrite fold_left_app. reflexivity. Qed.

Lemma dval_fold l a : fold_left (fun a b => a * 10 + (b2z b - 48)) l a = a * 10 ^ Z.of_nat (length l) + dval l.
Proof.
  revert a; induction l as [|x l IH]; intros a.
  - cbn. lia.
  - cbn [fold_left]. rewrite IH. unfold dval. cbn [fold_left]. rewrite (IH (0 * 10 + (b2z x - 48))).
    replace (Z.of_nat (length (x :: l))) with (1 + Z.of_nat (length l)) by (cbn [length]; lia).
    rewrite Z.pow_add_r by lia. unfold dval. lia.
Qed.

Lemma dval_app a b : dval (a ++ b) = dval a * 10 ^ Z.of_nat (length b) + dval b.
Proof. unfold dval at 1. rewrite fold_left_app. apply dval_fold. Qed.

Lemma dval_cons x l : dval (x :: l) = (b2z x - 48) * 10 ^ Z.of_nat (length l) + dval l.
Proof. change (x :: l) with ([x] ++ l). rewrite dval_app. unfold dval at 1. cbn [fold_left]. lia. Qed.

Lemma dec_loop_spec fuel n acc :
  0 <= n -> n < 2 ^ Z.of_nat fuel ->
  exists l, dec_loop fuel n acc = l ++ acc /\ Forall (fun b => is_digit b = true) l /\ dval l = n /\
    (fuel <> O -> l <> []) /\ (forall b r, l = b :: r -> 0 < n -> b <> Byte.x30).
Proof.
  revert n acc; induction fuel as [|f IH]; intros n acc H0 H1.
  - change (2 ^ Z.of_nat 0) with 1 in H1. exists []. split; [reflexivity|]. split; [constructor|]. split; [cbn; lia|]. split; [congruence|]. intros b r E. discriminate.
  - cbn [dec_loop]. destruct (Z.ltb_spec n 10) as [Hlt|Hge].
    + exists [digit (n mod 10)]. rewrite Z.mod_small by lia. split; [reflexivity|].
      split; [constructor; [apply digit_is; lia|constructor]|].
      split; [unfold dval; cbn [fold_left]; rewrite digit_val by lia; lia|].
      split; [discriminate|]. intros b r E Hn. inversion E; subst. intros E2.
      apply (f_equal b2z) in E2. rewrite digit_val in E2 by lia. change (b2z Byte.x30) with 48 in E2. lia.
    + assert (Hm : 0 <= n mod 10 < 10) by (apply Z.mod_pos_bound; lia).
      assert (Hd : n = 10 * (n / 10) + n mod 10) by (apply Z.div_mod; lia).
      destruct (IH (n / 10) (digit (n mod 10) :: acc)) as (l & E1 & E2 & E3 & E4 & E5).
      { apply Z.div_pos; lia. }
      { apply Z.div_lt_upper_bound; [lia|]. rewrite Nat2Z.inj_succ, Z.pow_succ_r in H1 by lia. lia. }
      exists (l ++ [digit (n mod 10)]). split; [rewrite E1, <- app_assoc; reflexivity|].
      split; [apply Forall_app; split; auto; constructor; [apply digit_is; lia|constructor]|].
      split; [rewrite dval_snoc, E3, digit_val by lia; lia|].
      split; [intros _ E; destruct l; discriminate|].
      intros b r E Hn. destruct l as [|x l].
      * exfalso. unfold dval in E3. cbn in E3. lia.
      * inversion E; subst. eapply E5; eauto. lia.
Qed.

Lemma dec_nat_spec n :
  0 <= n ->
  Forall (fun b => is_digit b = true) (dec_nat n) /\ dval (dec_nat n) = n /\ dec_nat n <> [] /\
  (forall b r, dec_nat n = b :: r -> 0 < n -> b <> Byte.x30).
Proof.
  intros H. unfold dec_nat.
  destruct (dec_loop_spec (S (Z.to_nat (Z.log2 n))) n [] H) as (l & E1 & E2 & E3 & E4 & E5).
  { rewrite Nat2Z.inj_succ, Z2Nat.id by apply Z.log2_nonneg.
    destruct (Z.eq_dec n 0) as [->|Hn]; [reflexivity|]. apply Z.log2_spec. lia. }
  rewrite E1, app_nil_r. auto.
Qed.

Lemma dec_nat_inj a b : 0 <= a -> 0 <= b -> dec_nat a = dec_nat b -> a = b.
Proof.
  intros Ha Hb E. rewrite <- (proj1 (proj2 (dec_nat_spec a Ha))), E. apply dec_nat_spec. exact Hb.
Qed.
