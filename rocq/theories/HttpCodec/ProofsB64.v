(** Lemmas about base64. *)
From Verif.Lib Require Import Base Bytes ListX Decimal.
From Coq Require Import Strings.Byte.
From Verif.HttpCodec Require Import Model Spec Proofs.
Local Open Scope Z_scope.

Lemma all_below (P : Z -> Prop) (n : nat) (f : Z -> bool) :
  (forall z, f z = true -> P z) -> forallb f (map Z.of_nat (seq 0 n)) = true ->
  forall z, 0 <= z < Z.of_nat n -> P z.
Proof.
  intros Hf Hall z Hz. apply Hf. rewrite forallb_forall in Hall. apply Hall.
  apply in_map_iff. exists (Z.to_nat z). split; [lia|]. apply in_seq. lia.
Qed.

Lemma b64c_ok n : 0 <= n < 64 -> b64c n = Ok (b64_digit n).
Proof.
  apply (all_below (fun n => b64c n = Ok (b64_digit n)) 64
    (fun n => match b64c n with Ok b => Byte.eqb b (b64_digit n) | _ => false end)).
  - intros z H. destruct (b64c z) as [b| | |]; try discriminate. destruct (byte_eqb_spec b (b64_digit z)); [subst; auto|discriminate].
  - vm_compute. reflexivity.
Qed.

Lemma b64_value_digit n : 0 <= n < 64 -> b64_value (b64_digit n) = Some n.
Proof.
  apply (all_below (fun n => b64_value (b64_digit n) = Some n) 64
    (fun n => match b64_value (b64_digit n) with Some m => m =? n | _ => false end)).
  - intros z H. destruct (b64_value _); [|discriminate]. apply Z.eqb_eq in H. subst. reflexivity.
  - vm_compute. reflexivity.
Qed.

Lemma b64_index_check b : match b64_index b with
  | Ok i => (if b64_value b then true else false) = negb (i =? -1) /\ (i <> -1 -> b64_value b = Some i /\ 0 <= i < 64) /\ b2z b < 128
  | UB => 128 <= b2z b
  | _ => False
  end.
Proof. destruct b; vm_compute; repeat split; intros; try congruence; try discriminate. Qed.

Lemma index_ok b : b2z b < 128 -> exists i, b64_index b = Ok i /\
  match b64_value b with Some v => i = v /\ 0 <= v < 64 | None => i = -1 end.
Proof.
  intros H. pose proof (b64_index_check b) as C. destruct (b64_index b) as [i| | |]; try lia; try contradiction.
  destruct C as (C1 & C2 & _). exists i. split; auto. destruct (b64_value b) as [v|].
  - destruct (Z.eqb_spec i (-1)); [discriminate|]. destruct (C2 n) as [E ?]. inversion E; subst. auto.
  - destruct (Z.eqb_spec i (-1)); [auto|discriminate].
Qed.

Lemma pad_value : b64_value x3d = None.
Proof. reflexivity. Qed.

Lemma b64_digit_ascii n : 0 <= n < 64 -> b2z (b64_digit n) < 128.
Proof.
  apply (all_below (fun n => b2z (b64_digit n) < 128) 64 (fun n => b2z (b64_digit n) <? 128)).
  - intros z H. apply Z.ltb_lt. auto.
  - vm_compute. reflexivity.
Qed.

(** ** Groups of 24 bits *)
Lemma six_land n k s : 0 <= n -> 0 <= k -> s = 6 * k -> Z.land (Z.shiftr n s) 63 = n / 64 ^ k mod 64.
Proof.
  intros Hn Hk ->. rewrite Z.shiftr_div_pow2 by lia. change 63 with (Z.ones 6). rewrite Z.land_ones by lia.
  f_equal. f_equal. rewrite Z.pow_mul_r by lia. reflexivity.
Qed.

Lemma land63 n : Z.land n 63 = n / 64 ^ 0 mod 64.
Proof. change 63 with (Z.ones 6). rewrite Z.land_ones by lia. change (64 ^ 0) with 1. rewrite Z.div_1_r. reflexivity. Qed.

Lemma top_six n : 0 <= n < 2 ^ 24 -> Z.shiftr n 18 = n / 64 ^ 3 mod 64.
Proof.
  intros H. rewrite Z.shiftr_div_pow2 by lia. change (2 ^ 18) with 262144. change (64 ^ 3) with 262144.
  rewrite Z.mod_small; [reflexivity|]. split; [apply Z.div_pos; lia|]. apply Z.div_lt_upper_bound; lia.
Qed.

Lemma b64c_six n k : b64c (n / 64 ^ k mod 64) = Ok (six n k).
Proof. apply b64c_ok. apply Z.mod_pos_bound. lia. Qed.

Lemma n24 a b c :
  u32 (u32 (u32 (Z.shiftl (b2z a) 16) + Z.shiftl (b2z b) 8) + b2z c) = b2z a * 65536 + b2z b * 256 + b2z c.
Proof.
  unfold u32. rewrite !Z.shiftl_mul_pow2 by lia. pose proof (b2z_range a). pose proof (b2z_range b). pose proof (b2z_range c).
  rewrite (Z.mod_small (b2z a * 2 ^ 16)) by lia. rewrite (Z.mod_small (_ + b2z b * 2 ^ 8)) by lia. rewrite Z.mod_small by lia. lia.
Qed.

Lemma n16 a b : u32 (u32 (Z.shiftl (b2z a) 16) + Z.shiftl (b2z b) 8) = b2z a * 65536 + b2z b * 256.
Proof.
  unfold u32. rewrite !Z.shiftl_mul_pow2 by lia. pose proof (b2z_range a). pose proof (b2z_range b).
  rewrite (Z.mod_small (b2z a * 2 ^ 16)) by lia. rewrite Z.mod_small by lia. lia.
Qed.

Lemma n8 a : u32 (Z.shiftl (b2z a) 16) = b2z a * 65536.
Proof. unfold u32. rewrite Z.shiftl_mul_pow2 by lia. pose proof (b2z_range a). rewrite Z.mod_small by lia. lia. Qed.

(** ** Encoding *)
Fixpoint triples (s : list byte) : list byte :=
  match s with
  | a :: b :: c :: r =>
      let n := b2z a * 65536 + b2z b * 256 + b2z c in six n 3 :: six n 2 :: six n 1 :: six n 0 :: triples r
  | _ => []
  end.

Lemma wr_app {A} size (p l : list A) x : (length p + length l < size)%nat -> wr size (p ++ l) x = Ok (p ++ l ++ [x]).
Proof. intros H. rewrite wr_ok by (rewrite app_length; lia). rewrite app_assoc. reflexivity. Qed.

Lemma b64e_loop_spec fuel : forall pre trip rest p size,
  (length trip < fuel)%nat -> (exists k, length trip = 3 * k /\ length p + 4 * k <= size)%nat ->
  b64e_loop fuel (pre ++ trip ++ rest) (length pre) (length pre + length trip) size p =
    Ok ((length pre + length trip)%nat, p ++ triples trip).
Proof.
  induction fuel as [|f IH]; intros pre trip rest p size Hf (k & Hk & Hs); [lia|]. cbn [b64e_loop].
  destruct trip as [|a trip].
  - cbn [length app triples]. rewrite Nat.add_0_r, Nat.eqb_refl, app_nil_r. reflexivity.
  - destruct k as [|k]; [cbn [length] in Hk; lia|].
    destruct trip as [|b [|c trip]]; cbn [length] in *; try lia.
    destruct (Nat.eqb_spec (length pre) (length pre + S (S (S (length trip))))) as [E0|_]; [lia|].
    cbn [app].
    assert (Ra : rd (pre ++ a :: b :: c :: trip ++ rest) (length pre) = Ok a) by (apply rd_app; reflexivity).
    assert (Rb : rd (pre ++ a :: b :: c :: trip ++ rest) (length pre + 1) = Ok b).
    { rewrite app_snoc. apply rd_app. rewrite app_length. reflexivity. }
    assert (Rc : rd (pre ++ a :: b :: c :: trip ++ rest) (length pre + 2) = Ok c).
    { rewrite app_snoc, app_snoc. apply rd_app. rewrite !app_length. cbn [length]. lia. }
    rewrite Ra. cbn [bind]. rewrite Rb. cbn [bind]. rewrite Rc. cbn [bind]. clear Ra Rb Rc.
    rewrite n24. set (n := b2z a * 65536 + b2z b * 256 + b2z c).
    assert (Hn : 0 <= n < 2 ^ 24).
    { pose proof (b2z_range a). pose proof (b2z_range b). pose proof (b2z_range c). unfold n. lia. }
    rewrite (top_six n Hn), (six_land n 2 12), (six_land n 1 6), land63 by lia. rewrite !b64c_six. cbn [bind].
    rewrite wr_ok by lia. cbn [bind]. rewrite wr_app by (cbn [length]; lia). cbn [bind].
    cbn [app]. rewrite wr_app by (cbn [length]; lia). cbn [bind app]. rewrite wr_app by (cbn [length]; lia). cbn [bind app].
    replace (pre ++ a :: b :: c :: trip ++ rest) with ((pre ++ [a; b; c]) ++ trip ++ rest) by (rewrite <- app_assoc; reflexivity).
    replace (length pre + 3)%nat with (length (pre ++ [a; b; c])) by (rewrite app_length; reflexivity).
    replace (length pre + S (S (S (length trip))))%nat with (length (pre ++ [a; b; c]) + length trip)%nat
      by (rewrite app_length; cbn [length]; lia).
    rewrite IH.
    + cbn [triples]. rewrite <- app_assoc. reflexivity.
    + lia.
    + exists k. rewrite app_length. cbn [length]. lia.
Qed.

Lemma split3 : forall k (s : list byte), (length s <= k)%nat -> exists trip rest,
  s = trip ++ rest /\ (exists q, length trip = 3 * q)%nat /\ (length rest < 3)%nat /\ b64 s = triples trip ++ b64 rest.
Proof.
  induction k as [|k IH]; intros s Hk.
  - destruct s; cbn [length] in Hk; [|lia]. exists [], []. repeat split; auto. exists O. reflexivity.
  - destruct s as [|a [|b [|c r]]].
    + exists [], []. repeat split; auto. exists O. reflexivity.
    + exists [], [a]. repeat split; auto. exists O. reflexivity.
    + exists [], [a; b]. repeat split; auto. exists O. reflexivity.
    + destruct (IH r) as (trip & rest & E & (q & Hq) & Hr & Hb); [cbn [length] in Hk; lia|].
      exists (a :: b :: c :: trip), rest. rewrite E at 1. split; [reflexivity|]. split; [exists (S q); cbn [length]; lia|].
      split; auto. cbn [b64 triples app]. rewrite Hb. reflexivity.
Qed.

Lemma triples_length : forall q (s : list byte), (length s = 3 * q)%nat -> length (triples s) = (4 * q)%nat.
Proof.
  induction q as [|q IH]; intros s H.
  - destruct s; [reflexivity|cbn [length] in H; lia].
  - destruct s as [|a [|b [|c r]]]; cbn [length] in H; try lia. cbn [triples length]. rewrite IH by lia. lia.
Qed.

Lemma base64_encode_l s : base64_encode s = Ok (b64 s).
Proof.
  destruct (split3 (length s) s (Nat.le_refl _)) as (trip & rest & E & (q & Hq) & Hr & Hb).
  unfold base64_encode. destruct (Nat.eqb_spec (length s) 0) as [H0|H0].
  { destruct s; [reflexivity|discriminate]. }
  assert (Hm : (length s mod 3 = length rest)%nat).
  { rewrite E, app_length, Hq. rewrite Nat.add_comm, Nat.mul_comm, Nat.mod_add by lia. apply Nat.mod_small. lia. }
  assert (Hs : ((length s + 2) / 3 * 4 = 4 * q + (match rest with [] => 0 | _ => 4 end))%nat).
  { rewrite E, app_length, Hq. replace (3 * q + length rest + 2)%nat with ((length rest + 2) + q * 3)%nat by lia.
    rewrite Nat.div_add by lia. clear Hm E Hb. destruct rest as [|x [|y [|z rest]]]; cbn [length] in *.
    - change ((0 + 2) / 3)%nat with 0%nat. lia.
    - change ((1 + 2) / 3)%nat with 1%nat. lia.
    - change ((2 + 2) / 3)%nat with 1%nat. lia.
    - lia. }
  rewrite Hm, Hs.
  pose proof (b64e_loop_spec (S (length s)) [] trip rest [] (4 * q + match rest with [] => 0 | _ => 4 end)%nat) as L.
  cbn [app length Nat.add] in L. rewrite <- E in L.
  replace (length s - length rest)%nat with (length trip) by (rewrite E, app_length; lia).
  rewrite L; [|rewrite E, app_length; lia|exists q; split; [auto|lia]]. clear L. cbn [bind].
  pose proof (triples_length q trip Hq) as Ht. rewrite Hb.
  destruct rest as [|a [|b [|c rest]]]; cbn [length] in *; try lia; cbn [Nat.eqb].
  - cbn [b64]. rewrite app_nil_r. reflexivity.
  - rewrite E. rewrite rd_app by reflexivity. cbn [bind]. rewrite n8. set (n := b2z a * 65536).
    assert (Hn : 0 <= n < 2 ^ 24) by (pose proof (b2z_range a); unfold n; lia).
    rewrite (top_six n Hn), (six_land n 2 12) by lia. rewrite !b64c_six. cbn [bind].
    rewrite wr_ok by lia. cbn [bind]. rewrite wr_app by (cbn [length]; lia). cbn [bind app].
    rewrite wr_app by (cbn [length]; lia). cbn [bind app]. rewrite wr_app by (cbn [length]; lia). reflexivity.
  - rewrite E. assert (Rb : rd (trip ++ [a; b]) (length trip + 1) = Ok b).
    { rewrite app_snoc. apply rd_app. rewrite app_length. reflexivity. }
    rewrite rd_app by reflexivity. cbn [bind]. rewrite Rb. cbn [bind]. rewrite n16. set (n := b2z a * 65536 + b2z b * 256).
    assert (Hn : 0 <= n < 2 ^ 24) by (pose proof (b2z_range a); pose proof (b2z_range b); unfold n; lia).
    rewrite (top_six n Hn), (six_land n 2 12), (six_land n 1 6) by lia. rewrite !b64c_six. cbn [bind].
    rewrite wr_ok by lia. cbn [bind]. rewrite wr_app by (cbn [length]; lia). cbn [bind app].
    rewrite wr_app by (cbn [length]; lia). cbn [bind app]. rewrite wr_app by (cbn [length]; lia). reflexivity.
Qed.

(** ** Decoding *)
Lemma six_range n k : 0 <= n / 64 ^ k mod 64 < 64.
Proof. apply Z.mod_pos_bound. lia. Qed.

Lemma six_value n k : b64_value (six n k) = Some (n / 64 ^ k mod 64).
Proof. apply b64_value_digit, six_range. Qed.

Lemma unb64_b64 : forall k s, (length s <= k)%nat -> unb64 (b64 s) = Some s.
Proof.
  assert (Hs : forall n, 0 <= n < 2 ^ 24 ->
    n / 64 ^ 3 mod 64 * 262144 + n / 64 ^ 2 mod 64 * 4096 + n / 64 ^ 1 mod 64 * 64 + n / 64 ^ 0 mod 64 = n).
  { intros n Hn. change (64 ^ 3) with 262144. change (64 ^ 2) with 4096. change (64 ^ 1) with 64. change (64 ^ 0) with 1.
    rewrite Z.div_1_r. replace (n / 262144) with (n / 64 / 64 / 64) by (rewrite !Z.div_div by lia; reflexivity).
    replace (n / 4096) with (n / 64 / 64) by (rewrite !Z.div_div by lia; reflexivity).
    pose proof (Z.div_mod n 64). pose proof (Z.div_mod (n / 64) 64). pose proof (Z.div_mod (n / 64 / 64) 64).
    assert (0 <= n / 64 / 64 / 64 < 64). { rewrite !Z.div_div by lia. split; [apply Z.div_pos; lia|apply Z.div_lt_upper_bound; lia]. }
    rewrite (Z.mod_small (n / 64 / 64 / 64)) by lia. lia. }
  assert (Hb : forall a b c, z2b ((b2z a * 65536 + b2z b * 256 + b2z c) / 65536) = a /\
     z2b ((b2z a * 65536 + b2z b * 256 + b2z c) / 256) = b /\ z2b (b2z a * 65536 + b2z b * 256 + b2z c) = c).
  { intros a b c. pose proof (b2z_range a). pose proof (b2z_range b). pose proof (b2z_range c).
    repeat split; apply b2z_inj; rewrite b2z_z2b.
    - replace ((b2z a * 65536 + b2z b * 256 + b2z c) / 65536) with (b2z a); [apply Z.mod_small; lia|].
      apply (Z.div_unique _ _ _ (b2z b * 256 + b2z c)); lia.
    - replace ((b2z a * 65536 + b2z b * 256 + b2z c) / 256) with (b2z a * 256 + b2z b).
      + rewrite Z.add_comm, Z_mod_plus_full. apply Z.mod_small; lia.
      + apply (Z.div_unique _ _ _ (b2z c)); lia.
    - replace (b2z a * 65536 + b2z b * 256 + b2z c) with (b2z c + (b2z a * 256 + b2z b) * 256) by lia.
      rewrite Z_mod_plus_full. apply Z.mod_small; lia. }
  induction k as [|k IH]; intros s Hk; destruct s as [|a [|b [|c r]]]; try (cbn [length] in Hk; lia); try reflexivity.
  - cbn [b64 unb64]. rewrite !six_value. change (b64_value x3d) with (@None Z). cbv iota. cbn [Byte.eqb].
    change (Byte.eqb x3d x3d && Byte.eqb x3d x3d) with true. cbv iota.
    pose proof (b2z_range a). specialize (Hs (b2z a * 65536) ltac:(lia)).
    assert (E1 : b2z a * 65536 / 64 ^ 1 mod 64 = 0).
    { change (64 ^ 1) with 64. replace (b2z a * 65536) with (b2z a * 16 * 64 * 64) by lia. rewrite Z.div_mul by lia. apply Z.mod_mul. lia. }
    assert (E0 : b2z a * 65536 / 64 ^ 0 mod 64 = 0).
    { change (64 ^ 0) with 1. rewrite Z.div_1_r. replace (b2z a * 65536) with (b2z a * 1024 * 64) by lia. apply Z.mod_mul. lia. }
    rewrite E1, E0 in Hs.
    destruct (Hb a x00 x00) as [K1 _]. change (b2z x00) with 0 in K1.
    match goal with |- Some [z2b (?x / 65536)] = _ => replace x with (b2z a * 65536 + 0 * 256 + 0) by lia end.
    rewrite K1. reflexivity.
  - cbn [b64 unb64]. rewrite !six_value. change (b64_value x3d) with (@None Z). cbv iota.
    change (Byte.eqb x3d x3d) with true. cbv iota.
    pose proof (b2z_range a). pose proof (b2z_range b). specialize (Hs (b2z a * 65536 + b2z b * 256) ltac:(lia)).
    assert (E0 : (b2z a * 65536 + b2z b * 256) / 64 ^ 0 mod 64 = 0).
    { change (64 ^ 0) with 1. rewrite Z.div_1_r. replace (b2z a * 65536 + b2z b * 256) with ((b2z a * 1024 + b2z b * 4) * 64) by lia.
      apply Z.mod_mul. lia. }
    rewrite E0 in Hs. destruct (Hb a b x00) as (K1 & K2 & _). change (b2z x00) with 0 in K1, K2.
    match goal with |- Some [z2b (?x / 65536); _] = _ => replace x with (b2z a * 65536 + b2z b * 256 + 0) by lia end.
    rewrite K1, K2. reflexivity.
  - cbn [b64 unb64]. rewrite !six_value. cbn [length] in Hk. rewrite IH by lia.
    pose proof (b2z_range a). pose proof (b2z_range b). pose proof (b2z_range c).
    rewrite Hs by lia. destruct (Hb a b c) as (K1 & K2 & K3). rewrite K1, K2, K3. reflexivity.
Qed.

Lemma u32_small z : 0 <= z < 2 ^ 32 -> u32 z = z.
Proof. intros. apply Z.mod_small; auto. Qed.

Lemma z2b_land z : z2b (Z.land z 255) = z2b z.
Proof.
  apply b2z_inj. rewrite !b2z_z2b. change 255 with (Z.ones 8). rewrite Z.land_ones by lia. change (2 ^ 8) with 256.
  apply Z.mod_mod. lia.
Qed.

(** One group of four characters. *)
Lemma quad_spec pre a b c d r size p :
  ascii [a; b; c; d] -> (length p + 3 <= size)%nat ->
  b64d_quad 4 (pre ++ a :: b :: c :: d :: r) (length pre) 1 0 size p =
  Ok match b64_value a, b64_value b with
     | Some x, Some y =>
         match b64_value c, b64_value d, r with
         | Some z, Some w, _ => inl (x * 262144 + y * 4096 + z * 64 + w)
         | Some z, None, [] =>
             let n := x * 262144 + y * 4096 + z * 64 in
             if Byte.eqb d x3d then inr (p ++ [z2b (n / 65536); z2b (n / 256)]) else inr []
         | None, _, [] =>
             let n := x * 262144 + y * 4096 in
             if Byte.eqb c x3d && Byte.eqb d x3d then inr (p ++ [z2b (n / 65536)]) else inr []
         | _, _, _ => inr []
         end
     | _, _ => inr []
     end.
Proof.
  intros Ha Hp. unfold ascii in Ha.
  inversion Ha as [|? ? A1 Ha1]; subst. inversion Ha1 as [|? ? A2 Ha2]; subst. inversion Ha2 as [|? ? A3 Ha3]; subst.
  inversion Ha3 as [|? ? A4 _]; subst. clear Ha Ha1 Ha2 Ha3.
  destruct (index_ok a A1) as (ia & Ia & Va). destruct (index_ok b A2) as (ib & Ib & Vb).
  destruct (index_ok c A3) as (ic & Ic & Vc). destruct (index_ok d A4) as (id & Id & Vd).
  set (s := pre ++ a :: b :: c :: d :: r).
  assert (Ra : rd s (length pre) = Ok a) by (apply rd_app; reflexivity).
  assert (Rb : rd s (length pre + 1) = Ok b).
  { unfold s. rewrite app_snoc. apply rd_app. rewrite app_length. reflexivity. }
  assert (Rc : rd s (length pre + 1 + 1) = Ok c).
  { unfold s. rewrite app_snoc, app_snoc. apply rd_app. rewrite !app_length. cbn [length]. lia. }
  assert (Rd : rd s (length pre + 1 + 1 + 1) = Ok d).
  { unfold s. rewrite app_snoc, app_snoc, app_snoc. apply rd_app. rewrite !app_length. cbn [length]. lia. }
  assert (Hl : length s = (length pre + 4 + length r)%nat) by (unfold s; rewrite app_length; cbn [length]; lia).
  cbn [b64d_quad]. rewrite Ra. cbn [bind]. rewrite Ia. cbn [bind].
  destruct (b64_value a) as [x|].
  2:{ subst ia. reflexivity. }
  destruct Va as [-> Hx]. destruct (Z.eqb_spec x (-1)); [lia|].
  rewrite Rb. cbn [bind]. rewrite Ib. cbn [bind].
  destruct (b64_value b) as [y|].
  2:{ subst ib. reflexivity. }
  destruct Vb as [-> Hy]. destruct (Z.eqb_spec y (-1)); [lia|].
  rewrite Rc. cbn [bind]. rewrite Ic. cbn [bind].
  rewrite !Z.shiftl_mul_pow2 by lia.
  change (24 - 1 * 6) with 18. change (24 - (1 + 1) * 6) with 12. change (24 - (1 + 1 + 1) * 6) with 6. change (24 - (1 + 1 + 1 + 1) * 6) with 0.
  rewrite (u32_small (0 + x * 2 ^ 18)) by lia. rewrite (u32_small (0 + x * 2 ^ 18 + y * 2 ^ 12)) by lia.
  destruct (b64_value c) as [z|].
  2:{ subst ic. change (-1 =? -1) with true. cbv iota. change (1 + 1 + 1 <=? 2) with false. change (1 + 1 + 1 =? 3) with true. cbv iota.
      destruct (Byte.eqb c x3d) eqn:Ec.
      - rewrite Rd. cbn [bind]. destruct (Byte.eqb d x3d) eqn:Ed; cbn [andb].
        + rewrite Hl. destruct r as [|e r].
          * cbn [length]. replace (length pre + 1 + 1 + 2 =? length pre + 4 + 0)%nat with true by (symmetry; apply Nat.eqb_eq; lia).
            rewrite wr_ok by lia. cbn [bind]. rewrite Z.shiftr_div_pow2 by lia. change (2 ^ 16) with 65536.
            do 4 f_equal; lia.
          * cbn [length]. replace (length pre + 1 + 1 + 2 =? length pre + 4 + S (length r))%nat with false by (symmetry; apply Nat.eqb_neq; lia).
            reflexivity.
        + destruct r; reflexivity.
      - cbn [andb]. destruct r; reflexivity. }
  destruct Vc as [-> Hz]. destruct (Z.eqb_spec z (-1)); [lia|].
  rewrite Rd. cbn [bind]. rewrite Id. cbn [bind].
  rewrite (u32_small (0 + x * 2 ^ 18 + y * 2 ^ 12 + z * 2 ^ 6)) by lia.
  destruct (b64_value d) as [w|].
  2:{ subst id. change (-1 =? -1) with true. cbv iota. change (1 + 1 + 1 + 1 <=? 2) with false. change (1 + 1 + 1 + 1 =? 3) with false. cbv iota.
      rewrite Hl. destruct r as [|e r].
      - cbn [length]. replace (length pre + 1 + 1 + 1 + 1 =? length pre + 4 + 0)%nat with true by (symmetry; apply Nat.eqb_eq; lia).
        rewrite andb_true_r. destruct (Byte.eqb d x3d); [|reflexivity].
        rewrite wr_ok by lia. cbn [bind]. rewrite wr_app by (cbn [length]; lia). cbn [bind app].
        rewrite z2b_land. rewrite !Z.shiftr_div_pow2 by lia. change (2 ^ 16) with 65536. change (2 ^ 8) with 256.
        replace (0 + x * 2 ^ 18 + y * 2 ^ 12 + z * 2 ^ 6) with (x * 262144 + y * 4096 + z * 64) by lia. reflexivity.
      - cbn [length]. replace (length pre + 1 + 1 + 1 + 1 =? length pre + 4 + S (length r))%nat with false by (symmetry; apply Nat.eqb_neq; lia).
        rewrite andb_false_r. reflexivity. }
  destruct Vd as [-> Hw]. destruct (Z.eqb_spec w (-1)); [lia|].
  rewrite Z.shiftl_0_r. rewrite u32_small by lia. do 2 f_equal; lia.
Qed.

Lemma b64d_loop_spec fuel : forall pre rest p size,
  (length rest < fuel)%nat -> ascii rest -> (exists q, length rest = 4 * q /\ length p + 3 * q <= size)%nat ->
  b64d_loop fuel (pre ++ rest) (length pre) size p = Ok match unb64 rest with Some t => p ++ t | None => [] end.
Proof.
  induction fuel as [|f IH]; intros pre rest p size Hf Ha (q & Hq & Hs); [lia|]. cbn [b64d_loop].
  destruct rest as [|a [|b [|c [|d r]]]]; try (cbn [length] in Hq; lia).
  - rewrite app_nil_r, Nat.eqb_refl. cbn [unb64]. rewrite app_nil_r. reflexivity.
  - destruct q as [|q]; [cbn [length] in Hq; lia|]. cbn [length] in Hq, Hf.
    destruct (Nat.eqb_spec (length pre) (length (pre ++ a :: b :: c :: d :: r))) as [E|_]; [rewrite app_length in E; cbn [length] in E; lia|].
    assert (Ha4 : ascii [a; b; c; d] /\ ascii r).
    { unfold ascii in *. inversion Ha as [|? ? A1 Ha1]; subst. inversion Ha1 as [|? ? A2 Ha2]; subst.
      inversion Ha2 as [|? ? A3 Ha3]; subst. inversion Ha3 as [|? ? A4 Ha4]; subst. split; [repeat constructor|]; auto. }
    destruct Ha4 as [Ha4 Har].
    rewrite quad_spec by (auto; lia). cbn [bind unb64].
    destruct (b64_value a) as [x|] eqn:Ex; [|reflexivity]. destruct (b64_value b) as [y|] eqn:Ey; [|reflexivity].
    destruct (b64_value c) as [z|] eqn:Ez.
    2:{ destruct r; [|reflexivity]. destruct (Byte.eqb c x3d && Byte.eqb d x3d); reflexivity. }
    destruct (b64_value d) as [w|] eqn:Ew.
    2:{ destruct r; [|reflexivity]. destruct (Byte.eqb d x3d); reflexivity. }
    set (n := x * 262144 + y * 4096 + z * 64 + w).
    rewrite wr_ok by lia. cbn [bind]. rewrite wr_app by (cbn [length]; lia). cbn [bind app].
    rewrite wr_app by (cbn [length]; lia). cbn [bind app].
    rewrite !z2b_land. rewrite !Z.shiftr_div_pow2 by lia. change (2 ^ 16) with 65536. change (2 ^ 8) with 256.
    replace (pre ++ a :: b :: c :: d :: r) with ((pre ++ [a; b; c; d]) ++ r) by (rewrite <- app_assoc; reflexivity).
    replace (length pre + 4)%nat with (length (pre ++ [a; b; c; d])) by (rewrite app_length; reflexivity).
    rewrite IH; [|lia|auto|exists q; rewrite app_length; cbn [length]; lia].
    destruct (unb64 r); [rewrite <- app_assoc|]; reflexivity.
Qed.

Lemma unb64_len : forall k s, (length s <= k)%nat -> (length s mod 4 <> 0)%nat -> unb64 s = None.
Proof.
  induction k as [|k IH]; intros s Hk Hm; destruct s as [|a [|b [|c [|d r]]]]; try (cbn [length] in Hk; lia); try reflexivity.
  - exfalso. apply Hm. reflexivity.
  - exfalso. apply Hm. reflexivity.
  - cbn [unb64]. cbn [length] in Hk, Hm.
    assert (Hr : (length r mod 4 <> 0)%nat).
    { replace (S (S (S (S (length r))))) with (length r + 1 * 4)%nat in Hm by lia. rewrite Nat.mod_add in Hm by lia. exact Hm. }
    rewrite IH by (auto; lia). destruct (b64_value a), (b64_value b), (b64_value c), (b64_value d); try reflexivity;
      destruct r; try reflexivity; exfalso; apply Hr; reflexivity.
Qed.

Lemma base64_decode_l s : ascii s -> base64_decode s = Ok match unb64 s with Some t => t | None => [] end.
Proof.
  intros Ha. unfold base64_decode. destruct (Nat.eqb_spec (length s mod 4) 0) as [E|E]; cbn [negb].
  - pose proof (b64d_loop_spec (S (length s)) [] s [] (length s / 4 * 3)%nat) as L. cbn [app length] in L.
    rewrite L; auto. exists (length s / 4)%nat. pose proof (Nat.div_mod (length s) 4). split; lia.
  - rewrite (unb64_len (length s)) by auto. reflexivity.
Qed.

Lemma b64_ascii : forall k s, (length s <= k)%nat -> ascii (b64 s).
Proof.
  assert (H6 : forall n k, b2z (six n k) < 128) by (intros; apply b64_digit_ascii, six_range).
  assert (Hp : b2z x3d < 128) by reflexivity.
  unfold ascii. induction k as [|k IH]; intros s Hk; destruct s as [|a [|b [|c r]]]; try (cbn [length] in Hk; lia); cbn [b64];
    repeat (constructor; [solve [apply H6 | apply Hp]|]); try constructor.
  apply IH. cbn [length] in Hk. lia.
Qed.

Lemma base64_round_trip_l s : exists e, base64_encode s = Ok e /\ e = b64 s /\ base64_decode e = Ok s.
Proof.
  exists (b64 s). split; [apply base64_encode_l|]. split; auto. rewrite base64_decode_l by (apply (b64_ascii (length s)); auto).
  rewrite (unb64_b64 (length s)) by auto. reflexivity.
Qed.

Lemma b64_length : forall k s, (length s <= k)%nat -> length (b64 s) = (4 * ((length s + 2) / 3))%nat.
Proof.
  induction k as [|k IH]; intros s Hk; destruct s as [|a [|b [|c r]]]; try (cbn [length] in Hk; lia); try reflexivity.
  cbn [b64 length]. cbn [length] in Hk. rewrite IH by lia.
  replace (S (S (S (length r))) + 2)%nat with (length r + 2 + 1 * 3)%nat by lia. rewrite Nat.div_add by lia. lia.
Qed.
