(** Proofs about gRPC framing. *)
From Verif.Lib Require Import Base Bytes ListX Decimal.
From Verif.Buffer Require Import Model Machine Proofs ProofsStreams ProofsMain.
From Verif.Grpc Require Import Model Spec.
From Coq Require Import Strings.Byte Lists.List.
Import ListNotations.
Local Open Scope Z_scope.
Local Open Scope out_scope.
Local Open Scope list_scope.

(** ** Byte order *)
Lemma lor_shift y x k : 0 <= k -> 0 <= x < 2 ^ k -> Z.lor (Z.shiftl y k) x = y * 2 ^ k + x.
Proof.
  intros Hk Hx. assert (E : Z.land (Z.shiftl y k) x = 0).
  { apply Z.bits_inj'. intros n Hn. rewrite Z.land_spec, Z.bits_0. destruct (Z_lt_le_dec n k) as [L|L].
    - rewrite Z.shiftl_spec_low by lia. reflexivity.
    - rewrite <- (Z.mod_small x (2 ^ k)) by lia. rewrite Z.mod_pow2_bits_high by lia. apply andb_false_r. }
  rewrite <- Z.lxor_lor by auto. rewrite <- Z.add_nocarry_lxor by auto. rewrite Z.shiftl_mul_pow2 by lia. reflexivity.
Qed.

Lemma land_field v k : 0 <= k -> Z.land v (Z.shiftl 255 k) = Z.shiftl ((Z.shiftr v k) mod 256) k.
Proof.
  intros Hk. replace ((Z.shiftr v k) mod 256) with (Z.land (Z.shiftr v k) 255).
  2:{ change 255 with (Z.ones 8). rewrite Z.land_ones by lia. reflexivity. }
  apply Z.bits_inj'. intros n Hn. rewrite Z.land_spec. destruct (Z_lt_le_dec n k) as [L|L].
  - rewrite !Z.shiftl_spec_low by lia. apply andb_false_r.
  - rewrite !Z.shiftl_spec by lia. rewrite Z.land_spec, Z.shiftr_spec by lia. replace (n - k + k) with n by lia. reflexivity.
Qed.

Definition field (v k : Z) : Z := (Z.shiftr v k) mod 256.
Lemma field_range v k : 0 <= field v k < 256.
Proof. apply Z.mod_pos_bound. lia. Qed.

Lemma be_conv_sum v : be_conv v = field v 0 * 2 ^ 24 + field v 8 * 2 ^ 16 + field v 16 * 2 ^ 8 + field v 24.
Proof.
  unfold be_conv. change 255 with (Z.shiftl 255 0). change 65280 with (Z.shiftl 255 8). change 16711680 with (Z.shiftl 255 16).
  change 4278190080 with (Z.shiftl 255 24). rewrite !land_field by lia. fold (field v 0) (field v 8) (field v 16) (field v 24).
  pose proof (field_range v 0) as R0. pose proof (field_range v 8) as R1. pose proof (field_range v 16) as R2. pose proof (field_range v 24) as R3.
  rewrite Z.shiftl_0_r. rewrite (Z.shiftl_shiftl (field v 8)) by lia. change (8 + 8) with 16.
  assert (U0 : u32 (Z.shiftl (field v 0) 24) = Z.shiftl (field v 0) 24).
  { unfold u32. apply Z.mod_small. rewrite Z.shiftl_mul_pow2 by lia. lia. }
  assert (U1 : u32 (Z.shiftl (field v 8) 16) = Z.shiftl (field v 8) 16).
  { unfold u32. apply Z.mod_small. rewrite Z.shiftl_mul_pow2 by lia. lia. }
  rewrite U0, U1. rewrite !Z.shiftr_shiftl_l by lia. change (16 - 8) with 8. change (24 - 24) with 0. rewrite Z.shiftl_0_r.
  set (a := field v 0) in *. set (b := field v 8) in *. set (c := field v 16) in *. set (d := field v 24) in *. clearbody a b c d.
  rewrite <- !Z.lor_assoc. rewrite (lor_shift c d) by lia. rewrite (lor_shift b) by lia. rewrite (lor_shift a) by lia. lia.
Qed.

Lemma field_div v k : 0 <= k -> field v k = (v / 2 ^ k) mod 256.
Proof. intros H. unfold field. rewrite Z.shiftr_div_pow2 by lia. reflexivity. Qed.

Lemma conv_load a b c d : be_conv (le_load [a; b; c; d]) = be_dec [a; b; c; d].
Proof.
  rewrite be_conv_sum, !field_div by lia. unfold le_load, be_dec. cbn [fold_right fold_left].
  pose proof (b2z_range a). pose proof (b2z_range b). pose proof (b2z_range c). pose proof (b2z_range d).
  set (A := b2z a) in *. set (B := b2z b) in *. set (C := b2z c) in *. set (D := b2z d) in *. clearbody A B C D.
  change (2 ^ 0) with 1. change (2 ^ 8) with 256. change (2 ^ 16) with 65536. change (2 ^ 24) with 16777216.
  Z.div_mod_to_equations. lia.
Qed.

Lemma z2b_mod z : z2b (z mod 256) = z2b z.
Proof. unfold z2b. rewrite Z.mod_mod by lia. reflexivity. Qed.

Lemma store_conv v : 0 <= v < 2 ^ 32 -> le_store (be_conv v) = be_enc 4 v.
Proof.
  intros H. rewrite be_conv_sum. unfold le_store. rewrite !Z.shiftr_div_pow2 by lia.
  pose proof (field_range v 0) as R0. pose proof (field_range v 8) as R1. pose proof (field_range v 16) as R2. pose proof (field_range v 24) as R3.
  cbn [be_enc app].
  assert (Q : forall x y, x mod 256 = y mod 256 -> z2b x = z2b y) by (intros x y E; unfold z2b; rewrite E; reflexivity).
  rewrite !field_div in * by lia. change (2 ^ 0) with 1 in *. change (2 ^ 8) with 256 in *. change (2 ^ 16) with 65536 in *. change (2 ^ 24) with 16777216 in *.
  change (2 ^ 32) with 4294967296 in H. rewrite !Z.div_div by lia. change (256 * 256) with 65536. change (65536 * 256) with 16777216. change (256 * 65536) with 16777216.
  rewrite Z.div_1_r in *.
  set (a := v mod 256) in *. set (b := (v / 256) mod 256) in *. set (c := (v / 65536) mod 256) in *. set (d := (v / 16777216) mod 256) in *.
  assert (Ea : a = v mod 256) by reflexivity. assert (Eb : b = (v / 256) mod 256) by reflexivity.
  assert (Ec : c = (v / 65536) mod 256) by reflexivity. assert (Ed : d = (v / 16777216) mod 256) by reflexivity. clearbody a b c d.
  repeat (f_equal; [apply Q|]); try apply Q; try reflexivity.
  - rewrite <- Ed. rewrite <- (Z.mod_small d 256) by lia. clear - R0 R1 R2 R3. Z.div_mod_to_equations. lia.
  - rewrite <- Ec. clear - R0 R1 R2 R3. Z.div_mod_to_equations. lia.
  - rewrite <- Eb. clear - R0 R1 R2 R3. Z.div_mod_to_equations. lia.
  - f_equal. apply Q. rewrite <- Ea. clear - R0 R1 R2 R3. Z.div_mod_to_equations. lia.
Qed.

(** ** The prefix *)
Lemma list4 {A} (l : list A) : length l = 4%nat -> exists a b c d, l = [a; b; c; d].
Proof. destruct l as [|a [|b [|c [|d [|e l]]]]]; cbn; intros H; try discriminate. exists a, b, c, d. reflexivity. Qed.

Lemma load_prefix_ok b : nb_wf b -> (5 <= length (content b))%nat ->
  exists p, load_prefix b = Ok p /\ firstn 5 p = firstn 5 (content b).
Proof.
  intros W L. destruct W as [Hs Hf]. unfold load_prefix, nb_first_contiguous. unfold content in *.
  destruct (blocks b) as [|x r] eqn:E; [cbn in L; lia|]. cbn [bind].
  destruct (prefix_size <=? length x)%nat eqn:Q.
  - exists x. split; auto. unfold prefix_size in Q. apply Nat.leb_le in Q. cbn [concat]. rewrite firstn_app.
    replace (5 - length x)%nat with 0%nat by lia. cbn [firstn]. rewrite app_nil_r. reflexivity.
  - exists (firstn 5 (content b)). unfold content. rewrite E. split; [|rewrite firstn_firstn; reflexivity].
    rewrite flatten_to_slow_spec; unfold prefix_size; unfold content; try rewrite E; auto; try lia.
    split; unfold content; rewrite E; auto.
Qed.

Lemma load_length_ok p s : firstn 5 p = firstn 5 s -> (5 <= length s)%nat ->
  hd x00 p = hd x00 s /\ load_length p = announced s /\ 0 <= announced s < 2 ^ 32.
Proof.
  intros E L. unfold load_length, announced, flag_size, length_size.
  assert (Ep : firstn 4 (skipn 1 p) = firstn 4 (skipn 1 s)).
  { rewrite !firstn_skipn_comm. change (1 + 4)%nat with 5%nat. rewrite E. reflexivity. }
  rewrite Ep. assert (L4 : length (firstn 4 (skipn 1 s)) = 4%nat) by (rewrite firstn_length, skipn_length; lia).
  split; [|split].
  - destruct s as [|y s]; [cbn in L; lia|]. destruct p as [|z p]; cbn [firstn hd] in *; congruence.
  - destruct (list4 _ L4) as (a & b & c & d & ->). apply conv_load.
  - pose proof (be_dec_range (firstn 4 (skipn 1 s))) as R. rewrite L4 in R. exact R.
Qed.

(** ** Check and Decode on any layout *)
Lemma check_short b : nb_wf b -> (length (content b) < 5)%nat -> check b = Ok None.
Proof.
  intros [Hs Hf] H. unfold check, prefix_size. rewrite Hs. unfold content in *. destruct (Nat.ltb_spec (length (concat (blocks b))) 5); [reflexivity|lia].
Qed.
Lemma decode_short b : nb_wf b -> (length (content b) < 5)%nat -> decode b = Ok None.
Proof.
  intros [Hs Hf] H. unfold decode, prefix_size. rewrite Hs. unfold content in *. destruct (Nat.ltb_spec (length (concat (blocks b))) 5); [reflexivity|lia].
Qed.

Lemma check_long b n : nb_wf b -> (5 <= length (content b))%nat -> n = Z.to_nat ((announced (content b) + 5) mod 2 ^ 32) ->
  ((length (content b) < n)%nat -> check b = Ok None) /\
  ((n <= length (content b))%nat -> exists o b', check b = Ok (Some (o, b')) /\ content o = firstn n (content b) /\
     content b' = skipn n (content b) /\ nb_wf o /\ nb_wf b').
Proof.
  intros W L En. destruct (load_prefix_ok b W L) as (p & Lp & Ep). destruct (load_length_ok _ _ Ep L) as (_ & El & _).
  pose proof W as [Hs Hf]. unfold check, prefix_size. rewrite Hs. fold (content b).
  destruct (Nat.ltb_spec (length (content b)) 5) as [Q|_]; [lia|]. rewrite Lp. cbn [bind]. rewrite El. change (Z.of_nat 5) with 5.
  unfold u32. rewrite <- En. split; intros C.
  - destruct (Nat.ltb_spec (length (content b)) n); [reflexivity|lia].
  - destruct (Nat.ltb_spec (length (content b)) n) as [Q|_]; [lia|].
    destruct (nb_cut_spec b n W) as (o & b' & -> & C1 & C2 & W1 & W2); [rewrite Hs; exact C|]. exists o, b'. cbn [bind]. auto.
Qed.

Lemma decode_long b n : nb_wf b -> (5 <= length (content b))%nat -> n = Z.to_nat ((announced (content b) + 5) mod 2 ^ 32) ->
  ((length (content b) < n)%nat -> decode b = Ok None) /\
  ((n <= length (content b))%nat ->
     ((Z.to_nat (announced (content b)) <= length (content b) - 5)%nat ->
       exists m b', decode b = Ok (Some (m, b')) /\ compressed m = hd x00 (content b) /\ len m = announced (content b) /\
       content (body m) = firstn (Z.to_nat (announced (content b))) (skipn 5 (content b)) /\
       content b' = skipn (Z.to_nat (announced (content b))) (skipn 5 (content b)) /\ nb_wf (body m) /\ nb_wf b') /\
     ((length (content b) - 5 < Z.to_nat (announced (content b)))%nat -> decode b = UB)).
Proof.
  intros W L En. destruct (load_prefix_ok b W L) as (p & Lp & Ep). destruct (load_length_ok _ _ Ep L) as (Eh & El & _).
  pose proof W as [Hs Hf]. unfold decode, prefix_size. rewrite Hs. fold (content b).
  destruct (Nat.ltb_spec (length (content b)) 5) as [Q|_]; [lia|]. rewrite Lp. cbn [bind]. rewrite El, Eh. change (Z.of_nat 5) with 5.
  unfold u32. rewrite <- En.
  destruct (nb_skip_spec b 5 W) as (b1 & E1 & C1 & W1); [rewrite Hs; exact L|]. pose proof W1 as [Hs1 Hf1].
  assert (L1 : length (content b1) = (length (content b) - 5)%nat) by (rewrite C1; apply skipn_length).
  split; intros C.
  - destruct (Nat.ltb_spec (length (content b)) n); [reflexivity|lia].
  - destruct (Nat.ltb_spec (length (content b)) n) as [Q|_]; [lia|]. rewrite E1. cbn [bind]. split; intros K.
    + destruct (nb_cut_spec b1 (Z.to_nat (announced (content b))) W1) as (o & b' & -> & C2 & C3 & W2 & W3).
      { rewrite Hs1. unfold content in *. lia. }
      cbn [bind]. eexists _, b'. split; [reflexivity|]. cbn [compressed len body]. rewrite C2, C3, C1. auto 10.
    + destruct (past_end_undefined b1 (Z.to_nat (announced (content b))) W1) as [_ ->]; [lia|]. reflexivity.
Qed.

(** ** Frames *)
Lemma frame_length c p : length (frame c p) = (5 + length p)%nat.
Proof. unfold frame. cbn [length]. rewrite app_length, be_enc_length. lia. Qed.
Lemma frame_announced c p t : Z.of_nat (length p) < 2 ^ 32 -> announced (frame c p ++ t) = Z.of_nat (length p).
Proof.
  intros H. unfold announced, frame. cbn [app skipn]. rewrite <- app_assoc.
  replace 4%nat with (length (be_enc 4 (Z.of_nat (length p)))) at 1 by apply be_enc_length.
  rewrite firstn_app, Nat.sub_diag, firstn_all. cbn [firstn]. rewrite app_nil_r, be_dec_enc. apply Z.mod_small. lia.
Qed.
Lemma frame_skip c p t : skipn 5 (frame c p ++ t) = p ++ t.
Proof.
  unfold frame. cbn [app]. rewrite <- app_assoc. change (skipn 5 (c :: be_enc 4 (Z.of_nat (length p)) ++ p ++ t)) with (skipn 4 (be_enc 4 (Z.of_nat (length p)) ++ p ++ t)).
  replace 4%nat with (length (be_enc 4 (Z.of_nat (length p)))) at 1 by apply be_enc_length.
  rewrite skipn_app, Nat.sub_diag, skipn_all. reflexivity.
Qed.

Lemma frame_fits c p t b : nb_wf b -> content b = frame c p ++ t -> Z.of_nat (length p) < 2 ^ 32 - 5 ->
  (5 <= length (content b))%nat /\ announced (content b) = Z.of_nat (length p) /\
  Z.to_nat ((announced (content b) + 5) mod 2 ^ 32) = length (frame c p).
Proof.
  intros W E H. rewrite E. split; [rewrite app_length, frame_length; lia|]. rewrite frame_announced by lia. split; auto.
  rewrite Z.mod_small by lia. rewrite frame_length. lia.
Qed.

Lemma check_frame c p t b : nb_wf b -> content b = frame c p ++ t -> Z.of_nat (length p) < 2 ^ 32 - 5 ->
  exists o b', check b = Ok (Some (o, b')) /\ content o = frame c p /\ content b' = t /\ nb_wf o /\ nb_wf b'.
Proof.
  intros W E H. destruct (frame_fits c p t b W E H) as (L & A & N).
  destruct (check_long b _ W L eq_refl) as [_ K]. rewrite N in K.
  destruct K as (o & b' & K & C1 & C2 & W1 & W2); [rewrite E, app_length; lia|]. exists o, b'. rewrite E in C1, C2.
  rewrite firstn_app, Nat.sub_diag, firstn_all in C1. cbn [firstn] in C1. rewrite app_nil_r in C1.
  rewrite skipn_app, Nat.sub_diag, skipn_all in C2. cbn in C2. auto.
Qed.

Lemma check_incomplete b : nb_wf b -> incomplete (content b) -> announced (content b) < 2 ^ 32 - 5 -> check b = Ok None.
Proof.
  intros W I H. destruct (le_lt_dec 5 (length (content b))) as [L|L]; [|apply check_short; auto].
  destruct (check_long b _ W L eq_refl) as [K _]. apply K.
  destruct (load_prefix_ok b W L) as (p & Lp & Ep). destruct (load_length_ok _ _ Ep L) as (_ & _ & R).
  rewrite Z.mod_small by lia. destruct I as [I|I]; lia.
Qed.

Lemma check_some_inv b o b' : nb_wf b -> announced (content b) < 2 ^ 32 - 5 -> check b = Ok (Some (o, b')) ->
  exists c p, content b = frame c p ++ content b' /\ content o = frame c p /\ nb_wf o /\ nb_wf b'.
Proof.
  intros W A K. destruct (le_lt_dec 5 (length (content b))) as [L|L]; [|rewrite check_short in K by auto; discriminate].
  destruct (load_prefix_ok b W L) as (p & Lp & Ep). destruct (load_length_ok _ _ Ep L) as (_ & _ & R).
  destruct (check_long b _ W L eq_refl) as [K1 K2]. rewrite Z.mod_small in K1, K2 by lia.
  set (n := Z.to_nat (announced (content b) + 5)) in *.
  destruct (le_lt_dec n (length (content b))) as [Q|Q]; [|rewrite K1 in K by auto; discriminate].
  destruct K2 as (o1 & b1 & K2 & C1 & C2 & W1 & W2); auto. rewrite K2 in K. assert (o1 = o) by congruence. assert (b1 = b') by congruence. subst o1 b1. clear K K2.
  assert (F : firstn n (content b) = frame (hd x00 (content b)) (skipn 5 (firstn n (content b)))).
  { unfold frame. set (s := firstn n (content b)).
    assert (Ls : length s = n) by (apply firstn_length_le; auto).
    assert (Ls2 : length (skipn 5 s) = (n - 5)%nat) by (rewrite skipn_length; lia).
    assert (E4 : firstn 4 (skipn 1 s) = firstn 4 (skipn 1 (content b))).
    { unfold s. rewrite !firstn_skipn_comm. rewrite firstn_firstn. f_equal. f_equal. lia. }
    assert (E : be_enc 4 (Z.of_nat (length (skipn 5 s))) = firstn 4 (skipn 1 s)).
    { rewrite Ls2. replace (Z.of_nat (n - 5)) with (announced (content b)) by lia. unfold announced. rewrite <- E4.
      replace 4%nat with (length (firstn 4 (skipn 1 s))) at 1 by (rewrite firstn_length, skipn_length; lia). apply be_enc_dec. }
    rewrite E. replace (skipn 5 s) with (skipn 4 (skipn 1 s)) by (rewrite skipn_skipn_add; reflexivity).
    rewrite firstn_skipn. unfold s. destruct (content b) as [|x r]; [cbn in L; lia|]. replace n with (S (n - 1)) by lia. reflexivity. }
  exists (hd x00 (content b)), (skipn 5 (firstn n (content b))). rewrite <- F. rewrite C2, firstn_skipn. auto.
Qed.

Lemma loop_frames l : forall b t acc, nb_wf b -> content b = frames l ++ t ->
  Forall (fun x : byte * list byte => Z.of_nat (length (snd x)) < 2 ^ 32 - 5) l ->
  incomplete t -> announced t < 2 ^ 32 - 5 ->
  exists os b', (forall extra, check_loop (S (length l) + extra) b acc = Ok (acc ++ os, b')) /\ content b' = t /\ nb_wf b' /\
    map content os = map (fun x => frame (fst x) (snd x)) l /\ Forall nb_wf os.
Proof.
  induction l as [|[c p] l IH]; intros b t acc W E F I A.
  - cbn [frames app] in E. exists [], b. rewrite app_nil_r. split; [|auto]. intros extra. cbn [length plus check_loop].
    rewrite check_incomplete; [reflexivity|auto|rewrite E; auto|rewrite E; auto].
  - inversion F as [|? ? F1 F2]; subst. cbn [frames] in E. rewrite <- app_assoc in E. cbn [snd] in F1.
    destruct (check_frame c p (frames l ++ t) b W E F1) as (o & b1 & K & C1 & C2 & W1 & W2).
    destruct (IH b1 t (acc ++ [o]) W2 C2 F2 I A) as (os & b' & R & Cb & Wb & M & FW).
    exists (o :: os), b'. split; [|split; [auto|split; [auto|split]]].
    + intros extra. cbn [length]. change (S (S (length l)) + extra)%nat with (S (S (length l) + extra)). remember (S (length l) + extra)%nat as f. cbn [check_loop].
      rewrite K. cbn [bind]. subst f. rewrite R. rewrite <- app_assoc. reflexivity.
    + cbn [map fst snd]. congruence.
    + constructor; auto.
Qed.

(** The loop stops on every input that never announces a length near 2^32. *)
Lemma loop_stuck b : nb_wf b -> (5 <= length (content b))%nat -> announced (content b) = 2 ^ 32 - 5 ->
  forall fuel acc, check_loop fuel b acc = NoFuel.
Proof.
  intros W L A fuel. remember (length (content b)) as n eqn:En. assert (T : exists s, content b = s) by eauto. destruct T as [s Es].
  revert b W L A En Es. induction fuel as [|f IH]; intros b W L A En Es acc; [reflexivity|]. cbn [check_loop].
  destruct (check_long b _ W ltac:(lia) eq_refl) as [_ K]. rewrite A in K. replace (Z.to_nat ((2 ^ 32 - 5 + 5) mod 2 ^ 32)) with 0%nat in K by reflexivity.
  destruct K as (o & b' & -> & C1 & C2 & W1 & W2); [lia|]. cbn [bind]. cbn [skipn] in C2. apply IH; auto; congruence.
Qed.

(** ** Encode *)
Lemma encode_ok bmax c b : (5 <= bmax)%nat -> nb_wf b -> Z.of_nat (length (content b)) < 2 ^ 32 ->
  exists o, encode bmax (mk_message c (Z.of_nat (length (content b))) b) = Ok (Some o) /\ content o = frame c (content b) /\ nb_wf o /\
    byte_size o = byte_size_long (mk_message c (Z.of_nat (length (content b))) b).
Proof.
  intros B W H. unfold encode. cbn [len body compressed]. pose proof W as [Hs Hf].
  rewrite Hs. fold (content b). rewrite Z.eqb_refl. cbn [negb]. assert (Bp : (0 < bmax)%nat) by lia.
  destruct (bd_new_spec bmax Bp) as (b0 & -> & W0 & C0). cbn [bind].
  destruct (bd_reserve_spec bmax Bp b0 (c :: le_store (be_conv (Z.of_nat (length (content b))))) W0) as (b1 & -> & W1 & C1); [cbn; lia|]. cbn [bind].
  destruct (bd_append_nb_spec bmax Bp b1 b W1 W) as (b2 & -> & W2 & C2). cbn [bind].
  destruct (bd_destructive_get_spec bmax b2 W2) as [C3 W3]. eexists. split; [reflexivity|].
  assert (C : content (fst (bd_destructive_get b2)) = frame c (content b)) by (rewrite C3, C2, C1, C0; rewrite store_conv by lia; reflexivity).
  split; [exact C|split; [exact W3|]]. destruct W3 as [-> _]. rewrite C, frame_length. unfold byte_size_long, prefix_size. cbn [body]. rewrite Hs. reflexivity.
Qed.

Lemma encode_mismatch bmax c n b : nb_wf b -> n <> Z.of_nat (length (content b)) -> encode bmax (mk_message c n b) = Ok None.
Proof.
  intros [Hs Hf] H. unfold encode. cbn [len body]. rewrite Hs. fold (content b). destruct (Z.eqb_spec (Z.of_nat (length (content b))) n); [congruence|reflexivity].
Qed.

Lemma decode_frame c p t b : nb_wf b -> content b = frame c p ++ t -> Z.of_nat (length p) < 2 ^ 32 - 5 ->
  exists m b', decode b = Ok (Some (m, b')) /\ compressed m = c /\ len m = Z.of_nat (length p) /\ content (body m) = p /\
    content b' = t /\ nb_wf (body m) /\ nb_wf b'.
Proof.
  intros W E H. destruct (frame_fits c p t b W E H) as (L & A & N).
  destruct (decode_long b _ W L eq_refl) as [_ K]. rewrite N in K.
  destruct K as [K _]; [rewrite E, app_length; lia|]. rewrite A in K.
  destruct K as (m & b' & K & C1 & C2 & C3 & C4 & W1 & W2); [rewrite E, app_length, frame_length; lia|].
  exists m, b'. rewrite Nat2Z.id in C3, C4. rewrite E in C1, C3, C4. rewrite frame_skip in C3, C4.
  rewrite firstn_app, Nat.sub_diag, firstn_all in C3. cbn [firstn] in C3. rewrite app_nil_r in C3.
  rewrite skipn_app, Nat.sub_diag, skipn_all in C4. cbn in C4. auto 10.
Qed.

Lemma decode_incomplete b : nb_wf b -> incomplete (content b) -> announced (content b) < 2 ^ 32 - 5 -> decode b = Ok None.
Proof.
  intros W I H. destruct (le_lt_dec 5 (length (content b))) as [L|L]; [|apply decode_short; auto].
  destruct (decode_long b _ W L eq_refl) as [K _]. apply K.
  destruct (load_prefix_ok b W L) as (p & Lp & Ep). destruct (load_length_ok _ _ Ep L) as (_ & _ & R).
  rewrite Z.mod_small by lia. destruct I as [I|I]; lia.
Qed.

Lemma decode_wrap b : nb_wf b -> (5 <= length (content b))%nat -> Z.of_nat (length (content b)) < 2 ^ 32 ->
  2 ^ 32 - 5 <= announced (content b) -> decode b = UB.
Proof.
  intros W L H A. destruct (load_prefix_ok b W L) as (p & Lp & Ep). destruct (load_length_ok _ _ Ep L) as (_ & _ & R).
  destruct (decode_long b _ W L eq_refl) as [_ K]. apply K.
  - replace (announced (content b) + 5) with (announced (content b) - (2 ^ 32 - 5) + 1 * 2 ^ 32) by lia. rewrite Z_mod_plus_full.
    rewrite Z.mod_small by lia. lia.
  - lia.
Qed.
