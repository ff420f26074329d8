(** Reading what the protocol writes. *)
From Verif.Lib Require Import Base Bytes ListX Decimal.
From Coq Require Import Strings.Byte.
From Coq Require Strings.String.
From Verif.Redis Require Import Model Spec ProofsFlat ProofsReader.
Import String.StringSyntax.
Local Open Scope string_scope.
Local Open Scope list_scope.
Local Open Scope Z_scope.
Local Open Scope out_scope.

(** ** Numbers and lines *)
Lemma dec_nat_length n k : 0 <= n < 10 ^ Z.of_nat k -> (1 <= k)%nat -> (1 <= length (dec_nat n) <= k)%nat.
Proof.
  intros Hn Hk. destruct (dec_nat_spec n (proj1 Hn)) as (Hd & Hv & Hne & Hz).
  destruct (dec_nat n) as [|b r] eqn:E; [congruence|]. split; [cbn [length]; lia|].
  destruct (Z.eq_dec n 0) as [->|Hpos].
  - assert (E0 : dec_nat 0 = [x30]) by reflexivity. rewrite E0 in E. injection E as <- <-. cbn [length]. lia.
  - specialize (Hz b r eq_refl ltac:(lia)). rewrite dval_cons in Hv. inversion Hd as [|? ? Hb Hr]; subst b.
    pose proof (dval_bound r Hr) as Br.
    assert (Hb1 : 1 <= b2z x - 48).
    { unfold is_digit in Hb. apply andb_true_iff in Hb. destruct Hb as [H1 H2]. apply Z.leb_le in H1, H2.
      assert (b2z x <> 48); [|lia]. intros Hx. apply Hz. apply b2z_inj. rewrite Hx. reflexivity. }
    cbn [length]. destruct (Nat.le_gt_cases (S (length r)) k) as [|Hlt]; [assumption|].
    assert (10 ^ Z.of_nat k <= 10 ^ Z.of_nat (length r)) by (apply Z.pow_le_mono_r; lia). nia.
Qed.

Definition no_cr (s : text) : Prop := Forall (fun c => c <> x0d) s.
Lemma digits_no_cr s : Forall (fun c => is_digit c = true) s -> no_cr s.
Proof. intros H. eapply Forall_impl; [|exact H]. intros c Hc ->. discriminate Hc. Qed.
Lemma dec_int_no_cr z : no_cr (dec_int z).
Proof.
  unfold dec_int. destruct (Z.ltb_spec z 0).
  - constructor; [discriminate|]. apply digits_no_cr, dec_nat_spec. lia.
  - apply digits_no_cr, dec_nat_spec. lia.
Qed.
Lemma seek_no_cr s : no_cr s -> seek_newline s = None.
Proof.
  induction 1 as [|x s Hx Hs IH]; [reflexivity|]. destruct s as [|y r]; [reflexivity|]. rewrite seek_cons, IH.
  destruct (byte_eqb_spec x x0d); [congruence|]. reflexivity.
Qed.
Lemma seek_contains s n : seek_newline s = Some n -> contains_crlf s.
Proof.
  revert n; induction s as [|x [|y r] IH]; intros n H; try discriminate. rewrite seek_cons in H.
  destruct (Byte.eqb x x0d && Byte.eqb y x0a) eqn:E.
  - apply andb_true_iff in E. destruct E as [E1 E2]. apply byte_eqb_true in E1, E2. subst. exists [], r. reflexivity.
  - destruct (seek_newline (y :: r)) as [m|] eqn:E2; [|discriminate]. destruct (IH m eq_refl) as (a & b & Hab).
    exists (x :: a), b. cbn [app]. rewrite Hab. reflexivity.
Qed.
Lemma seek_line s t : seek_newline s = None -> seek_newline (s ++ crlf ++ t) = Some (length s).
Proof.
  intros H. rewrite (seek_app_none _ _ H). change (crlf ++ t) with (x0d :: x0a :: t). rewrite seek_cons.
  change (Byte.eqb x0d x0d && Byte.eqb x0a x0a) with true. cbn [option_map]. rewrite Nat.add_0_r.
  destruct s as [|x r]; [reflexivity|]. change (Byte.eqb x0d x0a) with false. rewrite andb_false_r. reflexivity.
Qed.
Lemma skipn_line s t : skipn (length s + 2) (s ++ crlf ++ t) = t.
Proof. rewrite app_assoc. apply skipn_exact_app. rewrite app_length. reflexivity. Qed.

Lemma dec_nat_head n t : 0 <= n -> exists c r, dec_nat n ++ t = c :: r /\ is_digit c = true.
Proof.
  intros Hn. destruct (dec_nat_spec n Hn) as (Hd & _ & Hne & _). destruct (dec_nat n) as [|c r]; [congruence|].
  inversion Hd; subst. exists c, (r ++ t). auto.
Qed.
Lemma convert_nat n t : 0 <= n <= i64_max -> convert_loop (dec_nat n ++ t) (length (dec_nat n)) 0 = Ok (Some n).
Proof.
  intros Hn. destruct (dec_nat_spec n (proj1 Hn)) as (Hd & Hv & Hne & _).
  rewrite convert_loop_digits; rewrite ?firstn_exact_app by reflexivity.
  - rewrite Hv. reflexivity.
  - lia.
  - exact Hd.
  - rewrite app_length. lia.
  - rewrite Hv. lia.
Qed.
Lemma convert_int z t : - i64_max <= z <= i64_max -> convert (dec_int z ++ t) (length (dec_int z)) = Ok z.
Proof.
  intros Hz. unfold dec_int. destruct (Z.ltb_spec z 0) as [H|H].
  - cbn [app length]. unfold convert. change (Byte.eqb x2d x2d) with true. cbn match.
    replace (S (length (dec_nat (- z))) - 1)%nat with (length (dec_nat (- z))) by lia.
    rewrite convert_nat by lia. cbn [bind]. f_equal. lia.
  - destruct (dec_nat_head z t H) as (c & r & E & Hc). unfold convert. rewrite E.
    assert (Hc1 : Byte.eqb c x2d = false) by (destruct (byte_eqb_spec c x2d); [subst c; discriminate Hc|reflexivity]).
    assert (Hc2 : Byte.eqb c x2b = false) by (destruct (byte_eqb_spec c x2b); [subst c; discriminate Hc|reflexivity]).
    rewrite Hc1, Hc2. rewrite <- E. rewrite convert_nat by lia. cbn [bind]. f_equal. lia.
Qed.
Lemma fl_integer_dec z t :
  - i64_max <= z <= i64_max -> fl_integer (dec_int z ++ crlf ++ t) = Ok (Got (z, t, Z.of_nat (length (dec_int z)) + 2)).
Proof.
  intros Hz. unfold fl_integer. rewrite seek_line by (apply seek_no_cr, dec_int_no_cr).
  assert (L : (length (dec_int z) < 24)%nat).
  { unfold dec_int. assert (I : i64_max < 10 ^ Z.of_nat 19) by reflexivity.
    destruct (Z.ltb_spec z 0).
    - pose proof (dec_nat_length (- z) 19 ltac:(lia) ltac:(lia)). cbn [length]. lia.
    - pose proof (dec_nat_length z 19 ltac:(lia) ltac:(lia)). lia. }
  destruct (Nat.leb_spec 24 (length (dec_int z))); [lia|].
  rewrite convert_int by exact Hz. cbn [bind]. rewrite skipn_line. reflexivity.
Qed.
Lemma dec_int_nat n : 0 <= n -> dec_int n = dec_nat n.
Proof. intros H. unfold dec_int. destruct (Z.ltb_spec n 0); [lia|reflexivity]. Qed.
Lemma fl_integer_nat n t :
  0 <= n <= i64_max -> fl_integer (dec_nat n ++ crlf ++ t) = Ok (Got (n, t, Z.of_nat (length (dec_nat n)) + 2)).
Proof. intros H. rewrite <- dec_int_nat by lia. apply fl_integer_dec. lia. Qed.

(** ** Items *)
Lemma app_crlf_ne (s t : text) : s ++ crlf ++ t <> [].
Proof. destruct s; discriminate. Qed.

Lemma item_line_status ridx s t :
  ~ contains_crlf s -> fl_item ridx (enc (WStatus s) ++ t) = Ok (Got (IDone (BStatus s), t, Z.of_nat (length (enc (WStatus s))))).
Proof.
  intros H. cbn [enc]. change (str "+" ++ s ++ crlf) with (x2b :: (s ++ crlf)). cbn [app]. rewrite <- app_assoc.
  rewrite fl_item_cons by apply app_crlf_ne. change (Byte.eqb x2b x2d) with false. change (Byte.eqb x2b x2b) with true. cbn match.
  unfold fl_line. rewrite seek_line.
  2:{ destruct (seek_newline s) eqn:E; [|reflexivity]. exfalso. eapply H, seek_contains; eauto. }
  rewrite firstn_exact_app by reflexivity. rewrite skipn_line. cbn [length]. rewrite app_length. cbn [crlf length].
  do 3 f_equal. lia.
Qed.
Lemma item_line_error ridx s t :
  ~ contains_crlf s -> fl_item ridx (enc (WError s) ++ t) = Ok (Got (IDone (BError s), t, Z.of_nat (length (enc (WError s))))).
Proof.
  intros H. cbn [enc]. change (str "-" ++ s ++ crlf) with (x2d :: (s ++ crlf)). cbn [app]. rewrite <- app_assoc.
  rewrite fl_item_cons by apply app_crlf_ne. change (Byte.eqb x2d x2d) with true. cbn match.
  unfold fl_line. rewrite seek_line.
  2:{ destruct (seek_newline s) eqn:E; [|reflexivity]. exfalso. eapply H, seek_contains; eauto. }
  rewrite firstn_exact_app by reflexivity. rewrite skipn_line. cbn [length]. rewrite app_length. cbn [crlf length].
  do 3 f_equal. lia.
Qed.
Lemma item_int ridx z t :
  - i64_max <= z <= i64_max -> fl_item ridx (enc (WInt z) ++ t) = Ok (Got (IDone (BInt z), t, Z.of_nat (length (enc (WInt z))))).
Proof.
  intros H. cbn [enc]. change (str ":" ++ dec_int z ++ crlf) with (x3a :: (dec_int z ++ crlf)). cbn [app]. rewrite <- app_assoc.
  rewrite fl_item_cons by apply app_crlf_ne.
  change (Byte.eqb x3a x2d) with false. change (Byte.eqb x3a x2b) with false. change (Byte.eqb x3a x3a) with true. cbn match.
  unfold fl_int. rewrite fl_integer_dec by exact H. cbn [bind length]. rewrite app_length. cbn [crlf length].
  do 3 f_equal. lia.
Qed.
Lemma bulk_head t0 t ridx : t0 <> [] ->
  fl_item ridx (x24 :: t0 ++ t) = fl_bulk (t0 ++ t).
Proof. intros H. rewrite fl_item_cons by (destruct t0; [congruence|discriminate]). reflexivity. Qed.
Lemma item_bulk ridx s t :
  Z.of_nat (length s) <= i64_max ->
  fl_item ridx (enc (WBulk s) ++ t) = Ok (Got (IDone (BBulk s), t, Z.of_nat (length (enc (WBulk s))))).
Proof.
  intros H. cbn [enc]. set (n := Z.of_nat (length s)) in *.
  replace ((str "$" ++ dec_nat n ++ crlf ++ s ++ crlf) ++ t) with (x24 :: dec_nat n ++ crlf ++ (s ++ crlf ++ t))
    by (change (str "$") with [x24]; cbn [app]; rewrite <- !app_assoc; reflexivity).
  rewrite fl_item_cons by apply app_crlf_ne.
  change (Byte.eqb x24 x2d) with false. change (Byte.eqb x24 x2b) with false. change (Byte.eqb x24 x3a) with false.
  change (Byte.eqb x24 x24) with true. cbn match.
  unfold fl_bulk. rewrite fl_integer_nat by (subst n; lia). cbn [bind].
  destruct (Z.ltb_spec n 0); [subst n; lia|].
  destruct (Z.ltb_spec (Z.of_nat (length (s ++ crlf ++ t))) (n + 2)) as [Hl|_].
  { exfalso. rewrite !app_length in Hl. subst n. cbn [crlf length] in Hl. lia. }
  replace (Z.to_nat n) with (length s) by (subst n; lia). replace (Z.to_nat (n + 2)) with (length s + 2)%nat by (subst n; lia).
  rewrite firstn_exact_app by reflexivity. rewrite skipn_line.
  do 3 f_equal. change (str "$") with [x24]. rewrite !app_length. cbn [crlf length]. subst n. lia.
Qed.
Lemma item_nil ridx t : fl_item ridx (enc WNil ++ t) = Ok (Got (IDone BNil, t, Z.of_nat (length (enc WNil)))).
Proof.
  change (enc WNil ++ t) with (x24 :: dec_int (-1) ++ crlf ++ t). rewrite fl_item_cons by apply app_crlf_ne.
  change (Byte.eqb x24 x2d) with false. change (Byte.eqb x24 x2b) with false. change (Byte.eqb x24 x3a) with false.
  change (Byte.eqb x24 x24) with true. cbn match.
  unfold fl_bulk. rewrite fl_integer_dec by (unfold i64_max; lia). reflexivity.
Qed.
Lemma array_head ridx n t :
  ridx <> 8 -> - i64_max <= n <= i64_max ->
  fl_item ridx (x2a :: dec_int n ++ crlf ++ t) =
    Ok (Got (if i32 n =? -1 then IDone BNil else if 0 <? i32 n then IOpen (i32 n) else IDone (BArray []), t,
             Z.of_nat (length (dec_int n)) + 3)).
Proof.
  intros Hr Hn. rewrite fl_item_cons by apply app_crlf_ne.
  change (Byte.eqb x2a x2d) with false. change (Byte.eqb x2a x2b) with false. change (Byte.eqb x2a x3a) with false.
  change (Byte.eqb x2a x24) with false. change (Byte.eqb x2a x2a) with true. cbn match.
  unfold fl_array. destruct (Z.eqb_spec ridx 8); [congruence|]. rewrite fl_integer_dec by exact Hn. cbn [bind].
  do 3 f_equal. lia.
Qed.
Lemma i32_small n : 0 <= n < 2 ^ 31 -> i32 n = n.
Proof. intros H. unfold i32. rewrite Z.mod_small by lia. lia. Qed.

(** ** Whole replies *)
Definition item_then (f : nat) (sn : Z) (stack : list frame) (s : text) (consumed p : Z) : out (res (reply * Z)) :=
  let! y := fl_item (Z.of_nat (length stack)) s in
  match y with
  | More => Ok More
  | Perr => Ok Perr
  | Got (i, s2, k2) => after f sn i stack s2 (consumed + k2) p
  end.

Lemma after_fuel f1 f2 sn b stack s k p :
  (length s < f1)%nat -> (length s < f2)%nat -> after f1 sn (IDone b) stack s k p = after f2 sn (IDone b) stack s k p.
Proof.
  intros H1 H2. unfold after. destruct (finish stack (Reply sn b)); [|reflexivity]. eapply fl_loop_fuel; [apply le_n|lia|lia].
Qed.

(** Encodings start with a type byte. *)
Lemma enc_head w t : exists c y r, enc w ++ t = c :: y :: r /\ Byte.eqb c x40 = false.
Proof.
  assert (G : forall c s t', Byte.eqb c x40 = false -> exists c' y r, c :: (s ++ crlf ++ t') = c' :: y :: r /\ Byte.eqb c' x40 = false).
  { intros c s t' Hc. destruct s as [|a s]; cbn [app].
    - exists c, x0d, (x0a :: t'). auto.
    - exists c, a, (s ++ crlf ++ t'). auto. }
  destruct w; cbn [enc]; rewrite <- ?app_assoc.
  - apply (G x2b s t eq_refl).
  - apply (G x2d s t eq_refl).
  - apply (G x3a (dec_int z) t eq_refl).
  - apply (G x24 (dec_nat (Z.of_nat (length s))) (s ++ crlf ++ t) eq_refl).
  - do 3 eexists. split; reflexivity.
  - do 3 eexists. split; reflexivity.
  - apply (G x2a (dec_nat (Z.of_nat (length l))) (flat_map enc l ++ t) eq_refl).
Qed.
Lemma enc_length w : (3 <= length (enc w))%nat.
Proof.
  destruct w; cbn [enc].
  - change (str "+") with [x2b]. rewrite !app_length. cbn [crlf length]. lia.
  - change (str "-") with [x2d]. rewrite !app_length. cbn [crlf length]. lia.
  - change (str ":") with [x3a]. rewrite !app_length. cbn [crlf length]. lia.
  - change (str "$") with [x24]. rewrite !app_length. cbn [crlf length]. lia.
  - vm_compute. lia.
  - vm_compute. lia.
  - change (str "*") with [x2a]. rewrite !app_length. cbn [crlf length]. lia.
Qed.
Lemma pre_serial_enc stack w t first p : pre_serial stack (enc w ++ t) first p = Ok (Got (0, enc w ++ t, 0)).
Proof.
  unfold pre_serial. destruct (_ || _); [|reflexivity]. destruct (enc_head w t) as (c & y & r & -> & Hc).
  rewrite fl_serial_cons by congruence. rewrite Hc. reflexivity.
Qed.
Lemma loop_enc f stack w t k first p :
  fl_loop (S f) stack (enc w ++ t) k first p = item_then f 0 stack (enc w ++ t) k p.
Proof.
  rewrite fl_loop_S. rewrite pre_serial_enc. cbn [bind]. unfold item_then.
  destruct (enc_head w t) as (c & y & r & E & _). rewrite E.
  destruct (fl_item _ (c :: y :: r)) as [[[[i s2] k2]| |]| | |]; cbn [bind]; try reflexivity.
  rewrite Z.add_0_r. reflexivity.
Qed.

Section WireInd.
  Variable P : wire -> Prop.
  Hypothesis Hs : forall s, P (WStatus s).
  Hypothesis He : forall s, P (WError s).
  Hypothesis Hi : forall z, P (WInt z).
  Hypothesis Hb : forall s, P (WBulk s).
  Hypothesis Hn : P WNil.
  Hypothesis Hna : P WNilArray.
  Hypothesis Ha : forall l, Forall P l -> P (WArray l).
  Fixpoint wire_ind' (w : wire) : P w :=
    match w with
    | WStatus s => Hs s
    | WError s => He s
    | WInt z => Hi z
    | WBulk s => Hb s
    | WNil => Hn
    | WNilArray => Hna
    | WArray l =>
        Ha l ((fix go l : Forall P l :=
                 match l with [] => Forall_nil P | x :: r => Forall_cons x (wire_ind' x) (go r) end) l)
    end.
End WireInd.

Lemma wire_ok_all l :
  (fix all l := match l with [] => True | x :: r => wire_ok x /\ all r end) l <-> Forall wire_ok l.
Proof.
  induction l as [|x r IH]; [split; auto|]. split.
  - intros [H1 H2]. constructor; [exact H1|]. apply IH, H2.
  - intros H. inversion H; subst. split; [assumption|]. apply IH. assumption.
Qed.
Lemma depth_all l n :
  (fold_right (fun x n => Nat.max (depth x) n) O l <= n)%nat -> Forall (fun x => (depth x <= n)%nat) l.
Proof.
  induction l as [|x r IH]; cbn [fold_right]; intros H; constructor; [lia|]. apply IH. lia.
Qed.

Definition reads (w : wire) : Prop :=
  wire_ok w ->
  forall f f' sn stack t k p,
    (length stack + depth w <= 8)%nat -> (length (enc w ++ t) <= f)%nat -> (length t < f')%nat ->
    item_then f sn stack (enc w ++ t) k p =
    after f' sn (IDone (value w)) stack t (k + Z.of_nat (length (enc w))) p.

(** The elements of an array. *)
Lemma reads_list l : Forall reads l -> Forall wire_ok l ->
  forall done f f' sn n stack t k p,
    l <> [] -> n = Z.of_nat (length done + length l) ->
    (S (length stack) + fold_right (fun x n => Nat.max (depth x) n) O l <= 8)%nat ->
    (length (flat_map enc l ++ t) < f)%nat -> (length t < f')%nat ->
    fl_loop f ((sn, n, done) :: stack) (flat_map enc l ++ t) k false p =
    after f' sn (IDone (BArray (done ++ map (fun x => Reply 0 (value x)) l))) stack t (k + Z.of_nat (length (flat_map enc l))) p.
Proof.
  induction l as [|x l IH]; intros HR HW done f f' sn n stack t k p Hl Hn Hd Hf Hf'; [congruence|].
  inversion HR as [|? ? Rx Rl]; subst. inversion HW as [|? ? Wx Wl]; subst. clear HR HW Hl.
  cbn [flat_map fold_right map] in *. rewrite <- app_assoc in *. set (u := flat_map enc l ++ t) in *.
  destruct f as [|f]; [lia|]. rewrite loop_enc.
  rewrite (Rx Wx f (S (length u))); [|cbn [length]; lia|lia|lia].
  unfold after at 1. cbn [finish].
  destruct l as [|x2 l].
  - cbn [length map flat_map]. rewrite !app_nil_r.
    destruct (Z.eqb_spec (Z.of_nat (length done)) (Z.of_nat (length done + 1) - 1)) as [_|Hne]; [|lia].
    change (match finish stack (Reply sn (BArray (done ++ [Reply 0 (value x)]))) with
            | inl stack1 => fl_loop (S (length u)) stack1 u (k + Z.of_nat (length (enc x))) false p
            | inr r => Ok (Got (r, k + Z.of_nat (length (enc x)))) end)
      with (after (S (length u)) sn (IDone (BArray (done ++ [Reply 0 (value x)]))) stack u (k + Z.of_nat (length (enc x))) p).
    apply after_fuel; subst u; cbn [flat_map app]; lia.
  - destruct (Z.eqb_spec (Z.of_nat (length done)) (Z.of_nat (length done + length (x :: x2 :: l)) - 1)) as [He|_].
    { exfalso. cbn [length] in He. lia. }
    unfold u.
    rewrite (IH Rl Wl (done ++ [Reply 0 (value x)]) _ f'); [| congruence | rewrite app_length; cbn [length]; f_equal; lia | lia | fold u; lia | exact Hf'].
    rewrite <- app_assoc. cbn [app]. rewrite app_length. f_equal. lia.
Qed.

Lemma reads_wire w : reads w.
Proof.
  induction w as [s|s|z|s| | |l IH] using wire_ind'; intros Hok f f' sn stack t k p Hd Hf Hf'; unfold item_then.
  - rewrite item_line_status by exact Hok. cbn [bind]. apply after_fuel; [rewrite app_length in Hf; pose proof (enc_length (WStatus s)); lia|lia].
  - rewrite item_line_error by exact Hok. cbn [bind]. apply after_fuel; [rewrite app_length in Hf; pose proof (enc_length (WError s)); lia|lia].
  - cbn [wire_ok] in Hok. rewrite item_int by (unfold i64_max; lia). cbn [bind].
    apply after_fuel; [rewrite app_length in Hf; pose proof (enc_length (WInt z)); lia|lia].
  - cbn [wire_ok] in Hok. rewrite item_bulk by (unfold i64_max; lia). cbn [bind].
    apply after_fuel; [rewrite app_length in Hf; pose proof (enc_length (WBulk s)); lia|lia].
  - rewrite item_nil. cbn [bind]. apply after_fuel; [rewrite app_length in Hf; pose proof (enc_length WNil); lia|lia].
  - change (enc WNilArray ++ t) with (x2a :: dec_int (-1) ++ crlf ++ t).
    cbn [depth] in Hd. rewrite array_head by (unfold i64_max; lia). cbn [bind].
    change (i32 (-1) =? -1) with true. cbn match.
    apply after_fuel; [rewrite app_length in Hf; pose proof (enc_length WNilArray); lia|lia].
  - cbn [wire_ok] in Hok. destruct Hok as [Hlen Hall]. apply wire_ok_all in Hall.
    cbn [depth] in Hd. cbn [enc]. set (n := Z.of_nat (length l)) in *. rewrite <- !app_assoc.
    change (str "*" ++ dec_nat n ++ crlf ++ flat_map enc l ++ t) with (x2a :: dec_nat n ++ crlf ++ (flat_map enc l ++ t)).
    assert (Hn : 0 <= n < 2 ^ 31) by (subst n; lia).
    rewrite <- dec_int_nat by lia. rewrite array_head by (unfold i64_max; lia). cbn [bind].
    rewrite i32_small by exact Hn. rewrite dec_int_nat by lia.
    assert (HL : Z.of_nat (length (str "*" ++ dec_nat n ++ crlf ++ flat_map enc l)) =
                 Z.of_nat (length (dec_nat n)) + 3 + Z.of_nat (length (flat_map enc l))).
    { change (str "*") with [x2a]. rewrite !app_length. cbn [length crlf]. lia. }
    cbn [enc] in Hf. fold n in Hf. rewrite app_length in Hf.
    destruct (Z.eqb_spec n (-1)); [lia|].
    destruct (Z.ltb_spec 0 n) as [Hpos|Hz].
    + unfold after at 1. destruct (Z.ltb_spec 8 (Z.of_nat (length stack) + 1)); [lia|].
      rewrite (reads_list l IH Hall [] f f' sn n stack t); [| | | |rewrite app_length|].
      * cbn [value app]. f_equal. lia.
      * intros ->. subst n. cbn in Hpos. lia.
      * reflexivity.
      * lia.
      * lia.
      * exact Hf'.
    + assert (l = []) as -> by (destruct l; [reflexivity|subst n; cbn [length] in Hz; lia]).
      cbn [flat_map map value app] in *. cbn [length] in HL.
      replace (k + Z.of_nat (length (str "*" ++ dec_nat n ++ crlf ++ []))) with (k + (Z.of_nat (length (dec_nat n)) + 3)) by lia.
      apply after_fuel; lia.
Qed.

(** With a serial number. *)
Lemma serial_read n w t :
  0 <= n < 2 ^ 32 ->
  fl_serial (packet (Some n) w ++ t) = Ok (Got (n, enc w ++ t, Z.of_nat (length (dec_nat n)) + 3)).
Proof.
  intros Hn. cbn [packet]. rewrite <- !app_assoc. change (str "@" ++ ?x) with (x40 :: x).
  rewrite fl_serial_cons by apply app_crlf_ne. change (Byte.eqb x40 x40) with true. cbn match.
  rewrite fl_integer_nat by (unfold i64_max; lia). cbn [bind]. rewrite Z.mod_small by lia. do 3 f_equal. lia.
Qed.
Lemma packet_ne sn w t : packet sn w ++ t <> [].
Proof.
  destruct sn; cbn [packet]; [discriminate|]. destruct (enc_head w t) as (c & y & r & -> & _). discriminate.
Qed.
Lemma packet_length sn w : (3 <= length (packet sn w))%nat.
Proof. destruct sn; cbn [packet]; rewrite ?app_length; pose proof (enc_length w); lia. Qed.

(** A packet where a serial number may stand. *)
Lemma reads_packet sn w f f' stack t k first p :
  sn_ok sn -> wire_ok w -> (length stack + depth w <= 8)%nat ->
  first || (1 <? p) && (Z.of_nat (length stack) =? 1) = true ->
  (length (packet sn w ++ t) < f)%nat -> (length t < f')%nat ->
  fl_loop f stack (packet sn w ++ t) k first p =
  after f' (match sn with Some n => n | None => 0 end) (IDone (value w)) stack t (k + Z.of_nat (length (packet sn w))) p.
Proof.
  intros Hsn Hw Hd Hfirst Hf Hf'. destruct f as [|f]; [lia|]. destruct sn as [n|].
  - rewrite fl_loop_S. unfold pre_serial. rewrite Hfirst. rewrite serial_read by exact Hsn. cbn [bind].
    destruct (packet (Some n) w ++ t) as [|c0 s0] eqn:E; [exfalso; exact (packet_ne _ _ _ E)|].
    pose proof (reads_wire w Hw f f' n stack t (k + (Z.of_nat (length (dec_nat n)) + 3)) p Hd) as R.
    assert (L : length (packet (Some n) w) = (length (dec_nat n) + 3 + length (enc w))%nat).
    { cbn [packet]. change (str "@") with [x40]. rewrite !app_length. cbn [length crlf]. lia. }
    assert (L2 : length (c0 :: s0) = (length (packet (Some n) w) + length t)%nat) by (rewrite <- E, app_length; reflexivity).
    unfold item_then in R. rewrite R; [|rewrite app_length; lia|lia]. f_equal. lia.
  - cbn [packet]. rewrite loop_enc. apply reads_wire; auto; cbn [packet] in Hf; lia.
Qed.

Lemma fl_reply_packet sn w t p :
  p <= 1 -> sn_ok sn -> wire_ok w -> (depth w <= 8)%nat ->
  fl_reply (packet sn w ++ t) p = Ok (Got (packet_value sn w, Z.of_nat (length (packet sn w)))).
Proof.
  intros Hp Hsn Hw Hd. unfold fl_reply, start. destruct (Z.ltb_spec 1 p); [lia|].
  destruct (packet sn w ++ t) as [|c s] eqn:E; [exfalso; exact (packet_ne _ _ _ E)|]. rewrite <- E.
  rewrite (reads_packet sn w _ (S (length t)) [] t); auto; try lia.
Qed.

(** Several packets read as one array. *)
Lemma reads_packets l : packets_ok 7 l ->
  forall done f t k p,
    l <> [] -> p = Z.of_nat (length done + length l) -> 1 < p ->
    (length (packets l ++ t) < f)%nat ->
    fl_loop f [(0, p, done)] (packets l ++ t) k false p =
    Ok (Got (Reply 0 (BArray (done ++ packet_values l)), k + Z.of_nat (length (packets l)))).
Proof.
  induction l as [|[sn w] l IH]; intros Hok done f t k p Hl Hp Hp1 Hf; [congruence|].
  inversion Hok as [|? ? (H1 & H2 & H3) Hrest]; subst x l0. cbn [fst snd] in *.
  cbn [packets flat_map fst snd] in *. rewrite <- app_assoc in *. fold (packets l) in *.
  rewrite (reads_packet sn w f (S (length (packets l ++ t)))); auto; try lia.
  2:{ cbn [length]. lia. }
  2:{ cbn [orb length]. rewrite (proj2 (Z.ltb_lt 1 p) Hp1). reflexivity. }
  unfold after. cbn [finish].
  destruct l as [|y l].
  - destruct (Z.eqb_spec (Z.of_nat (length done)) (p - 1)) as [_|Hne]; [|cbn [length] in *; lia].
    cbn [packet_values map packets flat_map fst snd]. rewrite app_nil_r. reflexivity.
  - destruct (Z.eqb_spec (Z.of_nat (length done)) (p - 1)) as [He|_]; [cbn [length] in *; lia|].
    rewrite IH; auto; try lia; try congruence.
    + cbn [packet_values map fst snd]. rewrite <- app_assoc. cbn [app]. rewrite app_length. do 3 f_equal. lia.
    + rewrite app_length. cbn [length] in *. lia.
Qed.
(** The first iteration may read a serial number anyway. *)
Lemma first_irrelevant f stack s k p :
  1 < p -> length stack = 1%nat -> fl_loop f stack s k true p = fl_loop f stack s k false p.
Proof.
  intros Hp Hs. destruct f as [|f]; [reflexivity|]. rewrite !fl_loop_S. unfold pre_serial. rewrite Hs.
  change (Z.of_nat 1 =? 1) with true. rewrite (proj2 (Z.ltb_lt 1 p) Hp). reflexivity.
Qed.
Lemma fl_reply_packets l t p :
  1 < p -> p = Z.of_nat (length l) -> packets_ok 7 l ->
  fl_reply (packets l ++ t) p = Ok (Got (Reply 0 (BArray (packet_values l)), Z.of_nat (length (packets l)))).
Proof.
  intros Hp Hl Hok. unfold fl_reply, start. rewrite (proj2 (Z.ltb_lt 1 p) Hp).
  assert (l <> []) by (intros ->; cbn in Hl; lia).
  assert (Hne : packets l ++ t <> []).
  { destruct l as [|[sn w] l]; [congruence|]. cbn [packets flat_map]. rewrite <- app_assoc. apply packet_ne. }
  destruct (packets l ++ t) as [|c s] eqn:E; [congruence|]. rewrite <- E.
  rewrite first_irrelevant by auto. rewrite reads_packets; auto; lia.
Qed.

(** ** Incomplete data *)
Lemma fl_reply_prefix s q r p n :
  fl_reply s p = Ok (Got (r, n)) -> n = Z.of_nat (length s) -> (exists t, t <> [] /\ s = q ++ t) -> fl_reply q p = Ok More.
Proof.
  intros H Hn (t & Ht & ->). 
  assert (D : fl_reply q p = Ok More \/ fl_reply q p <> Ok More).
  { destruct (fl_reply q p) as [[ | | ]| | |]; auto; right; discriminate. }
  destruct D as [D|D]; [exact D|]. exfalso. pose proof (fl_reply_stable q t p D) as S. rewrite H in S. symmetry in S.
  apply fl_reply_got in S. rewrite app_length in Hn. destruct t; [congruence|]. cbn [length] in Hn. lia.
Qed.

(** ** The checker *)
Lemma check_loop_packets l : packets_ok 8 l ->
  forall f blocks q acc,
    concat blocks = packets l ++ q -> (length (concat blocks) < f)%nat ->
    (q = [] \/ fl_reply q 1 = Ok More) ->
    exists c, check_loop f blocks acc = Ok (acc ++ packet_values l, c, false) /\ concat c = q.
Proof.
  induction l as [|[sn w] l IH]; intros Hok f blocks q acc Hc Hf Hq; (destruct f as [|f]; [lia|]); cbn [check_loop].
  - cbn [packets flat_map app] in Hc. cbn [packet_values map]. rewrite app_nil_r. rewrite Hc.
    destruct Hq as [->|Hq].
    + exists blocks. split; [reflexivity|exact Hc].
    + destruct q as [|y q]; [exists blocks; split; [reflexivity|exact Hc]|]. cbn [length Nat.eqb].
      rewrite get_reply_flat, Hc, Hq. cbn [bind]. exists blocks. split; [reflexivity|exact Hc].
  - inversion Hok as [|? ? (H1 & H2 & H3) Hrest]; subst x l0. cbn [fst snd] in *.
    cbn [packets flat_map fst snd] in Hc. rewrite <- app_assoc in Hc. fold (packets l) in Hc.
    assert (L : (length (concat blocks) = length (packet sn w) + length (packets l ++ q))%nat) by (rewrite Hc, app_length; reflexivity).
    pose proof (packet_length sn w) as L3.
    destruct (Nat.eqb_spec (length (concat blocks)) 0) as [He|_]; [lia|].
    rewrite get_reply_flat, Hc, fl_reply_packet by (auto; lia). cbn [bind].
    assert (Hsk : concat (skip blocks (Z.of_nat (length (packet sn w)))) = packets l ++ q).
    { rewrite skip_flat by lia. rewrite Hc. rewrite Nat2Z.id. apply skipn_exact_app. reflexivity. }
    destruct (IH Hrest f (skip blocks (Z.of_nat (length (packet sn w)))) q (acc ++ [packet_value sn w]) Hsk) as (c & E & Ec).
    + rewrite Hsk. lia.
    + exact Hq.
    + exists c. split; [|exact Ec]. rewrite E. cbn [packet_values map fst snd]. rewrite <- app_assoc. reflexivity.
Qed.

(** Every prefix of a sequence of packets is some of the packets and a part of the next. *)
Lemma packets_prefix l : forall s t, packets l = s ++ t ->
  exists l1 l2 q, l = l1 ++ l2 /\ s = packets l1 ++ q /\
    (q = [] \/ exists x l3 u, l2 = x :: l3 /\ packet (fst x) (snd x) = q ++ u /\ u <> []).
Proof.
  induction l as [|x l IH]; intros s t H.
  - cbn in H. symmetry in H. apply app_eq_nil in H. destruct H as [-> ->]. exists [], [], []. auto.
  - cbn [packets flat_map] in H. fold (packets l) in H. set (w := packet (fst x) (snd x)) in *.
    destruct (Nat.le_gt_cases (length w) (length s)) as [Hle|Hlt].
    + assert (Hs : s = w ++ skipn (length w) s).
      { rewrite <- (firstn_skipn (length w) s) at 1. f_equal.
        rewrite <- (firstn_lt_app s t) by exact Hle. rewrite <- H. apply firstn_exact_app. reflexivity. }
      set (s' := skipn (length w) s) in *. clearbody s'. subst s. rewrite <- app_assoc in H. apply app_inv_head in H.
      destruct (IH s' t H) as (l1 & l2 & q & -> & -> & Hq). exists (x :: l1), l2, q.
      split; [reflexivity|]. split; [cbn [packets flat_map]; fold (packets l1); fold w; rewrite <- app_assoc; reflexivity|exact Hq].
    + exists [], (x :: l), s. split; [reflexivity|]. split; [reflexivity|]. right.
      exists x, l, (skipn (length s) w). split; [reflexivity|].
      assert (Hs : firstn (length s) w = s).
      { rewrite <- (firstn_lt_app w (packets l)) by lia. rewrite H. apply firstn_exact_app. reflexivity. }
      split; [fold w; rewrite <- (firstn_skipn (length s) w) at 1; rewrite Hs; reflexivity|].
      intros E. apply (f_equal (@length byte)) in E. rewrite skipn_length in E. cbn [length] in E. lia.
Qed.

Lemma partial_more max x q u :
  (max <= 8)%nat -> sn_ok (fst x) -> wire_ok (snd x) -> (depth (snd x) <= max)%nat ->
  packet (fst x) (snd x) = q ++ u -> u <> [] -> fl_reply q 1 = Ok More.
Proof.
  intros Hm H1 H2 H3 E Hu. pose proof (fl_reply_packet (fst x) (snd x) [] 1 ltac:(lia) H1 H2 ltac:(lia)) as R.
  rewrite app_nil_r in R. eapply fl_reply_prefix; [exact R|reflexivity|]. exists u. auto.
Qed.

Lemma feed_packets chunks : forall l left,
  packets_ok 8 l -> concat left ++ concat (concat chunks) = packets l ->
  (concat left = [] \/ exists x l3 u, l = x :: l3 /\ packet (fst x) (snd x) = concat left ++ u /\ u <> []) ->
  exists c, feed left chunks = Ok (packet_values l, c, false) /\ concat c = [].
Proof.
  induction chunks as [|ch chunks IH]; intros l left Hok H Hq; cbn [feed].
  - cbn [concat] in H. rewrite app_nil_r in H.
    assert (l = []) as ->.
    { destruct Hq as [Hq|(x & l3 & u & -> & E & Hu)].
      - rewrite Hq in H. destruct l as [|[sn w] l]; [reflexivity|]. cbn [packets flat_map] in H. symmetry in H.
        exfalso. exact (packet_ne _ _ _ H).
      - exfalso. cbn [packets flat_map] in H. rewrite E in H. rewrite <- app_assoc in H.
        rewrite <- (app_nil_r (concat left)) in H at 1. apply app_inv_head in H. destruct u; [congruence|discriminate]. }
    exists left. split; [reflexivity|exact H].
  - cbn [concat] in H. rewrite concat_app in H. rewrite app_assoc, <- concat_app in H. symmetry in H.
    destruct (packets_prefix l (concat (left ++ ch)) _ H) as (l1 & l2 & q & -> & Hs & Hq2).
    assert (Hok1 : packets_ok 8 l1) by (apply Forall_app in Hok; tauto).
    assert (Hok2 : packets_ok 8 l2) by (apply Forall_app in Hok; tauto).
    assert (Hm : q = [] \/ fl_reply q 1 = Ok More).
    { destruct Hq2 as [->|(x & l3 & u & -> & E & Hu)]; [auto|]. right.
      inversion Hok2 as [|? ? (H1 & H2 & H3) _]; subst. eapply (partial_more 8); eauto. }
    unfold check_response.
    destruct (check_loop_packets l1 Hok1 _ (left ++ ch) q [] Hs (Nat.lt_succ_diag_r _) Hm) as (c & E & Ec).
    cbn [app] in E. rewrite E.
    destruct (IH l2 c Hok2) as (c2 & E2 & Ec2).
    + rewrite Ec. unfold packets in H. rewrite flat_map_app in H. rewrite Hs in H. rewrite <- app_assoc in H.
      apply app_inv_head in H. symmetry. exact H.
    + rewrite Ec. exact Hq2.
    + rewrite E2. exists c2. split; [|exact Ec2]. unfold packet_values. rewrite map_app. reflexivity.
Qed.

(** ** Commands *)
Lemma print16_spec c n : 0 <= n < 2 ^ 32 -> print16 c n = c :: dec_nat n ++ crlf.
Proof.
  intros H. unfold print16. rewrite Z.mod_small by exact H.
  pose proof (dec_nat_length n 10 ltac:(assert (2 ^ 32 < 10 ^ Z.of_nat 10) by reflexivity; lia) ltac:(lia)) as L.
  apply firstn_all2. cbn [length]. rewrite app_length. cbn [crlf length]. lia.
Qed.
Lemma encode_command_spec args : args_ok args -> encode_command args = resp_command args.
Proof.
  intros [Hl Ha]. unfold encode_command, resp_command. rewrite print16_spec by lia.
  change (str "*") with [x2a]. change (str "$") with [x24]. cbn [app]. f_equal. rewrite <- app_assoc. f_equal. f_equal.
  induction Ha as [|a l Hx Hr IH]; [reflexivity|]. cbn [flat_map]. rewrite IH by (cbn [length] in Hl; lia).
  rewrite print16_spec by lia. cbn [app]. rewrite <- !app_assoc. reflexivity.
Qed.
Lemma resp_command_wire args : resp_command args = enc (WArray (map WBulk args)).
Proof.
  unfold resp_command. cbn [enc]. rewrite map_length. do 3 f_equal.
  induction args as [|a r IH]; [reflexivity|]. cbn [flat_map map]. rewrite IH. reflexivity.
Qed.
Lemma args_wire args : args_small args -> wire_ok (WArray (map WBulk args)) /\ (depth (WArray (map WBulk args)) <= 8)%nat.
Proof.
  intros [H1 H2]. split.
  - cbn [wire_ok]. rewrite map_length. split; [exact H1|]. apply wire_ok_all. apply Forall_map.
    eapply Forall_impl; [|exact H2]. intros a Ha. change (Z.of_nat (length a) < 2 ^ 62). eapply Z.lt_trans; [exact Ha|reflexivity].
  - cbn [depth]. assert (E : fold_right (fun x n => Nat.max (depth x) n) O (map WBulk args) = O); [|rewrite E; lia].
    clear. induction args as [|a r IH]; [reflexivity|]. cbn [map fold_right]. rewrite IH. reflexivity.
Qed.
Lemma fl_reply_command args t :
  args_small args ->
  fl_reply (resp_command args ++ t) 1 =
    Ok (Got (Reply 0 (BArray (map (fun a => Reply 0 (BBulk a)) args)), Z.of_nat (length (resp_command args)))).
Proof.
  intros H. destruct (args_wire args H) as [H1 H2]. rewrite resp_command_wire.
  pose proof (fl_reply_packet None (WArray (map WBulk args)) t 1 ltac:(lia) I H1 H2) as R. cbn [packet packet_value value] in R.
  rewrite R. unfold packet_value. cbn [value]. rewrite map_map. reflexivity.
Qed.
Lemma resp_prefix_code a1 a2 r1 r2 :
  args_small a1 -> args_small a2 -> resp_command a1 ++ r1 = resp_command a2 ++ r2 -> a1 = a2 /\ r1 = r2.
Proof.
  intros H1 H2 E. pose proof (fl_reply_command a1 r1 H1) as R1. pose proof (fl_reply_command a2 r2 H2) as R2.
  rewrite E, R2 in R1. injection R1 as E1 E2.
  assert (a1 = a2) as ->.
  { clear - E1. revert a1 E1. induction a2 as [|x a2 IH]; intros [|y a1] E; try discriminate; [reflexivity|].
    cbn [map] in E. injection E as -> E. rewrite (IH a1 E). reflexivity. }
  split; [reflexivity|]. apply app_inv_head in E. exact E.
Qed.


(** ** Statements on blocks *)
Lemma reply_read_l blocks sn w t p :
  p <= 1 -> sn_ok sn -> wire_ok w -> (depth w <= 8)%nat -> concat blocks = packet sn w ++ t ->
  get_reply blocks p = Ok (Got (packet_value sn w, Z.of_nat (length (packet sn w)))).
Proof. intros. rewrite get_reply_flat. rewrite H3. apply fl_reply_packet; auto. Qed.
Lemma pipelined_l blocks l t :
  (2 <= length l)%nat -> packets_ok 7 l -> concat blocks = packets l ++ t ->
  get_reply blocks (Z.of_nat (length l)) =
    Ok (Got (Reply 0 (BArray (packet_values l)), Z.of_nat (length (packets l)))).
Proof. intros H1 H2 H3. rewrite get_reply_flat, H3. apply fl_reply_packets; auto. lia. Qed.
Lemma blocks_l b1 b2 p : concat b1 = concat b2 -> get_reply b1 p = get_reply b2 p.
Proof. intros H. rewrite !get_reply_flat, H. reflexivity. Qed.
Lemma stream_l chunks l :
  packets_ok 8 l -> concat (concat chunks) = packets l ->
  exists c, feed [] chunks = Ok (packet_values l, c, false) /\ concat c = [].
Proof. intros H1 H2. apply feed_packets; auto. Qed.
Lemma truncated_l blocks sn w t p :
  p <= 1 -> sn_ok sn -> wire_ok w -> (depth w <= 8)%nat -> t <> [] -> packet sn w = concat blocks ++ t ->
  get_reply blocks p = Ok More.
Proof.
  intros Hp H1 H2 H3 Ht E. rewrite get_reply_flat.
  pose proof (fl_reply_packet sn w [] p Hp H1 H2 H3) as R. rewrite app_nil_r in R.
  eapply fl_reply_prefix; [exact R|reflexivity|]. exists t. auto.
Qed.
Lemma truncated_pipeline_l blocks l t :
  (2 <= length l)%nat -> packets_ok 7 l -> t <> [] -> packets l = concat blocks ++ t ->
  get_reply blocks (Z.of_nat (length l)) = Ok More.
Proof.
  intros H1 H2 Ht E. rewrite get_reply_flat.
  pose proof (fl_reply_packets l [] (Z.of_nat (length l)) ltac:(lia) eq_refl H2) as R. rewrite app_nil_r in R.
  eapply fl_reply_prefix; [exact R|reflexivity|]. exists t. auto.
Qed.
Lemma final_l b1 b2 p : get_reply b1 p <> Ok More -> get_reply (b1 ++ b2) p = get_reply b1 p.
Proof. rewrite !get_reply_flat, concat_app. apply fl_reply_stable. Qed.
Lemma safe_l blocks p :
  get_reply blocks p <> NoFuel /\ (get_reply blocks p = UB -> digit_run (concat blocks)) /\
  (forall r n, get_reply blocks p = Ok (Got (r, n)) -> 3 <= n <= Z.of_nat (length (concat blocks))).
Proof.
  rewrite get_reply_flat. split; [apply fl_reply_nofuel|]. split; [apply fl_reply_ub|]. intros r n. apply fl_reply_got.
Qed.
Lemma check_l blocks l q x u :
  packets_ok 8 (l ++ [x]) -> packet (fst x) (snd x) = q ++ u -> u <> [] -> concat blocks = packets l ++ q ->
  forall merged, exists c, check_response blocks true merged = Ok (packet_values l, c, false) /\ concat c = q.
Proof.
  intros Hok E Hu Hc merged. apply Forall_app in Hok. destruct Hok as [H1 H2]. inversion H2 as [|? ? (Ha & Hb & Hd) _]; subst.
  unfold check_response. eapply (check_loop_packets l H1 _ blocks q []); [exact Hc|lia|].
  right. eapply (partial_more 8); eauto.
Qed.
Lemma check_merged_l blocks l t :
  (2 <= length l)%nat -> packets_ok 7 l -> concat blocks = packets l ++ t ->
  exists c, check_response blocks false (Z.of_nat (length l)) = Ok ([Reply 0 (BArray (packet_values l))], c, false) /\ concat c = t.
Proof.
  intros H1 H2 H3. unfold check_response. rewrite (pipelined_l blocks l t H1 H2 H3). cbn [bind].
  eexists. split; [reflexivity|]. rewrite skip_flat by (rewrite H3, app_length; lia). rewrite H3, Nat2Z.id.
  apply skipn_exact_app. reflexivity.
Qed.
Lemma command_decodes_l args blocks t :
  args_small args -> concat blocks = encode_command args ++ t ->
  get_reply blocks 1 =
    Ok (Got (Reply 0 (BArray (map (fun a => Reply 0 (BBulk a)) args)), Z.of_nat (length (encode_command args)))).
Proof.
  intros H E. rewrite get_reply_flat, E. rewrite encode_command_spec.
  - apply fl_reply_command. exact H.
  - destruct H as [H1 H2]. split; [lia|exact H2].
Qed.
Lemma prefix_code_l a1 a2 r1 r2 :
  args_small a1 -> args_small a2 -> encode_command a1 ++ r1 = encode_command a2 ++ r2 -> a1 = a2 /\ r1 = r2.
Proof.
  intros H1 H2. rewrite !encode_command_spec.
  - apply resp_prefix_code; assumption.
  - destruct H2 as [H2 H3]. split; [lia|exact H3].
  - destruct H1 as [H1 H3]. split; [lia|exact H3].
Qed.
