(** Lemmas about letter case and numbers. *)
From Verif.Lib Require Import Base Bytes ListX Decimal.
From Coq Require Import Strings.Byte Strings.String Lists.List.
From Verif.Strings Require Import Model Spec Proofs.
Local Open Scope string_scope.
Local Open Scope list_scope.
Local Open Scope Z_scope.

(** ** Letter case *)
Lemma to_lower_char_l c : b2z c < 128 -> to_lower_char c = Ok (ascii_lower c).
Proof.
  intros H. unfold to_lower_char, table_at, ascii_lower. destruct (Z.ltb_spec (b2z c) 128); [|lia]. f_equal.
  destruct ((65 <=? b2z c) && (b2z c <=? 90)); [f_equal; lia|apply z2b_b2z].
Qed.
Lemma to_upper_char_l c : b2z c < 128 -> to_upper_char c = Ok (ascii_upper c).
Proof.
  intros H. unfold to_upper_char, table_at, ascii_upper. destruct (Z.ltb_spec (b2z c) 128); [|lia]. f_equal.
  destruct ((97 <=? b2z c) && (b2z c <=? 122)); [f_equal; lia|apply z2b_b2z].
Qed.

Lemma map_out_ok f g s : (forall c, b2z c < 128 -> f c = Ok (g c)) -> ascii s -> map_out f s = Ok (map g s).
Proof. intros Hf H. induction H as [|c s Hc Hs IH]; [reflexivity|]. cbn [map_out map]. rewrite Hf, IH by auto. reflexivity. Qed.

Lemma map_out_ub f g s : (forall c, b2z c < 128 -> f c = Ok (g c)) -> (forall c, 128 <= b2z c -> f c = UB) -> ~ ascii s -> map_out f s = UB.
Proof.
  intros Hf Hu H. induction s as [|c s IH]; [exfalso; apply H; constructor|]. cbn [map_out].
  destruct (Z_lt_le_dec (b2z c) 128) as [L|L]; [|rewrite Hu by auto; reflexivity]. rewrite Hf by auto. cbn [bind].
  rewrite IH; [reflexivity|]. intros Q. apply H. constructor; auto.
Qed.

Lemma table_ub f c : 128 <= b2z c -> table_at f c = UB.
Proof. intros H. unfold table_at. destruct (Z.ltb_spec (b2z c) 128); [lia|reflexivity]. Qed.

Lemma to_lower_l s : (ascii s -> to_lower s = Ok (map ascii_lower s)) /\ (~ ascii s -> to_lower s = UB).
Proof.
  split; [apply map_out_ok, to_lower_char_l|]. apply (map_out_ub _ ascii_lower); [apply to_lower_char_l|]. intros c. apply table_ub.
Qed.
Lemma to_upper_l s : (ascii s -> to_upper s = Ok (map ascii_upper s)) /\ (~ ascii s -> to_upper s = UB).
Proof.
  split; [apply map_out_ok, to_upper_char_l|]. apply (map_out_ub _ ascii_upper); [apply to_upper_char_l|]. intros c. apply table_ub.
Qed.

Lemma iequals_l a b : ascii a -> ascii b -> exists r, iequals a b = Ok r /\ (r = true <-> map ascii_lower a = map ascii_lower b).
Proof.
  intros Ha Hb. unfold iequals. destruct (Nat.eqb_spec (length a) (length b)) as [L|L].
  - revert b Hb L. induction Ha as [|x a Hx Ha IH]; intros b Hb L.
    + destruct b; [|discriminate]. exists true. split; [reflexivity|]. split; auto.
    + destruct b as [|y b]; [discriminate|]. inversion Hb; subst. cbn [iequals_loop map]. rewrite !to_lower_char_l by auto. cbn [bind].
      destruct (byte_eqb_spec (ascii_lower x) (ascii_lower y)) as [E|E].
      * destruct (IH b) as (r & -> & Hr); auto. exists r. split; auto. rewrite Hr. split; intros Q; [congruence|inversion Q; auto].
      * exists false. split; auto. split; [discriminate|intros Q; inversion Q; congruence].
  - exists false. split; auto. split; [discriminate|]. intros Q. apply (f_equal (@length byte)) in Q. rewrite !map_length in Q. congruence.
Qed.

(** ** Numerals *)
Lemma number_dval l : number l = dval l.
Proof. induction l as [|b l IH]; [reflexivity|]. cbn [number]. rewrite dval_cons, IH. reflexivity. Qed.

Lemma is_digit_iff b : is_digit b = true <-> 48 <= b2z b <= 57.
Proof. unfold is_digit. rewrite andb_true_iff, !Z.leb_le. tauto. Qed.

Lemma is_space_iff b : is_space b = true <-> In b [x20; x09; x0a; x0b; x0c; x0d].
Proof.
  split.
  - intros H. unfold is_space in H. rewrite orb_true_iff, andb_true_iff, Z.eqb_eq, !Z.leb_le in H.
    assert (b2z b = 32 \/ b2z b = 9 \/ b2z b = 10 \/ b2z b = 11 \/ b2z b = 12 \/ b2z b = 13) as C by lia.
    destruct C as [C|[C|[C|[C|[C|C]]]]]; [left|right; left|do 2 right; left|do 3 right; left|do 4 right; left|do 5 right; left]; apply b2z_inj; rewrite C; reflexivity.
  - intros [<-|[<-|[<-|[<-|[<-|[<-|[]]]]]]]; reflexivity.
Qed.

Lemma c_str_spec s : exists tail, s = c_str s ++ tail /\ hidden tail.
Proof.
  induction s as [|b s IH]; cbn [c_str]; [exists []; split; auto; left; auto|].
  destruct (byte_eqb_spec b x00) as [->|N]; [exists (x00 :: s); split; auto; right; eauto|].
  destruct IH as (tail & E & H). exists tail. split; auto. cbn [app]. congruence.
Qed.

Lemma c_str_app a tail : ~ In x00 a -> hidden tail -> c_str (a ++ tail) = a.
Proof.
  intros N H. induction a as [|b a IH]; cbn [app c_str].
  - destruct H as [->|[r ->]]; reflexivity.
  - destruct (byte_eqb_spec b x00) as [->|Nb]; [exfalso; apply N; left; auto|]. rewrite IH; auto. intros Q. apply N. right. auto.
Qed.

Lemma skip_space_spec s : exists ws, s = ws ++ skip_space s /\ white ws.
Proof.
  induction s as [|b s IH]; cbn [skip_space]; [exists []; split; auto; constructor|]. destruct (is_space b) eqn:E.
  - destruct IH as (ws & E1 & H). exists (b :: ws). split; [cbn; congruence|]. constructor; auto. apply is_space_iff; auto.
  - exists []. split; auto. constructor.
Qed.

Lemma skip_space_app ws t : white ws -> (forall b r, t = b :: r -> is_space b = false) -> skip_space (ws ++ t) = t.
Proof.
  intros H N. induction H as [|b ws Hb H IH]; cbn [app skip_space].
  - destruct t as [|b t]; [reflexivity|]. cbn. rewrite (N b t eq_refl). reflexivity.
  - rewrite (proj2 (is_space_iff b) Hb). auto.
Qed.

Lemma take_digits_spec s : all_digits (take_digits s) /\ s = take_digits s ++ skipn (length (take_digits s)) s.
Proof.
  induction s as [|b s IH]; cbn [take_digits]; [split; [constructor|reflexivity]|]. destruct (is_digit b) eqn:E.
  - destruct IH as [H1 H2]. split; [constructor; auto; apply is_digit_iff; auto|]. cbn [length skipn app]. congruence.
  - split; [constructor|reflexivity].
Qed.

Lemma take_digits_all ds : all_digits ds -> take_digits ds = ds.
Proof. intros H. induction H as [|b ds Hb H IH]; [reflexivity|]. cbn. rewrite (proj2 (is_digit_iff b) Hb), IH. reflexivity. Qed.

Lemma scan_sound s neg v : scan (c_str s) = Some (neg, v, []) -> numeral s neg v.
Proof.
  intros H. destruct (c_str_spec s) as (tail & Es & Ht). unfold scan in H. destruct (skip_space_spec (c_str s)) as (ws & Ew & Hw).
  set (s1 := skip_space (c_str s)) in *. clearbody s1.
  assert (D : forall sg s2, s1 = sg ++ s2 -> sign sg neg ->
    match take_digits s2 with [] => None | d => Some (neg, dval d, skipn (length d) s2) end = Some (neg, v, []) -> numeral s neg v).
  { intros sg s2 E1 Hs Q. destruct (take_digits_spec s2) as [D1 D2]. destruct (take_digits s2) as [|d ds] eqn:Ed; [discriminate|].
    assert (Q2 : skipn (length (d :: ds)) s2 = []) by congruence. assert (Q1 : dval (d :: ds) = v) by congruence.
    rewrite Q2, app_nil_r in D2. exists ws, sg, (d :: ds), tail. repeat split; auto.
    - rewrite Es at 1. rewrite Ew, E1, D2. rewrite <- !app_assoc. reflexivity.
    - discriminate.
    - rewrite number_dval. auto. }
  assert (P : forall (n : bool) s2, match take_digits s2 with [] => None | d => Some (n, dval d, skipn (length d) s2) end = Some (neg, v, []) -> n = neg).
  { intros n s2 Q. destruct (take_digits s2); [discriminate|]. inversion Q; auto. }
  destruct s1 as [|b r]; [discriminate|]. destruct (byte_eqb_spec b x2d) as [->|Nm]; [|destruct (byte_eqb_spec b x2b) as [->|Np]].
  - pose proof (P _ _ H). subst neg. apply (D [x2d] r); auto. constructor.
  - pose proof (P _ _ H). subst neg. apply (D [x2b] r); auto. constructor.
  - pose proof (P _ _ H). subst neg. apply (D [] (b :: r)); auto. constructor.
Qed.

Lemma scan_complete s neg v : numeral s neg v -> scan (c_str s) = Some (neg, v, []) /\ c_str s <> [].
Proof.
  intros (ws & sg & ds & tail & -> & Hw & Hs & Nd & Hd & Ht & ->).
  assert (E : c_str (ws ++ sg ++ ds ++ tail) = ws ++ sg ++ ds).
  { replace (ws ++ sg ++ ds ++ tail) with ((ws ++ sg ++ ds) ++ tail) by (rewrite <- !app_assoc; reflexivity). apply c_str_app; auto.
    intros Q. apply in_app_or in Q. destruct Q as [Q|Q].
    - unfold white in Hw. rewrite Forall_forall in Hw. specialize (Hw _ Q). cbn in Hw. repeat (destruct Hw as [Hw|Hw]; [discriminate|]). exact Hw.
    - apply in_app_or in Q. destruct Q as [Q|Q].
      + destruct Hs; [destruct Q|destruct Q as [Q|[]]; discriminate|destruct Q as [Q|[]]; discriminate].
      + unfold all_digits in Hd. rewrite Forall_forall in Hd. specialize (Hd _ Q). cbn in Hd. lia. }
  rewrite E. split.
  - unfold scan. destruct ds as [|d ds]; [congruence|]. pose proof (take_digits_all _ Hd) as T.
    assert (S1 : skip_space (ws ++ sg ++ d :: ds) = sg ++ d :: ds).
    { apply skip_space_app; auto. intros b r Q. destruct (is_space b) eqn:Es; auto. apply is_space_iff in Es.
      inversion Hd as [|? ? Hd0 ?]; subst. destruct Hs; cbn in Q; inversion Q; subst; cbn in Es.
      - repeat (destruct Es as [Es|Es]; [subst; cbn in Hd0; lia|]). contradiction.
      - repeat (destruct Es as [Es|Es]; [discriminate|]). contradiction.
      - repeat (destruct Es as [Es|Es]; [discriminate|]). contradiction. }
    rewrite S1. rewrite number_dval.
    assert (Nd1 : Byte.eqb d x2d = false /\ Byte.eqb d x2b = false).
    { inversion Hd as [|? ? Hd0 ?]; subst. split; [destruct (byte_eqb_spec d x2d)|destruct (byte_eqb_spec d x2b)]; auto; subst; cbn in Hd0; lia. }
    destruct Nd1 as [N1 N2]. destruct Hs; cbn [app].
    + rewrite N1, N2, T. rewrite skipn_all. reflexivity.
    + change (Byte.eqb x2b x2d) with false. change (Byte.eqb x2b x2b) with true. cbn iota. rewrite T. rewrite skipn_all. reflexivity.
    + change (Byte.eqb x2d x2d) with true. cbn iota. rewrite T. rewrite skipn_all. reflexivity.
  - intros Q. apply app_eq_nil in Q. destruct Q as [_ Q]. apply app_eq_nil in Q. destruct Q. congruence.
Qed.

Lemma impl_some f limits erange s x : try_parse_impl f limits erange s = Some x <->
  exists neg v e, numeral s neg v /\ f neg v = (x, e) /\ (In x limits -> e = false /\ erange = false).
Proof.
  unfold try_parse_impl.
  assert (Ex : forall y, existsb (Z.eqb y) limits = true <-> In y limits).
  { intros y. rewrite existsb_exists. split; [intros (z & H1 & H2); apply Z.eqb_eq in H2; subst; auto|intros H; exists y; split; auto; apply Z.eqb_refl]. }
  split.
  - intros H. destruct (c_str s) as [|c cs] eqn:Ec; [discriminate|]. rewrite <- Ec in H. destruct (scan (c_str s)) as [[[neg v] rest]|] eqn:Sc; [|discriminate].
    destruct rest; [|discriminate]. destruct (f neg v) as [y e] eqn:F. exists neg, v, e. apply scan_sound in Sc.
    destruct (existsb (Z.eqb y) limits) eqn:E; cbn [andb] in H.
    + destruct (e || erange) eqn:Ee; [discriminate|]. apply orb_false_iff in Ee. inversion H; subst. repeat split; tauto.
    + inversion H; subst. split; [auto|split; [auto|intros Q; apply Ex in Q; congruence]].
  - intros (neg & v & e & N & F & L). destruct (scan_complete _ _ _ N) as [Sc Nc]. destruct (c_str s) as [|c cs]; [congruence|]. rewrite Sc, F.
    destruct (existsb (Z.eqb x) limits) eqn:E; cbn [andb]; auto. apply Ex in E. destruct (L E) as [-> ->]. reflexivity.
Qed.

Lemma number_nonneg ds : all_digits ds -> 0 <= number ds.
Proof. intros H. induction H; cbn [number]; [lia|]. pose proof (Z.pow_nonneg 10 (Z.of_nat (length l))). nia. Qed.

Lemma numeral_nonneg s neg v : numeral s neg v -> 0 <= v.
Proof. intros (ws & sg & ds & tail & _ & _ & _ & _ & H & _ & ->). apply number_nonneg; auto. Qed.

Lemma pow_le_63 bits : 1 <= bits <= 64 -> 2 ^ (bits - 1) <= 2 ^ 63.
Proof. intros H. apply Z.pow_le_mono_r; lia. Qed.

Lemma signed_l bits erange s x : 1 <= bits <= 64 -> (erange = false \/ bits < 64) ->
  (try_parse_signed bits erange s = Some x <-> integer_is s x /\ - 2 ^ (bits - 1) <= x < 2 ^ (bits - 1)).
Proof.
  intros Hb He. pose proof (pow_le_63 bits Hb) as P. unfold try_parse_signed, narrow.
  assert (He' : erange = true -> 2 ^ (bits - 1) < 2 ^ 63).
  { intros ->. destruct He as [He|He]; [discriminate|]. apply Z.pow_lt_mono_r; lia. }
  remember (2 ^ (bits - 1)) as B. clear HeqB He. split.
  - intros H. destruct (try_parse_impl strtoll [- 2 ^ 63; 2 ^ 63 - 1] erange s) as [y|] eqn:E; [|discriminate].
    destruct ((B - 1 <? y) || (y <? - B)) eqn:R; [discriminate|]. inversion H; subst y. apply orb_false_iff in R. destruct R as [R1 R2].
    apply Z.ltb_ge in R1, R2. apply impl_some in E. destruct E as (neg & v & e & N & F & L). split; [|lia].
    exists neg, v. split; auto. unfold strtoll in F. destruct (Z.ltb_spec (if neg then - v else v) (- 2 ^ 63)).
    + inversion F; subst. destruct L as [L _]; [left; reflexivity|discriminate].
    + destruct (Z.ltb_spec (2 ^ 63 - 1) (if neg then - v else v)); inversion F; subst; auto.
      destruct L as [L _]; [right; left; reflexivity|discriminate].
  - intros [(neg & v & N & ->) R]. set (x := if neg then - v else v) in *.
    assert (E : try_parse_impl strtoll [- 2 ^ 63; 2 ^ 63 - 1] erange s = Some x).
    { apply impl_some. exists neg, v, false. split; auto. split.
      - unfold strtoll. fold x. destruct (Z.ltb_spec x (- 2 ^ 63)); [lia|]. destruct (Z.ltb_spec (2 ^ 63 - 1) x); [lia|]. reflexivity.
      - intros Q. split; auto. destruct erange; auto. specialize (He' eq_refl). cbn in Q. destruct Q as [Q|[Q|[]]]; clearbody x; lia. }
    rewrite E. destruct (Z.ltb_spec (B - 1) x), (Z.ltb_spec x (- B)); cbn [orb]; auto; lia.
Qed.

Lemma unsigned_l bits erange s x : 1 <= bits <= 64 -> (erange = false \/ bits < 64) ->
  (try_parse_unsigned bits erange s = Some x <->
   exists neg v, numeral s neg v /\ v < 2 ^ 64 /\ x = (if neg then - v else v) mod 2 ^ 64 /\ x < 2 ^ bits).
Proof.
  intros Hb He. assert (P : 2 ^ bits <= 2 ^ 64) by (apply Z.pow_le_mono_r; lia). unfold try_parse_unsigned, narrow.
  assert (He' : erange = true -> 2 ^ bits < 2 ^ 64).
  { intros ->. destruct He as [He|He]; [discriminate|]. apply Z.pow_lt_mono_r; lia. }
  remember (2 ^ bits) as B. clear HeqB He. split.
  - intros H. destruct (try_parse_impl strtoull [2 ^ 64 - 1] erange s) as [y|] eqn:E; [|discriminate].
    destruct ((B - 1 <? y) || (y <? 0)) eqn:R; [discriminate|]. inversion H; subst y. apply orb_false_iff in R. destruct R as [R1 R2].
    apply Z.ltb_ge in R1, R2. apply impl_some in E. destruct E as (neg & v & e & N & F & L).
    exists neg, v. unfold strtoull in F. destruct (Z.ltb_spec (2 ^ 64 - 1) v).
    + inversion F; subst. destruct L as [L _]; [left; reflexivity|discriminate].
    + inversion F; subst. repeat split; auto; lia.
  - intros (neg & v & N & L & -> & R). set (x := (if neg then - v else v) mod 2 ^ 64) in *.
    assert (0 <= x < 2 ^ 64) by (apply Z.mod_pos_bound; lia).
    assert (E : try_parse_impl strtoull [2 ^ 64 - 1] erange s = Some x).
    { apply impl_some. exists neg, v, false. split; auto. split.
      - unfold strtoull. fold x. destruct (Z.ltb_spec (2 ^ 64 - 1) v); [lia|]. reflexivity.
      - intros Q. split; auto. destruct erange; auto. specialize (He' eq_refl). cbn in Q. destruct Q as [Q|[]]; clearbody x; lia. }
    rewrite E. destruct (Z.ltb_spec (B - 1) x), (Z.ltb_spec x 0); cbn [orb]; auto; lia.
Qed.

(** ** Truth values *)
Lemma numeral_unique s n1 v1 n2 v2 : numeral s n1 v1 -> numeral s n2 v2 -> n1 = n2 /\ v1 = v2.
Proof. intros H1 H2. apply scan_complete in H1, H2. destruct H1 as [H1 _], H2 as [H2 _]. rewrite H1 in H2. inversion H2. auto. Qed.

Lemma integer_unique s x y : integer_is s x -> integer_is s y -> x = y.
Proof. intros (n1 & v1 & H1 & ->) (n2 & v2 & H2 & ->). destruct (numeral_unique _ _ _ _ _ H1 H2) as [-> ->]. reflexivity. Qed.

Lemma numeral_has_digit s neg v : numeral s neg v -> exists b, In b s /\ 48 <= b2z b <= 57.
Proof.
  intros (ws & sg & ds & tail & -> & _ & _ & N & H & _). destruct ds as [|d ds]; [congruence|]. inversion H; subst. exists d. split; auto.
  apply in_or_app. right. apply in_or_app. right. left. auto.
Qed.

Lemma lower_digit b : 48 <= b2z b <= 57 -> ascii_lower b = b.
Proof. intros H. unfold ascii_lower. destruct (Z.leb_spec 65 (b2z b)); [lia|reflexivity]. Qed.

Lemma word_no_integer s w x : map ascii_lower s = w -> forallb (fun b => negb (is_digit b)) w = true -> ~ integer_is s x.
Proof.
  intros E F (neg & v & N & _). apply numeral_has_digit in N. destruct N as (b & Ib & Hb).
  rewrite forallb_forall in F. assert (Q : In b w) by (rewrite <- E; rewrite <- (lower_digit b Hb); apply in_map; auto).
  specialize (F b Q). rewrite (proj2 (is_digit_iff b) Hb) in F. discriminate.
Qed.

Lemma try_parse_bool_l erange s alphabet ignore_case : ascii s ->
  exists r, try_parse_bool erange s alphabet ignore_case = Ok r /\ (r = Some true <-> means_true s) /\ (r = Some false <-> means_false s).
Proof.
  intros Ha. unfold try_parse_bool.
  assert (W : forall w x, In (map ascii_lower s) [w] -> forallb (fun b => negb (is_digit b)) w = true -> ~ integer_is s x).
  { intros w x [E|[]] F. apply (word_no_integer s w x); auto. }
  destruct (try_parse_signed 32 erange s) as [x|] eqn:E.
  - apply signed_l in E; [|lia|lia]. destruct E as [Ix _]. eexists. split; [reflexivity|]. unfold means_true, means_false.
    assert (T : ~ In (map ascii_lower s) [str "y"; str "yes"; str "true"]).
    { intros [Q|[Q|[Q|[]]]]; exact (word_no_integer s _ x (eq_sym Q) eq_refl Ix). }
    assert (F : ~ In (map ascii_lower s) [str "n"; str "no"; str "false"]).
    { intros [Q|[Q|[Q|[]]]]; exact (word_no_integer s _ x (eq_sym Q) eq_refl Ix). }
    split.
    + split.
      * intros Q. left. destruct (Z.eqb_spec x 0); [discriminate|]. destruct (Z.eqb_spec x 1); [subst; auto|discriminate].
      * intros [Q|Q]; [|contradiction]. rewrite (integer_unique _ _ _ Ix Q). reflexivity.
    + split.
      * intros Q. left. destruct (Z.eqb_spec x 0); [subst; auto|]. destruct (Z.eqb_spec x 1); discriminate.
      * intros [Q|Q]; [|contradiction]. rewrite (integer_unique _ _ _ Ix Q). reflexivity.
  - assert (N : forall x, - 2 ^ 31 <= x < 2 ^ 31 -> ~ integer_is s x).
    { intros x Hx Q. assert (try_parse_signed 32 erange s = Some x); [|congruence]. apply signed_l; [lia|lia|]. split; auto. }
    assert (N0 := N 0 ltac:(lia)). assert (N1 := N 1 ltac:(lia)). clear N E W.
    unfold means_true, means_false.
    assert (Q : forall w, forallb (fun b => (b2z b <? 128) && Byte.eqb (ascii_lower b) b) w = true ->
      exists r, iequals s w = Ok r /\ (r = true <-> map ascii_lower s = w)).
    { intros w Fw. rewrite forallb_forall in Fw. assert (Aw : ascii w).
      { apply Forall_forall. intros b Hb. specialize (Fw b Hb). apply andb_true_iff in Fw. destruct Fw as [F1 _]. apply Z.ltb_lt in F1. auto. }
      assert (Ew : map ascii_lower w = w).
      { clear Aw. induction w as [|b w IH]; [reflexivity|]. cbn [map]. rewrite IH by (intros; apply Fw; right; auto). f_equal.
        specialize (Fw b (or_introl eq_refl)). apply andb_true_iff in Fw. destruct Fw as [_ F2]. destruct (byte_eqb_spec (ascii_lower b) b); congruence. }
      destruct (iequals_l s w Ha Aw) as (r & -> & Hr). exists r. rewrite Ew in Hr. auto. }
    destruct (Q [x79] eq_refl) as (r1 & -> & H1). destruct (Q [x79; x65; x73] eq_refl) as (r2 & -> & H2).
    destruct (Q [x74; x72; x75; x65] eq_refl) as (r3 & -> & H3). destruct (Q [x6e] eq_refl) as (r4 & -> & H4).
    destruct (Q [x6e; x6f] eq_refl) as (r5 & -> & H5). destruct (Q [x66; x61; x6c; x73; x65] eq_refl) as (r6 & -> & H6).
    change (str "y") with [x79]. change (str "yes") with [x79; x65; x73]. change (str "true") with [x74; x72; x75; x65].
    change (str "n") with [x6e]. change (str "no") with [x6e; x6f]. change (str "false") with [x66; x61; x6c; x73; x65].
    clear Q. cbn [bind]. set (w := map ascii_lower s) in *. clearbody w.
    assert (K : forall (r : bool) v, (r = true <-> w = v) -> r = false -> w <> v) by (intros r v Hr -> Q; apply Hr in Q; discriminate).
    destruct r1; [|destruct r2; [|destruct r3; [|destruct r4; [|destruct r5; [|destruct r6]]]]]; (eexists; split; [reflexivity|]);
      cbn [In].
    + rewrite (proj1 H1 eq_refl). split; split; try discriminate; auto; intros [C|C]; [contradiction|]. repeat (destruct C as [C|C]; [discriminate|]). contradiction.
    + rewrite (proj1 H2 eq_refl). split; split; try discriminate; auto; intros [C|C]; [contradiction|]. repeat (destruct C as [C|C]; [discriminate|]). contradiction.
    + rewrite (proj1 H3 eq_refl). split; split; try discriminate; auto; intros [C|C]; [contradiction|]. repeat (destruct C as [C|C]; [discriminate|]). contradiction.
    + rewrite (proj1 H4 eq_refl). split; split; try discriminate; auto; intros [C|C]; [contradiction|]. repeat (destruct C as [C|C]; [discriminate|]). contradiction.
    + rewrite (proj1 H5 eq_refl). split; split; try discriminate; auto; intros [C|C]; [contradiction|]. repeat (destruct C as [C|C]; [discriminate|]). contradiction.
    + rewrite (proj1 H6 eq_refl). split; split; try discriminate; auto; intros [C|C]; [contradiction|]. repeat (destruct C as [C|C]; [discriminate|]). contradiction.
    + pose proof (K _ _ H1 eq_refl). pose proof (K _ _ H2 eq_refl). pose proof (K _ _ H3 eq_refl). pose proof (K _ _ H4 eq_refl).
      pose proof (K _ _ H5 eq_refl). pose proof (K _ _ H6 eq_refl).
      split; split; try discriminate; intros [C|C]; try contradiction; repeat (destruct C as [C|C]; [congruence|]); contradiction.
Qed.
