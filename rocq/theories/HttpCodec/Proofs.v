(** Lemmas about percent encoding, numbers and cookies. *)
From Verif.Lib Require Import Base Bytes ListX Decimal.
From Coq Require Import Strings.Byte Strings.String Lists.List.
From Verif.HttpCodec Require Import Model Spec.
Local Open Scope string_scope.
Local Open Scope list_scope.
Local Open Scope Z_scope.

Lemma rd_app {A} (pre : list A) x post i : i = length pre -> rd (pre ++ x :: post) i = Ok x.
Proof. intros ->. unfold rd. rewrite nth_error_app2 by lia. rewrite Nat.sub_diag. reflexivity. Qed.

Lemma wr_ok {A} size (p : list A) x : (length p < size)%nat -> wr size p x = Ok (p ++ [x]).
Proof. intros H. unfold wr. apply Nat.ltb_lt in H. rewrite H. reflexivity. Qed.

Lemma app_snoc {A} (pre : list A) x post : pre ++ x :: post = (pre ++ [x]) ++ post.
Proof. rewrite <- app_assoc. reflexivity. Qed.

Lemma xdigit_val b : is_xdigit b = true <-> exists v, hex_val b = Some v.
Proof. destruct b; vm_compute; split; intros H; try discriminate; try (destruct H; discriminate); eauto. Qed.

Lemma hex_uint b v : hex_val b = Some v -> hex_to_uint b = v.
Proof. destruct b; vm_compute; intros H; inversion H; reflexivity. Qed.

Lemma hex_byte b v : hex_val b = Some v -> hex_to_byte b = v.
Proof. destruct b; vm_compute; intros H; inversion H; reflexivity. Qed.

(** ** Percent decoding *)
Lemma pd_loop_spec fuel : forall pre rest p,
  (length rest < fuel)%nat -> (length p <= length pre)%nat ->
  pd_loop fuel (pre ++ rest) (length pre) p = Ok (p ++ pct_decode rest).
Proof.
  induction fuel as [|f IH]; intros pre rest p Hf Hp; [lia|]. cbn [pd_loop].
  destruct rest as [|c r].
  - rewrite !app_nil_r, Nat.eqb_refl. reflexivity.
  - rewrite app_length. cbn [length]. cbn [length] in Hf.
    destruct (Nat.eqb_spec (length pre) (length pre + S (length r))); [lia|].
    rewrite (rd_app pre c r) by reflexivity. cbn [bind pct_decode].
    assert (Hw : forall x, wr (length pre + S (length r)) p x = Ok (p ++ [x])) by (intros; apply wr_ok; lia).
    assert (H1 : bind (wr (length pre + S (length r)) p c) (fun p1 => pd_loop f (pre ++ c :: r) (length pre + 1) p1)
                 = Ok (p ++ c :: pct_decode r)).
    { rewrite Hw. cbn [bind]. rewrite (app_snoc pre c r).
      replace (length pre + 1)%nat with (length (pre ++ [c])) by (rewrite app_length; reflexivity).
      rewrite IH; [rewrite <- app_assoc; reflexivity|lia|rewrite !app_length; cbn [length]; lia]. }
    destruct (Byte.eqb c x25); cbn [negb]; [|exact H1].
    destruct r as [|a [|b t]].
    + cbn [length]. replace (length pre + 1 =? length pre + 1)%nat with true by (symmetry; apply Nat.eqb_refl). cbn [negb andb bind]. exact H1.
    + cbn [length]. replace (length pre + 2 =? length pre + 2)%nat with true by (symmetry; apply Nat.eqb_refl).
      rewrite andb_false_r. cbn [bind]. exact H1.
    + cbn [length] in *.
      destruct (Nat.eqb_spec (length pre + 1) (length pre + S (S (S (length t))))); [lia|].
      destruct (Nat.eqb_spec (length pre + 2) (length pre + S (S (S (length t))))); [lia|]. cbn [negb andb].
      assert (Ra : rd (pre ++ c :: a :: b :: t) (length pre + 1) = Ok a).
      { rewrite app_snoc. apply rd_app. rewrite app_length. reflexivity. }
      assert (Rb : rd (pre ++ c :: a :: b :: t) (length pre + 2) = Ok b).
      { rewrite app_snoc, app_snoc. apply rd_app. rewrite !app_length. cbn [length]. lia. }
      rewrite Ra. cbn [bind]. rewrite Rb. clear Ra Rb.
      pose proof (xdigit_val a) as Ha. pose proof (xdigit_val b) as Hb.
      destruct (is_xdigit a).
      2:{ destruct (hex_val a) as [x|] eqn:Ea; [destruct Ha as [_ Ha]; specialize (Ha (ex_intro _ x eq_refl)); discriminate|].
          cbn [bind]. exact H1. }
      destruct Ha as [Ha _]. destruct (Ha eq_refl) as [x Ex]. rewrite Ex.
      cbn [bind]. destruct (is_xdigit b).
      2:{ destruct (hex_val b) as [y|] eqn:Eb; [destruct Hb as [_ Hb]; specialize (Hb (ex_intro _ y eq_refl)); discriminate|].
          exact H1. }
      destruct Hb as [Hb _]. destruct (Hb eq_refl) as [y Ey]. rewrite Ey.
      rewrite (hex_uint _ _ Ex), (hex_uint _ _ Ey). rewrite Hw. cbn [bind].
      replace (Z.shiftl x 4 + y) with (16 * x + y) by (rewrite Z.shiftl_mul_pow2 by lia; lia).
      replace (pre ++ c :: a :: b :: t) with ((pre ++ [c; a; b]) ++ t) by (rewrite <- app_assoc; reflexivity).
      replace (length pre + 3)%nat with (length (pre ++ [c; a; b])) by (rewrite app_length; reflexivity).
      rewrite IH; [rewrite <- app_assoc; reflexivity|lia|rewrite !app_length; cbn [length]; lia].
Qed.

Lemma percent_decode_l s : percent_decode s = Ok (pct_decode s).
Proof. unfold percent_decode. apply (pd_loop_spec (S (length s)) [] s []); cbn; lia. Qed.

(** ** Form decoding *)
Lemma ud_loop_spec fuel : forall pre rest p,
  (length rest < fuel)%nat -> (length p <= length pre)%nat -> well_escaped rest = true ->
  ud_loop fuel (pre ++ rest) (length pre) p = Ok (option_map (app p) (form_decode rest)).
Proof.
  induction fuel as [|f IH]; intros pre rest p Hf Hp He; [lia|]. cbn [ud_loop].
  destruct rest as [|c r].
  - rewrite app_nil_r, Nat.ltb_irrefl. cbn [negb form_decode option_map]. rewrite app_nil_r. reflexivity.
  - rewrite app_length. cbn [length]. cbn [length] in Hf. cbn [well_escaped] in He.
    destruct (Nat.ltb_spec (length pre) (length pre + S (length r))); [|lia]. cbn [negb].
    rewrite (rd_app pre c r) by reflexivity. cbn [bind form_decode].
    assert (Hw : forall x, wr (length pre + S (length r)) p x = Ok (p ++ [x])) by (intros; apply wr_ok; lia).
    assert (H1 : forall x, well_escaped r = true ->
                 bind (wr (length pre + S (length r)) p x) (fun p1 => ud_loop f (pre ++ c :: r) (length pre + 1) p1)
                 = Ok (option_map (app p) (option_map (cons x) (form_decode r)))).
    { intros x Hr. rewrite Hw. cbn [bind]. rewrite (app_snoc pre c r).
      replace (length pre + 1)%nat with (length (pre ++ [c])) by (rewrite app_length; reflexivity).
      rewrite IH; [|lia|rewrite !app_length; cbn [length]; lia|exact Hr].
      destruct (form_decode r); cbn [option_map]; [rewrite <- app_assoc|]; reflexivity. }
    destruct (Byte.eqb c x25).
    2:{ destruct (Byte.eqb c x2b); apply H1; exact He. }
    destruct r as [|a [|b t]]; cbn [length].
    + destruct (Nat.leb_spec (length pre + 3) (length pre + 1)); [lia|]. reflexivity.
    + destruct (Nat.leb_spec (length pre + 3) (length pre + 2)); [lia|]. reflexivity.
    + cbn [length] in *. destruct (Nat.leb_spec (length pre + 3) (length pre + S (S (S (length t))))); [|lia].
      assert (Ra : rd (pre ++ c :: a :: b :: t) (length pre + 1) = Ok a).
      { rewrite app_snoc. apply rd_app. rewrite app_length. reflexivity. }
      assert (Rb : rd (pre ++ c :: a :: b :: t) (length pre + 1 + 1) = Ok b).
      { rewrite app_snoc, app_snoc. apply rd_app. rewrite !app_length. cbn [length]. lia. }
      rewrite Ra. cbn [bind]. rewrite Rb. cbn [bind]. clear Ra Rb.
      destruct (hex_val a) as [x|] eqn:Ea; [|discriminate]. destruct (hex_val b) as [y|] eqn:Eb; [|discriminate].
      rewrite Hw. cbn [bind]. rewrite (hex_byte _ _ Ea), (hex_byte _ _ Eb).
      replace (pre ++ c :: a :: b :: t) with ((pre ++ [c; a; b]) ++ t) by (rewrite <- app_assoc; reflexivity).
      replace (length pre + 2 + 1)%nat with (length (pre ++ [c; a; b])) by (rewrite app_length; cbn [length]; lia).
      rewrite IH; [|lia|rewrite !app_length; cbn [length]; lia|exact He].
      replace (x * 16 + y) with (16 * x + y) by lia.
      destruct (form_decode t); cbn [option_map]; [rewrite <- app_assoc|]; reflexivity.
Qed.

Lemma url_decode_l s : well_escaped s = true -> url_decode s = Ok (form_decode s).
Proof.
  intros H. unfold url_decode. pose proof (ud_loop_spec (S (length s)) [] s []) as E. cbn [app length] in E.
  rewrite E by (auto; lia). destruct (form_decode s); reflexivity.
Qed.

Lemma ud_loop_total fuel : forall pre rest p,
  (length rest < fuel)%nat -> (length p <= length pre)%nat ->
  exists r, ud_loop fuel (pre ++ rest) (length pre) p = Ok r.
Proof.
  induction fuel as [|f IH]; intros pre rest p Hf Hp; [lia|]. cbn [ud_loop].
  destruct rest as [|c r].
  - rewrite app_nil_r, Nat.ltb_irrefl. cbn [negb]. eauto.
  - rewrite app_length. cbn [length]. cbn [length] in Hf.
    destruct (Nat.ltb_spec (length pre) (length pre + S (length r))); [|lia]. cbn [negb].
    rewrite (rd_app pre c r) by reflexivity. cbn [bind].
    assert (Hw : forall x, wr (length pre + S (length r)) p x = Ok (p ++ [x])) by (intros; apply wr_ok; lia).
    assert (H1 : forall x, exists q,
                 bind (wr (length pre + S (length r)) p x) (fun p1 => ud_loop f (pre ++ c :: r) (length pre + 1) p1) = Ok q).
    { intros x. rewrite Hw. cbn [bind]. rewrite (app_snoc pre c r).
      replace (length pre + 1)%nat with (length (pre ++ [c])) by (rewrite app_length; reflexivity).
      apply IH; [lia|rewrite !app_length; cbn [length]; lia]. }
    destruct (Byte.eqb c x25).
    2:{ destruct (Byte.eqb c x2b); apply H1. }
    destruct (Nat.leb_spec (length pre + 3) (length pre + S (length r))) as [Hl|Hl]; [|eauto].
    destruct r as [|a [|b t]]; cbn [length] in *; try lia.
    assert (Ra : rd (pre ++ c :: a :: b :: t) (length pre + 1) = Ok a).
    { rewrite app_snoc. apply rd_app. rewrite app_length. reflexivity. }
    assert (Rb : rd (pre ++ c :: a :: b :: t) (length pre + 1 + 1) = Ok b).
    { rewrite app_snoc, app_snoc. apply rd_app. rewrite !app_length. cbn [length]. lia. }
    rewrite Ra. cbn [bind]. rewrite Rb. cbn [bind]. clear Ra Rb.
    rewrite Hw. cbn [bind].
    replace (pre ++ c :: a :: b :: t) with ((pre ++ [c; a; b]) ++ t) by (rewrite <- app_assoc; reflexivity).
    replace (length pre + 2 + 1)%nat with (length (pre ++ [c; a; b])) by (rewrite app_length; cbn [length]; lia).
    apply IH; [lia|rewrite !app_length; cbn [length]; lia].
Qed.

Lemma url_decode_total_l s : exists r, url_decode s = Ok r.
Proof. apply (ud_loop_total (S (length s)) [] s []); cbn; lia. Qed.

(** ** Encoding *)
Definition keeps (keep : byte -> bool) : Prop := keep x25 = false.

Definition pct_check (b : byte) : bool :=
  match pct b with
  | Ok [c; h; l] => Byte.eqb c x25 && upper_hex h && upper_hex l &&
      match hex_val h, hex_val l with Some x, Some y => Byte.eqb (z2b (16 * x + y)) b | _, _ => false end
  | _ => false
  end.

Lemma pct_check_all b : pct_check b = true.
Proof. destruct b; vm_compute; reflexivity. Qed.

Lemma pct_ok b : exists h l, pct b = Ok [x25; h; l] /\ upper_hex h = true /\ upper_hex l = true /\
  exists x y, hex_val h = Some x /\ hex_val l = Some y /\ z2b (16 * x + y) = b.
Proof.
  pose proof (pct_check_all b) as H. unfold pct_check in H.
  destruct (pct b) as [[|c [|h [|l [|? ?]]]]| | |] eqn:E; try discriminate.
  apply andb_true_iff in H. destruct H as [H H3]. apply andb_true_iff in H. destruct H as [H H2].
  apply andb_true_iff in H. destruct H as [H0 H1].
  destruct (byte_eqb_spec c x25) as [->|]; [|discriminate].
  destruct (hex_val h) as [x|] eqn:Eh; [|discriminate]. destruct (hex_val l) as [y|] eqn:El; [|discriminate].
  exists h, l. repeat split; auto. exists x, y. repeat split; auto.
  destruct (byte_eqb_spec (z2b (16 * x + y)) b); [auto|discriminate].
Qed.

Lemma encode_spec keep s : keeps keep ->
  exists e, encode_with keep s = Ok e /\ pct_string keep e /\ pct_decode e = s /\
    (forallb (fun b => negb (keep b && Byte.eqb b x2b)) s = true -> well_escaped e = true /\ form_decode e = Some s).
Proof.
  intros K. induction s as [|b s IH]; cbn [encode_with].
  - exists []. repeat split; constructor.
  - destruct IH as (e & E & P & D & W). rewrite E. destruct (keep b) eqn:Kb; cbn [bind].
    + exists (b :: e). split; [reflexivity|]. split; [constructor; auto|].
      assert (Nb : Byte.eqb b x25 = false).
      { destruct (byte_eqb_spec b x25) as [->|]; auto. unfold keeps in K. congruence. }
      cbn [app pct_decode well_escaped form_decode forallb]. rewrite Nb, Kb. split; [rewrite D; reflexivity|].
      intros H. apply andb_true_iff in H. destruct H as [H1 H2]. destruct (W H2) as [W1 W2]. cbn [andb negb] in H1.
      rewrite W2. destruct (Byte.eqb b x2b); [discriminate|]. auto.
    + destruct (pct_ok b) as (h & l & Ep & Uh & Ul & x & y & Hh & Hl & Hb). rewrite Ep. cbn [bind].
      exists (x25 :: h :: l :: e). split; [reflexivity|]. split; [apply pct_hex; auto|].
      cbn [pct_decode well_escaped form_decode forallb].
      change (Byte.eqb x25 x25) with true. cbv iota. rewrite Hh, Hl, Hb. split; [rewrite D; reflexivity|].
      intros H. apply andb_true_iff in H. destruct H as [_ H2]. destruct (W H2) as [W1 W2]. rewrite W2. auto.
Qed.

Lemma unreserved_rfc b : unreserved b = rfc_unreserved b.
Proof. destruct b; reflexivity. Qed.

Lemma pct_string_ext f g s : (forall b, f b = g b) -> pct_string f s -> pct_string g s.
Proof. intros H. induction 1; [constructor|apply pct_char; [rewrite <- H|]; auto|apply pct_hex; auto]. Qed.

Lemma percent_round_trip_l s :
  exists e, percent_encode s = Ok e /\ pct_string rfc_unreserved e /\ percent_decode e = Ok s /\ url_decode e = Ok (Some s).
Proof.
  destruct (encode_spec unreserved s eq_refl) as (e & E & P & D & W). exists e. split; [exact E|].
  split; [eapply pct_string_ext; [apply unreserved_rfc|exact P]|]. rewrite percent_decode_l, D. split; [reflexivity|].
  destruct W as [W1 W2]. { apply forallb_forall. intros b _. destruct b; reflexivity. }
  rewrite url_decode_l, W2; auto.
Qed.

Lemma percent_path_round_trip_l s :
  exists e, percent_encode_path s = Ok e /\ percent_decode e = Ok s.
Proof.
  destruct (encode_spec (fun b => unreserved b || sub_delim b || Byte.eqb b x2f) s eq_refl) as (e & E & P & D & W).
  exists e. split; [exact E|]. rewrite percent_decode_l, D. reflexivity.
Qed.

Lemma pct_check2 b : match pct b with
  | Ok [p; h; l] => Byte.eqb p x25 && Byte.eqb h (hex_digit (b2z b / 16)) && Byte.eqb l (hex_digit (b2z b mod 16))
  | _ => false end = true.
Proof. destruct b; vm_compute; reflexivity. Qed.

Lemma pct_triple b : pct b = Ok [x25; hex_digit (b2z b / 16); hex_digit (b2z b mod 16)].
Proof.
  pose proof (pct_check2 b) as H. destruct (pct b) as [[|p [|h [|l [|? ?]]]]| | |]; try discriminate.
  apply andb_true_iff in H. destruct H as [H H3]. apply andb_true_iff in H. destruct H as [H1 H2].
  destruct (byte_eqb_spec p x25); [|discriminate]. destruct (byte_eqb_spec h (hex_digit (b2z b / 16))); [|discriminate].
  destruct (byte_eqb_spec l (hex_digit (b2z b mod 16))); [|discriminate]. subst. reflexivity.
Qed.

Lemma encode_with_l keep allowed s : (forall b, keep b = allowed b) -> encode_with keep s = Ok (pct_encode allowed s).
Proof.
  intros H. induction s as [|b s IH]; [reflexivity|]. cbn [encode_with pct_encode flat_map]. rewrite H, pct_triple, IH.
  destruct (allowed b); reflexivity.
Qed.

Lemma path_allowed_same b : unreserved b || sub_delim b || Byte.eqb b x2f = path_allowed b.
Proof. destruct b; vm_compute; reflexivity. Qed.

Lemma encode_exact_l s : percent_encode s = Ok (pct_encode rfc_unreserved s) /\ percent_encode_path s = Ok (pct_encode path_allowed s).
Proof. split; apply encode_with_l; [intros b; apply unreserved_rfc|apply path_allowed_same]. Qed.

Lemma pct_decode_length : forall k s, (length s <= k)%nat -> (length (pct_decode s) <= length s)%nat.
Proof.
  induction k as [|k IH]; intros s Hs; destruct s as [|c r]; cbn [length pct_decode] in *; try lia.
  assert (Hr : (length (pct_decode r) <= length r)%nat) by (apply IH; lia).
  destruct (Byte.eqb c x25); [|cbn [length]; lia].
  destruct r as [|a [|b t]]; try (cbn [length] in *; lia).
  destruct (hex_val a), (hex_val b); cbn [length] in *; try lia.
  assert ((length (pct_decode t) <= length t)%nat) by (apply IH; lia). lia.
Qed.

(** ** Numbers *)
Lemma fold_digits_mono r : forall n, 0 <= n -> forallb is_digit r = true ->
  n <= fold_left (fun a b => a * 10 + (b2z b - 48)) r n.
Proof.
  induction r as [|b r IH]; intros n Hn Hd; cbn [fold_left]; [lia|].
  cbn [forallb] in Hd. apply andb_true_iff in Hd. destruct Hd as [Hb Hr]. unfold is_digit in Hb.
  specialize (IH (n * 10 + (b2z b - 48))). nia.
Qed.

Lemma pu_loop_spec s : forall n i, 0 <= n <= i64_max -> 0 <= i ->
  exists r, pu_loop s n i = Ok r /\
    match r with
    | None => forallb is_digit s = true -> i64_max < fold_left (fun a b => a * 10 + (b2z b - 48)) s n
    | Some (v, k) => i <= k <= i + Z.of_nat (length s) /\ 0 <= v <= i64_max /\
        (k = i + Z.of_nat (length s) <-> forallb is_digit s = true) /\
        (k = i + Z.of_nat (length s) -> v = fold_left (fun a b => a * 10 + (b2z b - 48)) s n)
    end.
Proof.
  induction s as [|b s IH]; intros n i Hn Hi; cbn [pu_loop].
  - eexists. split; [reflexivity|]. cbn [length forallb fold_left]. repeat split; auto; try lia.
  - change ((48 <=? b2z b) && (b2z b <=? 57)) with (is_digit b). destruct (is_digit b) eqn:Eb.
    + assert (Hb : 48 <= b2z b <= 57) by (unfold is_digit in Eb; lia).
      assert (Hm : i64_max = 9223372036854775807) by reflexivity.
      assert (Hm10 : i64_max / 10 = 922337203685477580) by reflexivity.
      cbn [fold_left forallb]. rewrite Eb. cbn [andb].
      destruct (Z.gtb_spec n (i64_max / 10)) as [H|H].
      { eexists. split; [reflexivity|]. intros Hs. pose proof (fold_digits_mono s (n * 10 + (b2z b - 48))) as M.
        specialize (M ltac:(lia) Hs). lia. }
      unfold i64 at 1. destruct ((- 2 ^ 63 <=? n * 10) && (n * 10 <=? i64_max)) eqn:E1; [|lia]. cbn [bind].
      unfold i64 at 1. destruct ((- 2 ^ 63 <=? i64_max - (b2z b - 48)) && (i64_max - (b2z b - 48) <=? i64_max)) eqn:E2; [|lia].
      cbn [bind]. destruct (Z.gtb_spec (n * 10) (i64_max - (b2z b - 48))) as [H2|H2].
      { eexists. split; [reflexivity|]. intros Hs. pose proof (fold_digits_mono s (n * 10 + (b2z b - 48))) as M.
        specialize (M ltac:(lia) Hs). lia. }
      unfold i64 at 1. destruct ((- 2 ^ 63 <=? n * 10 + (b2z b - 48)) && (n * 10 + (b2z b - 48) <=? i64_max)) eqn:E3; [|lia].
      cbn [bind]. destruct (IH (n * 10 + (b2z b - 48)) (i + 1) ltac:(lia) ltac:(lia)) as (r & E & R).
      exists r. split; [exact E|]. destruct r as [[v k]|]; auto. destruct R as (R1 & R2 & R3 & R4).
      cbn [length]. repeat split; lia.
    + eexists. split; [reflexivity|]. cbn [length forallb]. rewrite Eb. cbn [andb]. repeat split; try lia.
Qed.

Lemma parse_uint_l s :
  parse_uint s = Ok (if all_digits s && (dval s <=? 2 ^ 63 - 1) then dval s else -1).
Proof.
  unfold parse_uint. destruct s as [|b s]; [reflexivity|].
  replace (Z.of_nat (length (b :: s)) =? 0) with false by (symmetry; apply Z.eqb_neq; cbn [length]; lia).
  destruct (pu_loop_spec (b :: s) 0 0) as (r & E & R); [unfold i64_max; lia|lia|].
  rewrite E. cbn [bind]. change (all_digits (b :: s)) with (forallb is_digit (b :: s)).
  change (2 ^ 63 - 1) with i64_max. unfold dval.
  set (v0 := fold_left (fun a b => a * 10 + (b2z b - 48)) (b :: s) 0) in *.
  set (L := Z.of_nat (length (b :: s))) in *. assert (HL : 0 < L) by (unfold L; cbn [length]; lia).
  destruct r as [[v k]|].
  - destruct R as (R1 & R2 & R3 & R4).
    destruct (Z.eqb_spec k 0) as [Hk|Hk].
    + cbn [Z.eqb]. cbn [orb]. destruct (forallb is_digit (b :: s)) eqn:Ed; [|reflexivity].
      destruct R3 as [_ R3]. specialize (R3 eq_refl). lia.
    + replace (v =? -1) with false by (symmetry; apply Z.eqb_neq; lia). cbn [orb].
      destruct (Z.eqb_spec k L) as [H|H]; cbn [negb].
      * destruct R3 as [R3 _]. rewrite R3 by lia. rewrite R4 by lia. cbn [andb].
        rewrite R4 in R2 by lia. destruct (Z.leb_spec v0 i64_max); [reflexivity|lia].
      * destruct (forallb is_digit (b :: s)) eqn:Ed; [|reflexivity]. destruct R3 as [_ R3]. specialize (R3 eq_refl). lia.
  - cbn [Z.eqb orb]. change (-1 =? -1) with true. cbn [orb].
    destruct (forallb is_digit (b :: s)) eqn:Ed; [|reflexivity].
    specialize (R eq_refl). cbn [andb]. destruct (Z.leb_spec v0 i64_max); [lia|reflexivity].
Qed.

Lemma take_digits_all s : forallb is_digit s = true -> take_digits s = s.
Proof.
  induction s as [|b s IH]; cbn [forallb take_digits]; [reflexivity|]. intros H. apply andb_true_iff in H.
  destruct H as [H1 H2]. rewrite H1, IH; auto.
Qed.

(** Digit strings in range are accepted with their value. *)
Lemma content_length_digits_l s : all_digits s = true -> dval s <= 2 ^ 63 - 1 -> parse_content_length s = Some (dval s).
Proof.
  intros Hd Hv. destruct s as [|b s]; [discriminate|]. change (all_digits (b :: s)) with (forallb is_digit (b :: s)) in Hd.
  unfold parse_content_length, strtoll.
  assert (Hb : is_digit b = true) by (cbn [forallb] in Hd; apply andb_true_iff in Hd; apply Hd).
  assert (Sk : skip_spaces (b :: s) = (O, b :: s)).
  { cbn [skip_spaces]. replace (is_space b) with false; [reflexivity|]. clear - Hb. destruct b; vm_compute in Hb |- *; congruence. }
  rewrite Sk.
  replace (Byte.eqb b x2d) with false by (clear - Hb; destruct b; vm_compute in Hb |- *; congruence).
  replace (Byte.eqb b x2b) with false by (clear - Hb; destruct b; vm_compute in Hb |- *; congruence).
  rewrite take_digits_all by exact Hd.
  assert (Hp : 0 <= dval (b :: s)).
  { unfold dval. pose proof (fold_digits_mono (b :: s) 0 ltac:(lia) Hd). lia. }
  unfold saturate, i64_max. cbn [Nat.add]. rewrite Nat.eqb_refl.
  replace (Z.max (- 2 ^ 63) (Z.min (2 ^ 63 - 1) (dval (b :: s)))) with (dval (b :: s)) by lia.
  replace (dval (b :: s) >=? 0) with true by (symmetry; apply Z.geb_le; lia).
  replace (Z.of_nat (length (b :: s)) =? 0) with false by (symmetry; apply Z.eqb_neq; cbn [length]; lia). reflexivity.
Qed.

Lemma content_length_range_l s v : parse_content_length s = Some v -> 0 <= v <= 2 ^ 63 - 1.
Proof.
  unfold parse_content_length. destruct (strtoll s) as [w used] eqn:E. intros H.
  assert (Hs : w <= 2 ^ 63 - 1).
  { unfold strtoll in E. destruct (skip_spaces s) as [k s1]. 
    assert (HS : forall z, saturate z <= 2 ^ 63 - 1) by (intros; unfold saturate, i64_max; lia).
    destruct s1 as [|b1 r1]; [|destruct (Byte.eqb b1 x2d); [|destruct (Byte.eqb b1 x2b)]];
      match type of E with context [take_digits ?x] => destruct (take_digits x) end;
      inversion E; solve [lia | apply HS]. }
  destruct (negb _ && (w >=? 0) && _) eqn:E2; inversion H; subst. apply andb_true_iff in E2. destruct E2 as [E2 _].
  apply andb_true_iff in E2. destruct E2 as [_ E2]. apply Z.geb_le in E2. lia.
Qed.

Lemma skip_spaces_spec s : exists sp t,
  s = sp ++ t /\ skip_spaces s = (length sp, t) /\ Forall (fun b => is_space b = true) sp /\
  (forall b r, t = b :: r -> is_space b = false).
Proof.
  induction s as [|b s IH].
  - exists [], []. repeat split; auto. discriminate.
  - cbn [skip_spaces]. destruct (is_space b) eqn:E.
    + destruct IH as (sp & t & -> & -> & H1 & H2). exists (b :: sp), t. repeat split; auto.
    + exists [], (b :: s). repeat split; auto. intros b' r Hb. congruence.
Qed.
Lemma skip_spaces_app sp t :
  Forall (fun b => is_space b = true) sp -> (forall b r, t = b :: r -> is_space b = false) -> skip_spaces (sp ++ t) = (length sp, t).
Proof.
  intros H Ht. induction H as [|b sp Hb Hs IH]; cbn [app skip_spaces length].
  - destruct t as [|b r]; [reflexivity|]. cbn [skip_spaces]. rewrite (Ht b r eq_refl). reflexivity.
  - rewrite Hb, IH. reflexivity.
Qed.
Lemma take_digits_spec s : exists t, s = take_digits s ++ t /\ forallb is_digit (take_digits s) = true.
Proof.
  induction s as [|b s IH]; [exists []; auto|]. cbn [take_digits]. destruct (is_digit b) eqn:E; [|exists (b :: s); auto].
  destruct IH as (t & H1 & H2). exists t. cbn [app forallb]. rewrite E, H2, <- H1. auto.
Qed.
Lemma is_space_iff b : is_space b = true <-> b2z b = 32 \/ 9 <= b2z b <= 13.
Proof. unfold is_space, in_range. lia. Qed.
Lemma is_digit_iff b : is_digit b = true <-> 48 <= b2z b <= 57.
Proof. unfold is_digit. lia. Qed.
Lemma digits_nonneg d : forallb is_digit d = true -> 0 <= dval d.
Proof. intros H. unfold dval. pose proof (fold_digits_mono d 0 ltac:(lia) H). lia. Qed.
Lemma content_length_iff_l s v : parse_content_length s = Some v <-> loose_number s v.
Proof.
  unfold parse_content_length, loose_number. split.
  - destruct (strtoll s) as [w used] eqn:E. intros H.
    destruct (negb _ && (w >=? 0) && _) eqn:E2; [|discriminate]. injection H as ->.
    apply andb_true_iff in E2. destruct E2 as [E2 E3]. apply andb_true_iff in E2. destruct E2 as [E1 E2].
    apply Z.geb_le in E2. apply Nat.eqb_eq in E3.
    assert (Hne : s <> []) by (intros ->; discriminate E1). clear E1.
    unfold strtoll in E. destruct (skip_spaces_spec s) as (sp & t & Es & Ek & Hsp & Ht). rewrite Ek in E.
    assert (HspZ : Forall (fun b => b2z b = 32 \/ 9 <= b2z b <= 13) sp).
    { eapply Forall_impl; [|exact Hsp]. intros b Hb. apply is_space_iff. exact Hb. }
    assert (G : forall neg sign s2, t = sign ++ s2 -> (neg = true -> sign = [x2d]) ->
       (neg = false -> sign = [] \/ sign = [x2b]) ->
       match take_digits s2 with
       | [] => (0, O)
       | d => (saturate (if neg : bool then - dval d else dval d), (length sp + length sign + length d)%nat)
       end = (v, used) ->
       exists sp sign ds, s = sp ++ sign ++ ds /\ Forall (fun b => b2z b = 32 \/ 9 <= b2z b <= 13) sp /\
         (sign = [] \/ sign = String.list_byte_of_string "+" \/ sign = String.list_byte_of_string "-" /\ dval ds = 0) /\
         ds <> [] /\ Forall (fun b => 48 <= b2z b <= 57) ds /\ v = Z.min (2 ^ 63 - 1) (dval ds)).
    { intros neg sign s2 Hs2 Hn1 Hn2 HE. destruct (take_digits_spec s2) as (u & Hu & Hd).
      destruct (take_digits s2) as [|d0 d] eqn:Ed.
      - injection HE as <- <-. exfalso. destruct s; [congruence|discriminate E3].
      - set (ds := d0 :: d) in *. injection HE as Hv Hused.
        assert (u = []).
        { apply (f_equal (@length byte)) in Es. rewrite Hs2, Hu, !app_length in Es. destruct u; [reflexivity|]. change (length ds) with (S (length d)) in *. cbn [length] in Es, Hused. lia. }
        subst u. rewrite app_nil_r in Hu. pose proof (digits_nonneg ds Hd) as Hpos.
        exists sp, sign, ds. split; [rewrite Es, Hs2, Hu; reflexivity|]. split; [exact HspZ|]. split.
        + destruct neg.
          * right. right. split; [exact (Hn1 eq_refl)|]. unfold saturate, i64_max in Hv. lia.
          * destruct (Hn2 eq_refl) as [->| ->]; auto.
        + split; [subst ds; congruence|]. split.
          * apply Forall_forall. intros b Hb. apply is_digit_iff. rewrite forallb_forall in Hd. auto.
          * destruct neg; unfold saturate, i64_max in Hv; lia. }
    destruct t as [|b r].
    + apply (G false [] []); auto. discriminate.
    + destruct (byte_eqb_spec b x2d) as [->|Hb1]; [|destruct (byte_eqb_spec b x2b) as [->|Hb2]].
      * apply (G true [x2d] r); auto; [discriminate|]. cbn [length]. rewrite Nat.add_1_r. exact E.
      * apply (G false [x2b] r); auto; [discriminate|]. cbn [length]. rewrite Nat.add_1_r. exact E.
      * apply (G false [] (b :: r)); auto; [discriminate|]. cbn [length]. rewrite Nat.add_0_r. exact E.
  - intros (sp & sign & ds & -> & Hsp & Hsign & Hne & Hd & ->).
    assert (Hsp' : Forall (fun b => is_space b = true) sp).
    { eapply Forall_impl; [|exact Hsp]. intros b Hb. apply is_space_iff. exact Hb. }
    assert (Hd' : forallb is_digit ds = true).
    { apply forallb_forall. intros b Hb. apply is_digit_iff. rewrite Forall_forall in Hd. auto. }
    pose proof (digits_nonneg ds Hd') as Hpos.
    destruct ds as [|d0 d]; [congruence|]. set (ds := d0 :: d) in *.
    assert (Hd0 : 48 <= b2z d0 <= 57) by (inversion Hd; assumption).
    assert (Hhead : forall b r, sign ++ ds = b :: r -> is_space b = false).
    { intros b r E. destruct Hsign as [->|[->|[-> _]]].
      - injection E as <- _. destruct (is_space d0) eqn:Es; [|reflexivity]. apply is_space_iff in Es. lia.
      - injection E as <- _. reflexivity.
      - injection E as <- _. reflexivity. }
    unfold strtoll. rewrite skip_spaces_app by assumption.
    assert (Hlen : forall n, n = length (sp ++ sign ++ ds) -> (n =? length (sp ++ sign ++ ds))%nat = true).
    { intros n ->. apply Nat.eqb_refl. }
    assert (Hz : Z.of_nat (length (sp ++ sign ++ ds)) =? 0 = false).
    { apply Z.eqb_neq. rewrite !app_length. subst ds. cbn [length]. lia. }
    rewrite Hz. cbn [negb andb].
    destruct Hsign as [->|[->|[-> H0]]].
    + assert (B1 : Byte.eqb d0 x2d = false) by (destruct (byte_eqb_spec d0 x2d) as [->|_]; [vm_compute in Hd0; intuition congruence|reflexivity]).
      assert (B2 : Byte.eqb d0 x2b = false) by (destruct (byte_eqb_spec d0 x2b) as [->|_]; [vm_compute in Hd0; intuition congruence|reflexivity]).
      cbn [app] in *. assert (Td : take_digits ds = ds) by (apply take_digits_all; exact Hd').
      unfold ds at 1. rewrite B1, B2. cbv iota beta. fold ds. rewrite Td. unfold ds at 1.
      rewrite (proj2 (Z.geb_le _ _)) by (unfold saturate, i64_max; fold ds; lia). cbn [andb].
      rewrite Hlen by (rewrite !app_length; reflexivity). f_equal. unfold saturate, i64_max. fold ds. lia.
    + assert (Hne' : ds <> []) by (subst ds; congruence). clearbody ds.
      change (String.list_byte_of_string "+" ++ ds) with (x2b :: ds) in *. cbv iota beta. change (Byte.eqb x2b x2d) with false.
      change (Byte.eqb x2b x2b) with true. cbv iota beta. rewrite take_digits_all by exact Hd'.
      destruct ds as [|e es]; [congruence|].
      rewrite (proj2 (Z.geb_le _ _)) by (unfold saturate, i64_max; lia). cbn [andb].
      rewrite Hlen by (rewrite !app_length; cbn [length]; lia). f_equal. unfold saturate, i64_max. lia.
    + assert (Hne' : ds <> []) by (subst ds; congruence). clearbody ds.
      change (String.list_byte_of_string "-" ++ ds) with (x2d :: ds) in *. cbv iota beta. change (Byte.eqb x2d x2d) with true.
      cbv iota beta. rewrite take_digits_all by exact Hd'.
      destruct ds as [|e es]; [congruence|].
      rewrite (proj2 (Z.geb_le _ _)) by (unfold saturate, i64_max; lia). cbn [andb].
      rewrite Hlen by (rewrite !app_length; cbn [length]; lia). f_equal. unfold saturate, i64_max. lia.
Qed.

(** ** Cookies *)
Lemma present_nonempty l : present l = nonempty l.
Proof. destruct l; reflexivity. Qed.

Lemma cookie_l date now c : ck_same_site c <> 2 -> cookie_to_string date now c = cookie_spec date now c.
Proof.
  intros H. unfold cookie_to_string, cookie_spec, to_string0, to_string1, append_same_site, same_site_attr, opt_attr, quoted.
  rewrite !present_nonempty.
  destruct c as [ver name value comment domain path secure age http same].
  cbn [ck_version ck_name ck_value ck_comment ck_domain ck_path ck_secure ck_max_age ck_http_only ck_same_site] in *.
  destruct (nonempty name), (nonempty value); cbn [negb orb andb]; try (destruct (ver =? 0); reflexivity).
  destruct (ver =? 0).
  - destruct (Z.eqb_spec same 1), (Z.eqb_spec same 2), (Z.eqb_spec same 3); try lia; cbn [orb];
      destruct (nonempty domain), (nonempty path), (age =? -1), secure, http; cbn [negb app concat];
      rewrite <- ?app_assoc, ?app_nil_r; reflexivity.
  - destruct (Z.eqb_spec same 1), (Z.eqb_spec same 2), (Z.eqb_spec same 3); try lia; cbn [orb];
      destruct (nonempty comment), (nonempty domain), (nonempty path), (age =? -1), secure, http; cbn [negb app concat];
      rewrite <- ?app_assoc, ?app_nil_r; cbn [app]; rewrite <- ?app_assoc, ?app_nil_r; reflexivity.
Qed.

Lemma e_eq : str "=" = [x3d]. Proof. reflexivity. Qed.
Lemma e_domain : str "; domain=" = s_domain0. Proof. reflexivity. Qed.
Lemma e_path : str "; path=" = s_path0. Proof. reflexivity. Qed.
Lemma e_expires : str "; expires=" = s_expires0. Proof. reflexivity. Qed.
Lemma e_lax : str "; SameSite=Lax" = s_same_lax. Proof. reflexivity. Qed.

Lemma cookie_lax_l date now c : ck_same_site c = 2 -> ck_version c = 0 -> ck_secure c = false -> ck_http_only c = false ->
  cookie_to_string date now c <> cookie_spec date now c \/ cookie_spec date now c = [].
Proof.
  intros H V S O. unfold cookie_to_string, cookie_spec, to_string0, append_same_site, same_site_attr, opt_attr.
  rewrite V, H, S, O, !present_nonempty, e_eq, e_domain, e_path, e_expires, e_lax. change (0 =? 0) with true. change (2 =? 1) with false. change (2 =? 2) with true. cbn [orb].
  destruct (nonempty (ck_name c)), (nonempty (ck_value c)); cbn [negb orb andb]; auto. left. intros E.
  apply (f_equal (@List.length byte)) in E.
  assert (L : (0 < List.length s_same_strict)%nat) by (cbn; lia).
  destruct (nonempty (ck_domain c)), (nonempty (ck_path c)), (ck_max_age c =? -1); cbn [negb app concat] in E;
    repeat (rewrite app_length in E || cbn [List.length] in E); lia.
Qed.

Lemma normalize_url_l s : normalize_url s =
  Ok match s with a :: r :: t => if Byte.eqb (last s x00) x2f then removelast s else s | _ => s end.
Proof.
  unfold normalize_url. destruct s as [|a [|b t]]; try reflexivity.
  change (List.length (a :: b :: t) <? 2)%nat with false. cbv iota.
  assert (R : rd (a :: b :: t) (List.length (a :: b :: t) - 1) = Ok (last (a :: b :: t) x00)).
  { destruct (exists_last (l := a :: b :: t) ltac:(discriminate)) as (l & x & E). rewrite E, last_last, app_length.
    cbn [List.length]. apply rd_app. lia. }
  rewrite R. cbn [bind]. destruct (Byte.eqb (last (a :: b :: t) x00) x2f); [|reflexivity]. cbn [negb].
  rewrite removelast_firstn_len. reflexivity.
Qed.
