(** Proofs about time-outs, integers in headers and content types. *)
From Verif.Lib Require Import Base Bytes ListX Decimal.
From Verif.Strings Require Import Model.
From Verif.Strings Require Proofs ProofsNum.
From Verif.Grpc Require Import Model Spec.
From Coq Require Import Strings.Byte Lists.List.
Import ListNotations.
Local Open Scope Z_scope.
Local Open Scope out_scope.
Local Open Scope list_scope.

(** ** Reading a number at the front of a text *)
Definition no_digit (l : list byte) : Prop := match l with [] => True | b :: _ => ~ 48 <= b2z b <= 57 end.

Lemma take_digits_app ds rest : digits ds -> no_digit rest -> take_digits (ds ++ rest) = ds.
Proof.
  intros H N. induction H as [|b ds Hb H IH]; cbn [app take_digits].
  - destruct rest as [|b r]; [reflexivity|]. cbn [no_digit] in N. cbn [take_digits]. destruct (is_digit b) eqn:E; auto. apply ProofsNum.is_digit_iff in E. contradiction.
  - rewrite (proj2 (ProofsNum.is_digit_iff b) Hb), IH. reflexivity.
Qed.

Lemma take_digits_rest s : no_digit (skipn (length (take_digits s)) s).
Proof.
  induction s as [|b s IH]; cbn [take_digits]; [exact I|]. destruct (is_digit b) eqn:E; cbn [length skipn]; auto.
  cbn [no_digit]. intros Q. apply ProofsNum.is_digit_iff in Q. congruence.
Qed.

Lemma scan_front s neg v rest : scan s = Some (neg, v, rest) <->
  exists ws sg ds k, s = ws ++ sg ++ ds ++ rest /\ white ws /\ signed sg k /\ k = (if neg then -1 else 1) /\ ds <> [] /\ digits ds /\ no_digit rest /\ v = number ds.
Proof.
  split.
  - intros H. unfold scan in H. destruct (ProofsNum.skip_space_spec s) as (ws & Ew & Hw). set (s1 := skip_space s) in *. clearbody s1.
    assert (D : forall sg k n s2, s1 = sg ++ s2 -> signed sg k -> k = (if n : bool then -1 else 1) ->
      match take_digits s2 with [] => None | d => Some (n, dval d, skipn (length d) s2) end = Some (neg, v, rest) ->
      exists ws sg ds k, s = ws ++ sg ++ ds ++ rest /\ white ws /\ signed sg k /\ k = (if neg then -1 else 1) /\ ds <> [] /\ digits ds /\ no_digit rest /\ v = number ds).
    { intros sg k n s2 E1 Hs Hk Q. destruct (ProofsNum.take_digits_spec s2) as [D1 D2]. pose proof (take_digits_rest s2) as D3.
      destruct (take_digits s2) as [|d ds] eqn:Ed; [discriminate|]. inversion Q; subst neg v rest. exists ws, sg, (d :: ds), k.
      repeat split; auto; [congruence|discriminate|]. symmetry. apply ProofsNum.number_dval. }
    destruct s1 as [|b r]; [discriminate|]. destruct (byte_eqb_spec b x2d) as [->|Nm]; [|destruct (byte_eqb_spec b x2b) as [->|Np]].
    + eapply (D [x2d] (-1) true r); auto. constructor.
    + eapply (D [x2b] 1 false r); auto. constructor.
    + eapply (D [] 1 false (b :: r)); auto. constructor.
  - intros (ws & sg & ds & k & -> & Hw & Hs & Hk & Nd & Hd & Hr & ->). unfold scan. destruct ds as [|d ds]; [congruence|].
    pose proof (take_digits_app _ _ Hd Hr) as T. pose proof (Proofs.skipn_len (d :: ds) rest) as SL.
    assert (Hd0 : 48 <= b2z d <= 57) by (inversion Hd; auto).
    assert (S1 : skip_space (ws ++ sg ++ (d :: ds) ++ rest) = sg ++ (d :: ds) ++ rest).
    { apply ProofsNum.skip_space_app; auto. intros b r Q. destruct (is_space b) eqn:Es; auto. apply ProofsNum.is_space_iff in Es.
      destruct Hs; cbn in Q; inversion Q; subst; cbn in Es.
      - repeat (destruct Es as [Es|Es]; [subst; cbn in Hd0; lia|]). contradiction.
      - repeat (destruct Es as [Es|Es]; [discriminate|]). contradiction.
      - repeat (destruct Es as [Es|Es]; [discriminate|]). contradiction. }
    rewrite S1.
    assert (Nd1 : Byte.eqb d x2d = false /\ Byte.eqb d x2b = false).
    { split; [destruct (byte_eqb_spec d x2d)|destruct (byte_eqb_spec d x2b)]; auto; subst; cbn in Hd0; lia. }
    destruct Nd1 as [N1 N2]. change number with Strings.Spec.number. rewrite ProofsNum.number_dval.
    destruct Hs; destruct neg; try lia.
    + cbn [app] in *. rewrite N1, N2, T, SL. reflexivity.
    + cbn [app] in *. change (Byte.eqb x2b x2d) with false. change (Byte.eqb x2b x2b) with true. cbn iota. rewrite T, SL. reflexivity.
    + cbn [app] in *. change (Byte.eqb x2d x2d) with true. cbn iota. rewrite T, SL. reflexivity.
Qed.

(** ** std::stoll on a text that ends in a unit *)
Lemma not_nul ws sg k ds : white ws -> signed sg k -> digits ds -> ~ In x00 (ws ++ sg ++ ds).
Proof.
  intros Hw Hs Hd Q. apply in_app_or in Q. destruct Q as [Q|Q].
  - unfold white in Hw. rewrite Forall_forall in Hw. specialize (Hw _ Q). cbn in Hw. repeat (destruct Hw as [Hw|Hw]; [discriminate|]). exact Hw.
  - apply in_app_or in Q. destruct Q as [Q|Q].
    + destruct Hs; [destruct Q|destruct Q as [Q|[]]; discriminate|destruct Q as [Q|[]]; discriminate].
    + unfold digits in Hd. rewrite Forall_forall in Hd. specialize (Hd _ Q). cbn in Hd. lia.
Qed.

Lemma c_str_keep a b : ~ In x00 a -> b <> x00 -> c_str (a ++ [b]) = a ++ [b].
Proof.
  intros N Nb. rewrite <- (app_nil_r (a ++ [b])) at 1. apply ProofsNum.c_str_app; [|left; auto].
  intros Q. apply in_app_or in Q. destruct Q as [Q|[Q|[]]]; auto.
Qed.

Lemma number_nonneg ds : digits ds -> 0 <= number ds.
Proof.
  intros H. induction H as [|b ds Hb H IH]; cbn [number]; [lia|]. pose proof (Z.pow_nonneg 10 (Z.of_nat (length ds))). nia.
Qed.

Lemma strtoll_fits (neg : bool) v : fits64 (if neg then - v else v) -> strtoll neg v = ((if neg then - v else v), false).
Proof. unfold fits64. intros [H1 H2]. unfold strtoll. set (x := if neg then - v else v) in *. clearbody x. destruct (Z.ltb_spec x (- 2 ^ 63)); [lia|]. destruct (Z.ltb_spec (2 ^ 63 - 1) x); [lia|]. reflexivity. Qed.
Lemma strtoll_big (neg : bool) v : ~ fits64 (if neg then - v else v) -> snd (strtoll neg v) = true.
Proof. unfold fits64. intros H. unfold strtoll. set (x := if neg then - v else v) in *. clearbody x. destruct (Z.ltb_spec x (- 2 ^ 63)); [reflexivity|]. destruct (Z.ltb_spec (2 ^ 63 - 1) x); [reflexivity|]. lia. Qed.

Lemma loose_scan t v u : loose t v u -> exists neg w rest, scan (c_str t) = Some (neg, w, rest) /\ v = (if neg : bool then - w else w) /\
  (length (c_str t) - length rest = length t - 1)%nat /\ nth (length t - 1) t x00 = u.
Proof.
  intros (ws & sg & k & ds & -> & Hw & Hs & Nd & Hd & Hu & ->). pose proof (not_nul _ _ _ _ Hw Hs Hd) as NN.
  assert (Lt : length (ws ++ sg ++ ds ++ [u]) = S (length (ws ++ sg ++ ds))) by (rewrite !app_length; cbn [length]; lia).
  assert (Et : ws ++ sg ++ ds ++ [u] = (ws ++ sg ++ ds) ++ [u]) by (rewrite <- !app_assoc; reflexivity).
  assert (Hk : exists neg : bool, k = if neg then -1 else 1) by (destruct Hs; [exists false|exists false|exists true]; reflexivity).
  destruct Hk as [neg Hk].
  assert (Nt : nth (length (ws ++ sg ++ ds ++ [u]) - 1) (ws ++ sg ++ ds ++ [u]) x00 = u).
  { rewrite Lt, Et. replace (S (length (ws ++ sg ++ ds)) - 1)%nat with (length (ws ++ sg ++ ds)) by lia. apply nth_middle. }
  assert (Ev : k * number ds = (if neg then - number ds else number ds)) by (subst k; destruct neg; lia).
  destruct (byte_eqb_spec u x00) as [->|Nu].
  - exists neg, (number ds), []. assert (Ec : c_str (ws ++ sg ++ ds ++ [x00]) = ws ++ sg ++ ds).
    { rewrite Et. apply ProofsNum.c_str_app; auto. right. eauto. }
    rewrite Ec. split; [|split; [auto|split; [rewrite Lt; cbn [length]; lia|auto]]].
    apply scan_front. exists ws, sg, ds, k. rewrite app_nil_r. repeat split; auto.
  - exists neg, (number ds), [u]. assert (Ec : c_str (ws ++ sg ++ ds ++ [u]) = ws ++ sg ++ ds ++ [u]).
    { rewrite Et. apply c_str_keep; auto. }
    rewrite Ec. split; [|split; [auto|split; [rewrite Lt; cbn [length]; lia|auto]]].
    apply scan_front. exists ws, sg, ds, k. repeat split; auto.
Qed.

Lemma stoll_loose t v u : loose t v u -> fits64 v -> stoll t = Some (v, (length t - 1)%nat) /\ nth (length t - 1) t x00 = u /\ t <> [].
Proof.
  intros H F. pose proof H as (ws & sg & k & ds & E & _). destruct (loose_scan t v u H) as (neg & w & rest & S & V & L & N).
  split; [|split; [auto|]].
  - unfold stoll. rewrite S. subst v. rewrite (strtoll_fits neg w F). cbn [fst snd]. rewrite L. reflexivity.
  - rewrite E. intros Q. apply (f_equal (@length byte)) in Q. rewrite !app_length in Q. cbn in Q. lia.
Qed.

Lemma stoll_inv t v n : stoll t = Some (v, n) -> n = (length t - 1)%nat -> t <> [] -> loose t v (nth n t x00) /\ fits64 v.
Proof.
  intros H En Nt. unfold stoll in H. destruct (scan (c_str t)) as [[[neg w] rest]|] eqn:S; [|discriminate].
  destruct (strtoll neg w) as [x r] eqn:T. destruct r; [discriminate|]. assert (x = v) by congruence. assert (Hn : (length (c_str t) - length rest)%nat = n) by congruence. subst x. clear H.
  apply scan_front in S. destruct S as (ws & sg & ds & k & Ec & Hw & Hs & Hk & Nd & Hd & Hr & ->).
  destruct (ProofsNum.c_str_spec t) as (tail & Et & Ht).
  assert (F : fits64 v /\ v = if neg then - number ds else number ds).
  { unfold strtoll in T. destruct (Z.ltb_spec (if neg then - number ds else number ds) (- 2 ^ 63)); [inversion T|].
    destruct (Z.ltb_spec (2 ^ 63 - 1) (if neg then - number ds else number ds)); [inversion T|]. inversion T. unfold fits64. split; [lia|auto]. }
  destruct F as [F Ev]. split; auto.
  assert (Lt : length t = (length (c_str t) + length tail)%nat) by (rewrite Et at 1; apply app_length).
  assert (Lc : length (c_str t) = (length (ws ++ sg ++ ds) + length rest)%nat) by (rewrite Ec, !app_length; lia).
  assert (Lp : (0 < length t)%nat) by (destruct t; [congruence|cbn; lia]).
  assert (L1 : length (rest ++ tail) = 1%nat) by (rewrite app_length; lia).
  assert (E1 : t = (ws ++ sg ++ ds) ++ rest ++ tail) by (rewrite Et, Ec, <- !app_assoc; reflexivity).
  destruct (rest ++ tail) as [|u [|y q]] eqn:Er; cbn in L1; try lia. clear L1.
  assert (Nu : nth n t x00 = u).
  { rewrite En. rewrite E1. rewrite app_length. cbn [length]. replace (length (ws ++ sg ++ ds) + 1 - 1)%nat with (length (ws ++ sg ++ ds)) by lia. apply nth_middle. }
  rewrite Nu. exists ws, sg, k, ds. repeat split; auto.
  - rewrite E1, <- !app_assoc. reflexivity.
  - destruct rest as [|b r]; cbn in Er.
    + subst tail. destruct Ht as [Ht|[r Ht]]; inversion Ht; subst. cbn. lia.
    + inversion Er; subst. exact Hr.
  - rewrite Ev, Hk. destruct neg; lia.
Qed.

(** ** GrpcTimeoutTextToUS *)
Lemma i64_ok z : fits64 z -> i64 z = Ok z.
Proof. unfold fits64, i64. intros [H1 H2]. destruct (Z.leb_spec (- 2 ^ 63) z); [|lia]. destruct (Z.ltb_spec z (2 ^ 63)); [reflexivity|lia]. Qed.
Lemma i64_ub z : ~ fits64 z -> i64 z = UB.
Proof. unfold fits64, i64. intros H. destruct (Z.leb_spec (- 2 ^ 63) z); [|reflexivity]. destruct (Z.ltb_spec z (2 ^ 63)); [lia|reflexivity]. Qed.
Lemma fits_dec z : fits64 z \/ ~ fits64 z.
Proof. unfold fits64. destruct (Z_le_gt_dec (- 2 ^ 63) z); destruct (Z_lt_ge_dec z (2 ^ 63)); lia. Qed.

Lemma two_steps v a b : 0 < a -> 0 < b -> (fits64 (v * a * b) -> (let! x := i64 (v * a) in i64 (x * b)) = Ok (v * a * b)) /\
  (~ fits64 (v * a * b) -> (let! x := i64 (v * a) in i64 (x * b)) = UB).
Proof.
  intros Ha Hb. split; intros H.
  - rewrite i64_ok; [cbn [bind]; apply i64_ok; auto|]. unfold fits64 in *. nia.
  - destruct (fits_dec (v * a)) as [F|F]; [rewrite i64_ok by auto; cbn [bind]; apply i64_ub; auto|]. rewrite i64_ub by auto. reflexivity.
Qed.

Lemma timeout_eval t v u : loose t v u -> fits64 v -> timeout_text_to_us t =
  (if Byte.eqb u x48 then let! a := i64 (v * 3600) in i64 (a * 1000000)
   else if Byte.eqb u x4d then let! a := i64 (v * 60) in i64 (a * 1000000)
   else if Byte.eqb u x53 then i64 (v * 1000000)
   else if Byte.eqb u x6d then i64 (v * 1000)
   else if Byte.eqb u x75 then Ok v
   else if Byte.eqb u x6e then let! a := i64 (v + 500) in let a := Z.quot a 1000 in Ok (if a =? 0 then 1 else a)
   else Ok (-1)).
Proof.
  intros H F. destruct (stoll_loose t v u H F) as (S & N & Ne). unfold timeout_text_to_us. destruct t as [|c t]; [congruence|].
  rewrite S. rewrite Nat.eqb_refl. cbn [negb]. rewrite N. reflexivity.
Qed.

Lemma timeout_exact t v u k : loose t v u -> fits64 v -> unit_ns u k -> k <> 1 ->
  (fits64 (v * (k / 1000)) -> timeout_text_to_us t = Ok (v * (k / 1000))) /\ (~ fits64 (v * (k / 1000)) -> timeout_text_to_us t = UB).
Proof.
  intros H F U K. rewrite (timeout_eval t v u H F). destruct U; try congruence.
  - change (3600000000000 / 1000) with (3600 * 1000000). cbn [Byte.eqb]. change (Byte.eqb x48 x48) with true. cbn iota. rewrite Z.mul_assoc. apply two_steps; lia.
  - change (60000000000 / 1000) with (60 * 1000000). change (Byte.eqb x4d x48) with false. change (Byte.eqb x4d x4d) with true. cbn iota. rewrite Z.mul_assoc. apply two_steps; lia.
  - change (1000000000 / 1000) with 1000000. change (Byte.eqb x53 x48) with false. change (Byte.eqb x53 x4d) with false. change (Byte.eqb x53 x53) with true. cbn iota. split; [apply i64_ok|apply i64_ub].
  - change (1000000 / 1000) with 1000. change (Byte.eqb x6d x48) with false. change (Byte.eqb x6d x4d) with false. change (Byte.eqb x6d x53) with false. change (Byte.eqb x6d x6d) with true. cbn iota. split; [apply i64_ok|apply i64_ub].
  - change (1000 / 1000) with 1. rewrite Z.mul_1_r. change (Byte.eqb x75 x48) with false. change (Byte.eqb x75 x4d) with false. change (Byte.eqb x75 x53) with false. change (Byte.eqb x75 x6d) with false. change (Byte.eqb x75 x75) with true. cbn iota. split; [auto|contradiction].
Qed.

Lemma timeout_nano t v : loose t v x6e -> fits64 v ->
  (0 <= v -> v + 500 < 2 ^ 63 -> timeout_text_to_us t = Ok (Z.max 1 ((v + 500) / 1000))) /\
  (2 ^ 63 <= v + 500 -> timeout_text_to_us t = UB) /\
  (-1500 < v < 0 -> timeout_text_to_us t = Ok 1) /\
  (v <= -1500 -> timeout_text_to_us t = Ok (- ((- v - 500) / 1000))).
Proof.
  intros H F. rewrite (timeout_eval t v x6e H F).
  change (Byte.eqb x6e x48) with false. change (Byte.eqb x6e x4d) with false. change (Byte.eqb x6e x53) with false. change (Byte.eqb x6e x6d) with false. change (Byte.eqb x6e x75) with false. change (Byte.eqb x6e x6e) with true. cbn iota.
  unfold fits64 in F. split; [|split; [|split]]; intros Hv.
  - intros Hb. rewrite i64_ok by (unfold fits64; lia). cbn [bind]. rewrite Z.quot_div_nonneg by lia. f_equal.
    pose proof (Z.div_pos (v + 500) 1000). destruct (Z.eqb_spec ((v + 500) / 1000) 0); lia.
  - rewrite i64_ub by (unfold fits64; lia). reflexivity.
  - rewrite i64_ok by (unfold fits64; lia). cbn [bind]. replace (Z.quot (v + 500) 1000) with 0; [reflexivity|].
    symmetry. destruct (Z_lt_le_dec (v + 500) 0) as [L|L].
    + replace (v + 500) with (- (- v - 500)) by lia. rewrite Z.quot_opp_l by lia. rewrite Z.quot_small by lia. reflexivity.
    + apply Z.quot_small. lia.
  - rewrite i64_ok by (unfold fits64; lia). cbn [bind].
    assert (E : Z.quot (v + 500) 1000 = - ((- v - 500) / 1000)).
    { replace (v + 500) with (- (- v - 500)) at 1 by lia. rewrite Z.quot_opp_l by lia. rewrite Z.quot_div_nonneg by lia. reflexivity. }
    rewrite E. assert (1 <= (- v - 500) / 1000) by (apply Z.div_le_lower_bound; lia).
    destruct (Z.eqb_spec (- ((- v - 500) / 1000)) 0); [lia|reflexivity].
Qed.

Lemma timeout_none t : (forall v u k, loose t v u -> unit_ns u k -> ~ fits64 v) -> timeout_text_to_us t = Ok (-1).
Proof.
  intros H. unfold timeout_text_to_us. destruct t as [|c t0] eqn:Et; [reflexivity|]. rewrite <- Et in *. assert (Ne : t <> []) by (rewrite Et; discriminate).
  destruct (stoll t) as [[v n]|] eqn:S; [|reflexivity].
  destruct (Nat.eqb_spec n (length t - 1)) as [E|E]; [|reflexivity]. cbn [negb].
  destruct (stoll_inv t v n S E Ne) as [L F]. set (u := nth n t x00) in *.
  assert (Q : forall k, ~ unit_ns u k) by (intros k U; exact (H v u k L U F)). clearbody u.
  destruct (byte_eqb_spec u x48) as [->|]; [exfalso; eapply Q; constructor|].
  destruct (byte_eqb_spec u x4d) as [->|]; [exfalso; eapply Q; constructor|].
  destruct (byte_eqb_spec u x53) as [->|]; [exfalso; eapply Q; constructor|].
  destruct (byte_eqb_spec u x6d) as [->|]; [exfalso; eapply Q; constructor|].
  destruct (byte_eqb_spec u x75) as [->|]; [exfalso; eapply Q; constructor|].
  destruct (byte_eqb_spec u x6e) as [->|]; [exfalso; eapply Q; constructor|]. reflexivity.
Qed.

(** Texts of the protocol. *)
Lemma unit_range u k : unit_ns u k -> 1 <= k <= 3600000000000 /\ (k = 1 -> u = x6e) /\ (k <> 1 -> k = 1000 * (k / 1000)) /\ ~ 48 <= b2z u <= 57.
Proof. intros H. destruct H; (split; [lia|split; [congruence || auto; discriminate|split; [intros; reflexivity || congruence|cbn; lia]]]). Qed.

Lemma number_bound ds : digits ds -> number ds < 10 ^ Z.of_nat (length ds).
Proof.
  intros H. induction H as [|b ds Hb H IH]; cbn [number length]; [cbn; lia|]. rewrite Nat2Z.inj_succ, Z.pow_succ_r by lia.
  pose proof (Z.pow_pos_nonneg 10 (Z.of_nat (length ds))). nia.
Qed.

Lemma proto_loose t ns : timeout_ns t ns -> exists v u k, loose t v u /\ unit_ns u k /\ ns = v * k /\ 0 <= v < 10 ^ 8.
Proof.
  intros (ds & u & k & E & Ne & L & D & U & ->). exists (number ds), u, k. destruct (unit_range u k U) as (_ & _ & _ & Nu).
  split; [|split; [auto|split; [auto|]]].
  - exists [], [], 1, ds. cbn [app]. repeat split; auto; try constructor. lia.
  - pose proof (number_nonneg ds D). pose proof (number_bound ds D). assert (10 ^ Z.of_nat (length ds) <= 10 ^ 8) by (apply Z.pow_le_mono_r; lia). lia.
Qed.

Lemma proto_timeout t ns : timeout_ns t ns -> exists us, timeout_text_to_us t = Ok us /\ to_us ns us /\ 0 <= us <= 360000000000000000.
Proof.
  intros H. destruct (proto_loose t ns H) as (v & u & k & L & U & -> & V). change (10 ^ 8) with 100000000 in V.
  destruct (unit_range u k U) as (R & K1 & K2 & _). assert (F : fits64 v) by (unfold fits64; lia).
  destruct (Z.eq_dec k 1) as [E|E].
  - rewrite (K1 E) in L. destruct (timeout_nano t v L F) as [T _]. rewrite T by lia. eexists. split; [reflexivity|]. subst k. rewrite Z.mul_1_r.
    pose proof (Z.div_mod (v + 500) 1000). pose proof (Z.mod_pos_bound (v + 500) 1000). set (q := (v + 500) / 1000) in *. clearbody q.
    unfold to_us. destruct (Z_lt_le_dec q 1).
    + rewrite Z.max_l by lia. split; [right; lia|lia].
    + rewrite Z.max_r by lia. split; [left; lia|lia].
  - destruct (timeout_exact t v u k L F U E) as [T _]. specialize (K2 E). set (q := k / 1000) in *. clearbody q.
    assert (0 <= v * q <= 360000000000000000) by nia. rewrite T by (unfold fits64; lia). eexists. split; [reflexivity|]. split; [|auto].
    unfold to_us. left. nia.
Qed.

Lemma server_proto t ns : timeout_ns t ns -> exists us, to_us ns us /\ server_timeout t = Ok (Some ((us / 1000) mod 2 ^ 32)).
Proof.
  intros H. destruct (proto_timeout t ns H) as (us & E & T & R). exists us. split; auto. unfold server_timeout. rewrite E. cbn [bind].
  destruct (Z.eqb_spec us (-1)); [lia|]. rewrite Z.quot_div_nonneg by lia. reflexivity.
Qed.

(** Client to server. *)
Lemma client_loose ms : 0 <= ms -> loose (timeout_text ms) ms x6d.
Proof.
  intros H. unfold timeout_text. destruct (dec_nat_spec ms H) as (D & V & Ne & _). exists [], [], 1, (dec_nat ms). cbn [app].
  assert (D' : digits (dec_nat ms)). { eapply Forall_impl; [|exact D]. intros b Q. apply ProofsNum.is_digit_iff in Q. exact Q. }
  repeat split; auto; try constructor; [cbn; lia|]. change number with Strings.Spec.number. rewrite ProofsNum.number_dval. lia.
Qed.

Lemma client_server ms : 0 <= ms < 2 ^ 32 -> server_timeout (timeout_text ms) = Ok (Some ms).
Proof.
  intros H. unfold server_timeout. assert (F : fits64 ms) by (unfold fits64; lia).
  destruct (timeout_exact _ _ _ _ (client_loose ms ltac:(lia)) F u_milli ltac:(lia)) as [T _]. change (1000000 / 1000) with 1000 in T. rewrite T by (unfold fits64; lia).
  cbn [bind]. destruct (Z.eqb_spec (ms * 1000) (-1)); [lia|]. rewrite Z.quot_mul by lia. unfold u32. rewrite Z.mod_small by lia. reflexivity.
Qed.

(** ** GetHeaderInteger *)
Lemma header_decimal x : - 2 ^ 31 <= x < 2 ^ 31 -> header_integer (dec_int x) = Ok (Some x).
Proof.
  intros H. assert (E : exists neg, scan (c_str (dec_int x)) = Some (neg, Z.abs x, []) /\ x = (if neg : bool then - Z.abs x else Z.abs x)).
  { unfold dec_int. destruct (Z.ltb_spec x 0) as [L|L].
    - exists true. destruct (dec_nat_spec (- x) ltac:(lia)) as (D & V & Ne & _).
      assert (D' : digits (dec_nat (- x))). { eapply Forall_impl; [|exact D]. intros b Q. apply ProofsNum.is_digit_iff in Q. exact Q. }
      split; [|lia]. assert (Ec : c_str (x2d :: dec_nat (- x)) = x2d :: dec_nat (- x)).
      { rewrite <- (app_nil_r (x2d :: dec_nat (- x))) at 1. apply ProofsNum.c_str_app; [|left; auto].
        change (x2d :: dec_nat (- x)) with ([] ++ [x2d] ++ dec_nat (- x)). eapply not_nul; try constructor; auto. }
      rewrite Ec. apply scan_front. exists [], [x2d], (dec_nat (- x)), (-1). cbn [app]. rewrite app_nil_r.
      repeat split; auto; try constructor. change number with Strings.Spec.number. rewrite ProofsNum.number_dval. lia.
    - exists false. destruct (dec_nat_spec x L) as (D & V & Ne & _).
      assert (D' : digits (dec_nat x)). { eapply Forall_impl; [|exact D]. intros b Q. apply ProofsNum.is_digit_iff in Q. exact Q. }
      split; [|lia]. assert (Ec : c_str (dec_nat x) = dec_nat x).
      { rewrite <- (app_nil_r (dec_nat x)) at 1. apply ProofsNum.c_str_app; [|left; auto].
        change (dec_nat x) with ([] ++ [] ++ dec_nat x). eapply not_nul; try constructor; auto. }
      rewrite Ec. apply scan_front. exists [], [], (dec_nat x), 1. cbn [app]. rewrite app_nil_r.
      repeat split; auto; try constructor. change number with Strings.Spec.number. rewrite ProofsNum.number_dval. lia. }
  destruct E as (neg & S & V). unfold header_integer, stoll. rewrite S. rewrite strtoll_fits by (unfold fits64; destruct neg; lia).
  destruct (dec_int x) as [|c r] eqn:Ed; [cbn in S; discriminate|]. rewrite <- V.
  destruct (Z.leb_spec (- 2 ^ 31) x); [|lia]. destruct (Z.ltb_spec x (2 ^ 31)); [reflexivity|lia].
Qed.

(** Texts without a number at the front end the process. *)
Lemma header_abort v : v <> [] -> (forall x rest, ~ (exists ws sg k ds, v = ws ++ sg ++ ds ++ rest /\ white ws /\ signed sg k /\ ds <> [] /\ digits ds /\ x = k * number ds)) ->
  header_integer v = Abort.
Proof.
  intros Ne H. unfold header_integer. destruct v as [|c r] eqn:Ev; [congruence|]. rewrite <- Ev in *. unfold stoll.
  destruct (scan (c_str v)) as [[[neg w] rest]|] eqn:S; [|reflexivity]. exfalso.
  apply scan_front in S. destruct S as (ws & sg & ds & k & Ec & Hw & Hs & Hk & Nd & Hd & Hr & ->).
  destruct (ProofsNum.c_str_spec v) as (tail & Et & Ht). apply (H (k * number ds) (rest ++ tail)). exists ws, sg, k, ds. repeat split; auto.
  rewrite Et at 1. rewrite Ec, <- !app_assoc. reflexivity.
Qed.

(** ** GrpcStatusToString *)
Lemma status_ok s : exists i, status_index s = Ok i /\ 0 <= i <= 17 /\ (0 <= s <= 16 -> i = s) /\ (s < 0 \/ 16 < s -> i = 17).
Proof.
  unfold status_index, grpc_max. destruct (Z.ltb_spec s 0); cbn [orb].
  - exists 17. split; [reflexivity|]. lia.
  - destruct (Z.ltb_spec 17 s); cbn [orb].
    + exists 17. split; [reflexivity|]. lia.
    + exists s. destruct (Z.leb_spec 0 s); [|lia]. destruct (Z.ltb_spec s 18); [|lia]. split; [reflexivity|]. lia.
Qed.

(** ** Content types *)
Lemma lower_eq b : HttpCodec.Model.to_lower b = lower b.
Proof. destruct b; reflexivity. Qed.

Lemma ignore_case a b : HttpCodec.Model.equals_ignore_case a b = true <-> map lower a = map lower b.
Proof.
  revert b. induction a as [|x a IH]; destruct b as [|y b]; cbn [HttpCodec.Model.equals_ignore_case map]; try (split; congruence).
  rewrite andb_true_iff, IH, (lower_eq x), (lower_eq y). destruct (byte_eqb_spec (lower x) (lower y)) as [E|E]; split.
  - intros [_ Q]. rewrite E, Q. reflexivity.
  - intros Q. injection Q. auto.
  - intros [Q _]. discriminate.
  - intros Q. injection Q. intros _ Q1. contradiction.
Qed.

Lemma type_json t : content_type_in t = EJson <-> map lower t = text_json.
Proof.
  unfold content_type_in. change text_json with (map lower s_grpc_json).
  destruct (HttpCodec.Model.equals_ignore_case s_grpc t) eqn:E1; cbn [orb].
  - apply ignore_case in E1. rewrite <- E1. split; [discriminate|]. intros Q. vm_compute in Q. discriminate.
  - destruct (HttpCodec.Model.equals_ignore_case s_grpc_proto t) eqn:E2; cbn [orb].
    + apply ignore_case in E2. rewrite <- E2. split; [discriminate|]. intros Q. vm_compute in Q. discriminate.
    + destruct (HttpCodec.Model.equals_ignore_case s_grpc_json t) eqn:E3.
      * apply ignore_case in E3. split; auto.
      * split; [discriminate|]. intros Q. symmetry in Q. apply ignore_case in Q. congruence.
Qed.
Lemma type_proto t : content_type_in t = EProto <-> map lower t <> text_json.
Proof.
  rewrite <- type_json. unfold content_type_in.
  destruct (HttpCodec.Model.equals_ignore_case s_grpc t || HttpCodec.Model.equals_ignore_case s_grpc_proto t); [split; [discriminate|auto]|].
  destruct (HttpCodec.Model.equals_ignore_case s_grpc_json t); split; auto; try discriminate. intros Q. exfalso. apply Q. reflexivity.
Qed.

Lemma enc_cases t : (map lower t = text_gzip /\ encoding_in t = CGzip) \/ (map lower t = text_snappy /\ encoding_in t = CSnappy) \/
  (map lower t = text_zlib /\ encoding_in t = CZlib) \/
  (map lower t <> text_gzip /\ map lower t <> text_snappy /\ map lower t <> text_zlib /\ encoding_in t = CNone).
Proof.
  unfold encoding_in. change text_gzip with (map lower s_gzip). change text_snappy with (map lower s_snappy). change text_zlib with (map lower s_zlib).
  destruct (HttpCodec.Model.equals_ignore_case s_gzip t) eqn:E1; [apply ignore_case in E1; left; auto|right].
  destruct (HttpCodec.Model.equals_ignore_case s_snappy t) eqn:E2; [apply ignore_case in E2; left; auto|right].
  destruct (HttpCodec.Model.equals_ignore_case s_zlib t) eqn:E3; [apply ignore_case in E3; left; auto|right].
  assert (N : forall a, HttpCodec.Model.equals_ignore_case a t = false -> map lower t <> map lower a).
  { intros a Ha Q. symmetry in Q. apply ignore_case in Q. congruence. }
  auto 10.
Qed.
