(** The reader on byte strings: what is consumed, termination, stability, undefined behaviour. *)
From Verif.Lib Require Import Base Bytes ListX Decimal.
From Coq Require Import Strings.Byte.
From Verif.Redis Require Import Model Spec ProofsFlat.
Local Open Scope Z_scope.
Local Open Scope out_scope.

(** ** What is consumed *)
Lemma got_inv {A} (a a' : A) (s s' : text) (k k' : Z) :
  @Ok (res (A * text * Z)) (Got (a, s, k)) = Ok (Got (a', s', k')) -> a = a' /\ s = s' /\ k = k'.
Proof. intros H. repeat split; congruence. Qed.
Lemma fl_integer_got s z s1 k :
  fl_integer s = Ok (Got (z, s1, k)) -> exists a, s = a ++ s1 /\ k = Z.of_nat (length a) /\ 2 <= k.
Proof.
  unfold fl_integer. destruct (seek_newline s) as [len|] eqn:E; [|discriminate].
  destruct (24 <=? len)%nat; [discriminate|]. destruct (convert s len); cbn [bind]; try discriminate.
  intros H. apply got_inv in H; destruct H as (<- & <- & <-). exists (firstn (len + 2) s). rewrite firstn_skipn.
  apply seek_bound in E. rewrite firstn_length. repeat split; lia.
Qed.
Lemma fl_item_got ridx s i s1 k :
  fl_item ridx s = Ok (Got (i, s1, k)) -> exists a, s = a ++ s1 /\ k = Z.of_nat (length a) /\ 3 <= k.
Proof.
  unfold fl_item. destruct s as [|t b]; [discriminate|].
  assert (L : forall mk, match b with [] => Ok More | _ => fl_line mk b end = Ok (Got (i, s1, k)) ->
     exists a, t :: b = a ++ s1 /\ k = Z.of_nat (length a) /\ 3 <= k).
  { intros mk. destruct b as [|y b']; [discriminate|]. unfold fl_line.
    destruct (seek_newline (y :: b')) as [len|] eqn:E; [|discriminate]. intros H.
    assert (E1 : s1 = skipn (len + 2) (y :: b')) by congruence. assert (E2 : k = 1 + (Z.of_nat len + 2)) by congruence.
    exists (t :: firstn (len + 2) (y :: b')). apply seek_bound in E. subst s1 k.
    split; [cbn [app]; rewrite firstn_skipn; reflexivity|]. cbn [length]. rewrite firstn_length. lia. }
  destruct (Byte.eqb t x2d); [apply L|]. destruct (Byte.eqb t x2b); [apply L|]. clear L.
  destruct (Byte.eqb t x3a).
  { destruct b as [|y b']; [discriminate|]. unfold fl_int.
    destruct (fl_integer (y :: b')) as [[[[z s2] k2]| |]| | |] eqn:E; cbn [bind]; try discriminate. intros H.
    destruct (fl_integer_got _ _ _ _ E) as (a & -> & -> & Hk). apply got_inv in H; destruct H as (<- & <- & <-).
    exists (t :: a). cbn [length app]. repeat split; lia. }
  destruct (Byte.eqb t x24).
  { destruct b as [|y b']; [discriminate|]. unfold fl_bulk.
    destruct (fl_integer (y :: b')) as [[[[z s2] k2]| |]| | |] eqn:E; cbn [bind]; try discriminate. intros H.
    destruct (fl_integer_got _ _ _ _ E) as (a & -> & -> & Hk).
    destruct (Z.ltb_spec z 0).
    - apply got_inv in H; destruct H as (<- & <- & <-). exists (t :: a). cbn [length app]. repeat split; lia.
    - destruct (Z.ltb_spec (Z.of_nat (length s2)) (z + 2)); [discriminate|]. apply got_inv in H; destruct H as (<- & <- & <-).
      exists (t :: a ++ firstn (Z.to_nat (z + 2)) s2). cbn [length app].
      rewrite <- app_assoc, firstn_skipn, app_length, firstn_length. repeat split; lia. }
  destruct (Byte.eqb t x2a); [|discriminate].
  destruct b as [|y b']; [discriminate|]. unfold fl_array. destruct (ridx =? 8); [discriminate|].
  destruct (fl_integer (y :: b')) as [[[[z s2] k2]| |]| | |] eqn:E; cbn [bind]; try discriminate. intros H.
  destruct (fl_integer_got _ _ _ _ E) as (a & -> & -> & Hk). apply got_inv in H; destruct H as (<- & <- & <-).
  exists (t :: a). cbn [length app]. repeat split; lia.
Qed.
Lemma fl_serial_got s i s1 k : fl_serial s = Ok (Got (i, s1, k)) -> exists a, s = a ++ s1 /\ k = Z.of_nat (length a).
Proof.
  unfold fl_serial. destruct s as [|t b]; [discriminate|]. destruct (Byte.eqb t x40); cbn [negb].
  - destruct b as [|y b']; [discriminate|].
    destruct (fl_integer (y :: b')) as [[[[z s2] k2]| |]| | |] eqn:E; cbn [bind]; try discriminate. intros H.
    destruct (fl_integer_got _ _ _ _ E) as (a & -> & -> & Hk). apply got_inv in H; destruct H as (<- & <- & <-).
    exists (t :: a). cbn [length app]. split; [reflexivity|lia].
  - intros H. apply got_inv in H; destruct H as (<- & <- & <-). exists []. auto.
Qed.

(** One iteration of the loop. *)
Definition pre_serial (stack : list frame) (s : text) (first : bool) (pipeline : Z) : out (res (Z * text * Z)) :=
  if first || (1 <? pipeline) && (Z.of_nat (length stack) =? 1) then fl_serial s else Ok (Got (0, s, 0)).
Lemma pre_serial_got stack s first p i s1 k :
  pre_serial stack s first p = Ok (Got (i, s1, k)) -> exists a, s = a ++ s1 /\ k = Z.of_nat (length a).
Proof.
  unfold pre_serial. destruct (_ || _); [apply fl_serial_got|]. intros H. apply got_inv in H; destruct H as (<- & <- & <-). exists []. auto.
Qed.
(** What follows an item. *)
Definition after (f : nat) (sn : Z) (i : item) (stack : list frame) (s : text) (consumed pipeline : Z) : out (res (reply * Z)) :=
  match i with
  | IOpen n =>
      if 8 <? Z.of_nat (length stack) + 1 then UB else fl_loop f ((sn, n, []) :: stack) s consumed false pipeline
  | IDone b =>
      match finish stack (Reply sn b) with
      | inr r => Ok (Got (r, consumed))
      | inl stack1 => fl_loop f stack1 s consumed false pipeline
      end
  end.
Lemma fl_loop_S f stack s consumed first pipeline :
  fl_loop (S f) stack s consumed first pipeline =
  match s with
  | [] => Ok More
  | _ =>
      let! x := pre_serial stack s first pipeline in
      match x with
      | More => Ok More
      | Perr => Ok Perr
      | Got (sn, s1, k1) =>
          let! y := fl_item (Z.of_nat (length stack)) s1 in
          match y with
          | More => Ok More
          | Perr => Ok Perr
          | Got (i, s2, k2) => after f sn i stack s2 (consumed + k1 + k2) pipeline
          end
      end
  end.
Proof.
  cbn [fl_loop]. unfold pre_serial, after. destruct s as [|y s]; [reflexivity|].
  match goal with |- bind ?a _ = _ => destruct a as [[[[sn s1] k1]| |]| | |]; cbn [bind]; try reflexivity end.
Qed.

(** Induction principle for the loop: one iteration in terms of the rest. *)
Lemma fl_loop_fuel : forall n f1 f2 stack s consumed first p,
  (length s <= n)%nat -> (length s < f1)%nat -> (length s < f2)%nat ->
  fl_loop f1 stack s consumed first p = fl_loop f2 stack s consumed first p.
Proof.
  induction n as [|n IH]; intros f1 f2 stack s consumed first p Hn H1 H2;
    (destruct f1 as [|f1]; [lia|]); (destruct f2 as [|f2]; [lia|]); rewrite !fl_loop_S;
    (destruct s as [|y s]; [reflexivity|]); [cbn [length] in Hn; lia|].
  destruct (pre_serial stack (y :: s) first p) as [[[[sn s1] k1]| |]| | |] eqn:E1; cbn [bind]; try reflexivity.
  destruct (fl_item _ s1) as [[[[i s2] k2]| |]| | |] eqn:E2; cbn [bind]; try reflexivity.
  destruct (pre_serial_got _ _ _ _ _ _ _ E1) as (a & Ea & _). destruct (fl_item_got _ _ _ _ _ E2) as (b & Eb & Hb & Hk).
  assert (L : (length s2 + 3 <= length (y :: s))%nat).
  { rewrite Ea, Eb, !app_length. lia. }
  unfold after. destruct i as [bd|m].
  - destruct (finish stack (Reply sn bd)); [|reflexivity]. apply IH; lia.
  - destruct (8 <? _); [reflexivity|]. apply IH; lia.
Qed.

Lemma fl_integer_nofuel s : fl_integer s <> NoFuel.
Proof.
  unfold fl_integer. destruct (seek_newline s) as [len|]; [|discriminate]. destruct (24 <=? len)%nat; [discriminate|].
  assert (C : forall s n v, convert_loop s n v <> NoFuel).
  { induction s0 as [|c r IH]; intros [|n] v; cbn [convert_loop]; try discriminate.
    destruct ((0 <=? _) && _); [|discriminate]. destruct (i64_max <? _); [discriminate|].
    destruct (i64_max <? _); [discriminate|]. apply IH. }
  unfold convert. destruct s as [|c r]; [discriminate|].
  destruct (Byte.eqb c x2d); [|destruct (Byte.eqb c x2b)];
    match goal with |- context [convert_loop ?a ?b ?c] => pose proof (C a b c); destruct (convert_loop a b c) end;
    cbn [bind]; congruence.
Qed.
Lemma fl_item_nofuel ridx s : fl_item ridx s <> NoFuel.
Proof.
  unfold fl_item. destruct s as [|t [|y b]]; [discriminate| |].
  - repeat match goal with |- context [if ?x then _ else _] => destruct x end; discriminate.
  - pose proof (fl_integer_nofuel (y :: b)) as N.
    destruct (Byte.eqb t x2d); [unfold fl_line; destruct (seek_newline _); discriminate|].
    destruct (Byte.eqb t x2b); [unfold fl_line; destruct (seek_newline _); discriminate|].
    destruct (Byte.eqb t x3a); [|destruct (Byte.eqb t x24); [|destruct (Byte.eqb t x2a); [|discriminate]]].
    + unfold fl_int. destruct (fl_integer _) as [[[[z s2] k2]| |]| | |]; cbn [bind]; congruence.
    + unfold fl_bulk. destruct (fl_integer _) as [[[[z s2] k2]| |]| | |]; cbn [bind]; try congruence.
      destruct (z <? 0); [discriminate|]. destruct (_ <? _); discriminate.
    + unfold fl_array. destruct (ridx =? 8); [discriminate|].
      destruct (fl_integer _) as [[[[z s2] k2]| |]| | |]; cbn [bind]; congruence.
Qed.
Lemma pre_serial_nofuel stack s first p : pre_serial stack s first p <> NoFuel.
Proof.
  unfold pre_serial. destruct (_ || _); [|discriminate]. unfold fl_serial. destruct s as [|t b]; [discriminate|].
  destruct (negb _); [discriminate|]. destruct b as [|y b]; [discriminate|].
  pose proof (fl_integer_nofuel (y :: b)). destruct (fl_integer (y :: b)) as [[[[z s2] k2]| |]| | |]; cbn [bind]; congruence.
Qed.
Lemma fl_loop_nofuel : forall f stack s consumed first p,
  (length s < f)%nat -> fl_loop f stack s consumed first p <> NoFuel.
Proof.
  induction f as [|f IH]; intros stack s consumed first p Hf; [lia|]. rewrite fl_loop_S.
  destruct s as [|y s]; [discriminate|].
  pose proof (pre_serial_nofuel stack (y :: s) first p) as N1.
  destruct (pre_serial stack (y :: s) first p) as [[[[sn s1] k1]| |]| | |] eqn:E1; cbn [bind]; try congruence.
  pose proof (fl_item_nofuel (Z.of_nat (length stack)) s1) as N2.
  destruct (fl_item _ s1) as [[[[i s2] k2]| |]| | |] eqn:E2; cbn [bind]; try congruence.
  destruct (pre_serial_got _ _ _ _ _ _ _ E1) as (a & Ea & _). destruct (fl_item_got _ _ _ _ _ E2) as (b & Eb & Hb & Hk).
  assert (L : (length s2 + 3 <= length (y :: s))%nat) by (rewrite Ea, Eb, !app_length; lia).
  unfold after. destruct i as [bd|m].
  - destruct (finish stack (Reply sn bd)); [|discriminate]. apply IH; lia.
  - destruct (8 <? _); [discriminate|]. apply IH; lia.
Qed.

Lemma fl_loop_got : forall f stack s consumed first p r k,
  fl_loop f stack s consumed first p = Ok (Got (r, k)) ->
  consumed + 3 <= k <= consumed + Z.of_nat (length s).
Proof.
  induction f as [|f IH]; intros stack s consumed first p r k; [discriminate|]. rewrite fl_loop_S.
  destruct s as [|y s]; [discriminate|].
  destruct (pre_serial stack (y :: s) first p) as [[[[sn s1] k1]| |]| | |] eqn:E1; cbn [bind]; try discriminate.
  destruct (fl_item _ s1) as [[[[i s2] k2]| |]| | |] eqn:E2; cbn [bind]; try discriminate.
  destruct (pre_serial_got _ _ _ _ _ _ _ E1) as (a & Ea & Ka). destruct (fl_item_got _ _ _ _ _ E2) as (b & Eb & Kb & Hk).
  assert (L : Z.of_nat (length (y :: s)) = k1 + k2 + Z.of_nat (length s2)) by (rewrite Ea, Eb, !app_length; lia).
  unfold after. destruct i as [bd|m].
  - destruct (finish stack (Reply sn bd)).
    + intros H. apply IH in H. lia.
    + intros H. injection H as _ <-. lia.
  - destruct (8 <? _); [discriminate|]. intros H. apply IH in H. lia.
Qed.

(** ** More data does not change a verdict *)
Definition settled {A} (o : out (res (A * text * Z))) (t : text) : out (res (A * text * Z)) :=
  match o with Ok (Got (a, s, k)) => Ok (Got (a, s ++ t, k)) | o => o end.
Lemma fl_integer_stable s t : s <> [] -> fl_integer s <> Ok More -> fl_integer (s ++ t) = settled (fl_integer s) t.
Proof.
  unfold fl_integer. intros Hs. destruct (seek_newline s) as [len|] eqn:E; [|congruence]. intros _.
  rewrite (seek_app_some _ _ _ E). destruct (24 <=? len)%nat; [reflexivity|].
  pose proof (seek_bound _ _ E). rewrite convert_app by (auto; lia).
  destruct (convert s len); cbn [bind settled]; try reflexivity. rewrite skipn_lt_app by lia. reflexivity.
Qed.
Lemma fl_line_stable mk s t : fl_line mk s <> Ok More -> fl_line mk (s ++ t) = settled (fl_line mk s) t.
Proof.
  unfold fl_line. destruct (seek_newline s) as [len|] eqn:E; [|congruence]. intros _.
  rewrite (seek_app_some _ _ _ E). pose proof (seek_bound _ _ E). cbn [settled].
  rewrite firstn_lt_app, skipn_lt_app by lia. reflexivity.
Qed.
Lemma fl_item_cons ridx x s :
  s <> [] ->
  fl_item ridx (x :: s) =
    (if Byte.eqb x x2d then fl_line BError s
     else if Byte.eqb x x2b then fl_line BStatus s
     else if Byte.eqb x x3a then fl_int s
     else if Byte.eqb x x24 then fl_bulk s
     else if Byte.eqb x x2a then fl_array ridx s
     else Ok Perr).
Proof. destruct s; [congruence|reflexivity]. Qed.
Lemma fl_item_stable ridx s t : fl_item ridx s <> Ok More -> fl_item ridx (s ++ t) = settled (fl_item ridx s) t.
Proof.
  destruct s as [|x s]; [cbn; congruence|]. destruct s as [|y b].
  - cbn [app]. unfold fl_item. destruct (Byte.eqb x x2d), (Byte.eqb x x2b), (Byte.eqb x x3a), (Byte.eqb x x24), (Byte.eqb x x2a);
      intros H; try congruence; reflexivity.
  - change ((x :: y :: b) ++ t) with (x :: ((y :: b) ++ t)). set (s := y :: b). assert (Hs : s <> []) by (subst s; congruence).
    assert (Hst : s ++ t <> []) by (subst s; cbn [app]; congruence). clearbody s. rewrite !fl_item_cons by assumption.
    destruct (Byte.eqb x x2d); [apply fl_line_stable|]. destruct (Byte.eqb x x2b); [apply fl_line_stable|].
    destruct (Byte.eqb x x3a); [|destruct (Byte.eqb x x24); [|destruct (Byte.eqb x x2a); [|reflexivity]]].
    + unfold fl_int. intros H. rewrite fl_integer_stable by (auto; intros E; rewrite E in H; cbn [bind] in H; congruence).
      destruct (fl_integer s) as [[[[z s2] k2]| |]| | |]; reflexivity.
    + unfold fl_bulk. intros H. rewrite fl_integer_stable by (auto; intros E; rewrite E in H; cbn [bind] in H; congruence).
      destruct (fl_integer s) as [[[[z s2] k2]| |]| | |]; cbn [bind settled] in *; try reflexivity.
      destruct (Z.ltb_spec z 0); [reflexivity|]. rewrite app_length.
      destruct (Z.ltb_spec (Z.of_nat (length s2)) (z + 2)); [congruence|].
      destruct (Z.ltb_spec (Z.of_nat (length s2 + length t)) (z + 2)); [lia|]. cbn [settled].
      rewrite firstn_lt_app, skipn_lt_app by lia. reflexivity.
    + unfold fl_array. destruct (ridx =? 8); [reflexivity|]. intros H.
      rewrite fl_integer_stable by (auto; intros E; rewrite E in H; cbn [bind] in H; congruence).
      destruct (fl_integer s) as [[[[z s2] k2]| |]| | |]; reflexivity.
Qed.
Lemma fl_serial_cons x s :
  s <> [] ->
  fl_serial (x :: s) =
    (if Byte.eqb x x40 then
       let! r := fl_integer s in
       match r with Got (z, s1, k) => Ok (Got (z mod 2 ^ 32, s1, k + 1)) | More => Ok More | Perr => Ok Perr end
     else Ok (Got (0, x :: s, 0))).
Proof. destruct s; [congruence|]. intros _. unfold fl_serial. destruct (Byte.eqb x x40); reflexivity. Qed.
Lemma pre_serial_stable stack s t first p :
  s <> [] -> pre_serial stack s first p <> Ok More -> pre_serial stack (s ++ t) first p = settled (pre_serial stack s first p) t.
Proof.
  unfold pre_serial. intros Hs. destruct (_ || _); [|reflexivity].
  destruct s as [|x [|y b]]; [congruence| |].
  - cbn [app]. unfold fl_serial. destruct (Byte.eqb x x40); cbn [negb]; [congruence|reflexivity].
  - change ((x :: y :: b) ++ t) with (x :: ((y :: b) ++ t)). set (s := y :: b). assert (Hs1 : s <> []) by (subst s; congruence).
    assert (Hst : s ++ t <> []) by (subst s; cbn [app]; congruence). clearbody s. rewrite !fl_serial_cons by assumption.
    destruct (Byte.eqb x x40); [|reflexivity].
    intros H. rewrite fl_integer_stable by (try assumption; intros E; rewrite E in H; cbn [bind] in H; congruence).
    destruct (fl_integer s) as [[[[z s2] k2]| |]| | |]; reflexivity.
Qed.
Lemma fl_loop_stable : forall f1 f2 stack s t consumed first p,
  (length s < f1)%nat -> (length (s ++ t) < f2)%nat ->
  fl_loop f1 stack s consumed first p <> Ok More ->
  fl_loop f2 stack (s ++ t) consumed first p = fl_loop f1 stack s consumed first p.
Proof.
  induction f1 as [|f1 IH]; intros f2 stack s t consumed first p H1 H2; [lia|]. destruct f2 as [|f2]; [lia|].
  rewrite !fl_loop_S. destruct s as [|y s]; [congruence|]. change ((y :: s) ++ t) with (y :: (s ++ t)).
  change (y :: s ++ t) with ((y :: s) ++ t) at 2.
  intros H.
  assert (N : pre_serial stack (y :: s) first p <> Ok More) by (intros E; rewrite E in H; cbn [bind] in H; congruence).
  rewrite pre_serial_stable by (congruence || exact N).
  destruct (pre_serial stack (y :: s) first p) as [[[[sn s1] k1]| |]| | |] eqn:E1; cbn [bind settled] in *; try reflexivity.
  assert (N2 : fl_item (Z.of_nat (length stack)) s1 <> Ok More) by (intros E; rewrite E in H; cbn [bind] in H; congruence).
  rewrite fl_item_stable by exact N2.
  destruct (fl_item _ s1) as [[[[i s2] k2]| |]| | |] eqn:E2; cbn [bind settled] in *; try reflexivity.
  destruct (pre_serial_got _ _ _ _ _ _ _ E1) as (a & Ea & _). destruct (fl_item_got _ _ _ _ _ E2) as (b & Eb & Hb & Hk).
  assert (L : (length s2 + 3 <= length (y :: s))%nat) by (rewrite Ea, Eb, !app_length; lia).
  assert (L2 : (length (s2 ++ t) + 3 <= length ((y :: s) ++ t))%nat) by (rewrite !app_length; lia).
  unfold after in *. destruct i as [bd|m].
  - destruct (finish stack (Reply sn bd)); [|reflexivity]. apply IH; [lia|lia|exact H].
  - destruct (8 <? _); [reflexivity|]. apply IH; [lia|lia|exact H].
Qed.

Lemma fl_reply_stable s t p : fl_reply s p <> Ok More -> fl_reply (s ++ t) p = fl_reply s p.
Proof.
  unfold fl_reply. destruct s as [|y s]; [congruence|]. intros H.
  change ((y :: s) ++ t) with (y :: (s ++ t)). change (y :: s ++ t) with ((y :: s) ++ t).
  apply fl_loop_stable; [lia| |exact H]. cbn [app length]. lia.
Qed.
Lemma fl_reply_nofuel s p : fl_reply s p <> NoFuel.
Proof. unfold fl_reply. destruct s; [discriminate|]. apply fl_loop_nofuel. lia. Qed.
Lemma fl_reply_got s p r k : fl_reply s p = Ok (Got (r, k)) -> 3 <= k <= Z.of_nat (length s).
Proof. unfold fl_reply. destruct s; [discriminate|]. intros H. apply fl_loop_got in H. lia. Qed.

(** ** Undefined behaviour: only integers that do not fit 64 bits *)

Lemma digit_dec c :
  let dec := (if b2z c <? 128 then b2z c else b2z c - 256) - 48 in
  (0 <=? dec) && (dec <? 10) = is_digit c /\ (is_digit c = true -> dec = b2z c - 48).
Proof.
  cbv zeta. unfold is_digit. pose proof (b2z_range c). destruct (Z.ltb_spec (b2z c) 128).
  - split; [|reflexivity].
    destruct (Z.leb_spec 0 (b2z c - 48)), (Z.ltb_spec (b2z c - 48) 10), (Z.leb_spec 48 (b2z c)), (Z.leb_spec (b2z c) 57);
      cbn; try reflexivity; lia.
  - split.
    + destruct (Z.leb_spec 0 (b2z c - 256 - 48)); [lia|]. destruct (Z.leb_spec (b2z c) 57); [lia|].
      rewrite andb_false_r. reflexivity.
    + destruct (Z.leb_spec (b2z c) 57); [lia|]. rewrite andb_false_r. discriminate.
Qed.
Lemma convert_loop_digits s : forall n v,
  0 <= v -> Forall (fun c => is_digit c = true) (firstn n s) -> (n <= length s)%nat ->
  v * 10 ^ Z.of_nat n + dval (firstn n s) <= i64_max ->
  convert_loop s n v = Ok (Some (v * 10 ^ Z.of_nat n + dval (firstn n s))).
Proof.
  induction s as [|c r IH]; intros [|n] v Hv Hd Hl Hm.
  - cbn. f_equal. f_equal. lia.
  - cbn in Hl. lia.
  - cbn. f_equal. f_equal. lia.
  - cbn [firstn] in *. inversion Hd as [|? ? Hc Hr]; subst. cbn [length] in Hl.
    destruct (digit_dec c) as [D1 D2]. cbn [convert_loop].
    change (if b2z c <? 128 then b2z c else b2z c - 256) with (if b2z c <? 128 then b2z c else b2z c - 256) in *.
    cbv zeta. rewrite D1, Hc, (D2 Hc). rewrite dval_cons in *.
    assert (Hln : length (firstn n r) = n) by (rewrite firstn_length; lia). rewrite Hln in *.
    assert (P : 0 < 10 ^ Z.of_nat n) by (apply Z.pow_pos_nonneg; lia).
    assert (Q : 10 ^ Z.of_nat (S n) = 10 * 10 ^ Z.of_nat n) by (rewrite Nat2Z.inj_succ, Z.pow_succ_r by lia; reflexivity).
    assert (D : 0 <= dval (firstn n r)).
    { clear - Hr. induction (firstn n r) as [|x l IHl]; [cbn; lia|]. inversion Hr as [|? ? Hx Hl]; subst. rewrite dval_cons.
      specialize (IHl Hl). unfold is_digit in Hx. apply andb_true_iff in Hx. destruct Hx as [Hx _]. apply Z.leb_le in Hx.
      assert (0 < 10 ^ Z.of_nat (length l)) by (apply Z.pow_pos_nonneg; lia). nia. }
    assert (B : 0 <= b2z c - 48) by (unfold is_digit in Hc; apply andb_true_iff in Hc; destruct Hc as [Hx _]; apply Z.leb_le in Hx; lia).
    assert (V : v * 10 + (b2z c - 48) <= i64_max) by nia.
    destruct (Z.ltb_spec i64_max (v * 10)); [lia|]. destruct (Z.ltb_spec i64_max (v * 10 + (b2z c - 48))); [lia|].
    rewrite IH; [f_equal; f_equal; nia|lia|exact Hr|lia|].
    replace ((v * 10 + (b2z c - 48)) * 10 ^ Z.of_nat n + dval (firstn n r)) with
       (v * 10 ^ Z.of_nat (S n) + ((b2z c - 48) * 10 ^ Z.of_nat n + dval (firstn n r))) by (rewrite Q; ring). exact Hm.
Qed.
(** Undefined only after the digits of a number beyond the limit. *)
Lemma convert_loop_ub s : forall n v,
  0 <= v -> (n <= length s)%nat -> convert_loop s n v = UB ->
  exists d b, s = d ++ b /\ Forall (fun c => is_digit c = true) d /\ i64_max < v * 10 ^ Z.of_nat (length d) + dval d.
Proof.
  induction s as [|c r IH]; intros [|n] v Hv Hl H; cbn [convert_loop] in H; try discriminate; [cbn in Hl; lia|].
  destruct (digit_dec c) as [D1 D2]. cbv zeta in *. rewrite D1 in H.
  destruct (is_digit c) eqn:Hc; [|discriminate]. rewrite (D2 eq_refl) in H.
  assert (B : 0 <= b2z c - 48).
  { clear - Hc. unfold is_digit in Hc. apply andb_true_iff in Hc. destruct Hc as [Hx _]. apply Z.leb_le in Hx. lia. }
  assert (One : i64_max < v * 10 + (b2z c - 48) ->
     exists d b, c :: r = d ++ b /\ Forall (fun c => is_digit c = true) d /\ i64_max < v * 10 ^ Z.of_nat (length d) + dval d).
  { intros Hm. exists [c], r. split; [reflexivity|]. split; [auto|]. rewrite dval_cons. cbn [length]. change (dval []) with 0.
    change (10 ^ Z.of_nat 1) with 10. change (10 ^ Z.of_nat 0) with 1. lia. }
  destruct (Z.ltb_spec i64_max (v * 10)); [apply One; lia|].
  destruct (Z.ltb_spec i64_max (v * 10 + (b2z c - 48))); [apply One; lia|].
  destruct (IH n (v * 10 + (b2z c - 48))) as (d & b & -> & Hd & Hm); [lia|cbn in Hl; lia|exact H|].
  exists (c :: d), b. split; [reflexivity|]. split; [constructor; auto|]. rewrite dval_cons. cbn [length].
  rewrite Nat2Z.inj_succ, Z.pow_succ_r by lia. nia.
Qed.
Lemma dval_bound d : Forall (fun c => is_digit c = true) d -> 0 <= dval d < 10 ^ Z.of_nat (length d).
Proof.
  induction 1 as [|c d Hc Hd IH]; [cbn; lia|]. rewrite dval_cons. cbn [length]. rewrite Nat2Z.inj_succ, Z.pow_succ_r by lia.
  unfold is_digit in Hc. apply andb_true_iff in Hc. destruct Hc as [H1 H2]. apply Z.leb_le in H1, H2. nia.
Qed.

Lemma convert_ub s n : s <> [] -> (n <= length s)%nat -> convert s n = UB -> digit_run s.
Proof.
  intros Hs Hn H.
  assert (G : forall pre t m, s = pre ++ t -> (m <= length t)%nat -> convert_loop t m 0 = UB -> digit_run s).
  { intros pre t m -> Hm Hc. destruct (convert_loop_ub t m 0 ltac:(lia) Hm Hc) as (d & b & -> & Hd & Hv).
    exists pre, d, b. split; [reflexivity|]. split.
    { eapply Forall_impl; [|exact Hd]. intros c Hx. unfold is_digit in Hx. apply andb_true_iff in Hx.
      destruct Hx as [H1 H2]. apply Z.leb_le in H1, H2. lia. }
    pose proof (dval_bound d Hd) as [_ Hb].
    destruct (Nat.le_gt_cases 19 (length d)) as [|Hlt]; [assumption|].
    assert (Hp : 10 ^ Z.of_nat (length d) <= 10 ^ 18) by (apply Z.pow_le_mono_r; lia).
    assert (Hi : 10 ^ 18 <= i64_max) by (vm_compute; discriminate). lia. }
  destruct s as [|c r]; [congruence|]. cbn [convert length] in *.
  destruct (Byte.eqb c x2d); [|destruct (Byte.eqb c x2b)].
  - destruct (convert_loop r (n - 1) 0) eqn:E; cbn [bind] in H; try discriminate.
    apply (G [c] r (n - 1)%nat eq_refl); [lia|exact E].
  - destruct (convert_loop r (n - 1) 0) eqn:E; cbn [bind] in H; try discriminate.
    apply (G [c] r (n - 1)%nat eq_refl); [lia|exact E].
  - destruct (convert_loop (c :: r) n 0) eqn:E; cbn [bind] in H; try discriminate.
    apply (G [] (c :: r) n eq_refl); [cbn [length]; lia|exact E].
Qed.
Lemma digit_run_app a s : digit_run s -> digit_run (a ++ s).
Proof. intros (x & d & b & -> & H). exists (a ++ x), d, b. split; [rewrite <- !app_assoc; reflexivity|exact H]. Qed.
Lemma fl_integer_ub s : s <> [] -> fl_integer s = UB -> digit_run s.
Proof.
  unfold fl_integer. intros Hs. destruct (seek_newline s) as [len|] eqn:E; [|discriminate].
  destruct (24 <=? len)%nat; [discriminate|]. destruct (convert s len) eqn:C; cbn [bind]; try discriminate. intros _.
  apply (convert_ub s len); auto. apply seek_bound in E. lia.
Qed.
Lemma fl_item_ub ridx s : fl_item ridx s = UB -> digit_run s.
Proof.
  unfold fl_item. destruct s as [|x b]; [discriminate|]. intros H.
  apply (digit_run_app [x] b). destruct b as [|y b].
  - exfalso. destruct (Byte.eqb x x2d), (Byte.eqb x x2b), (Byte.eqb x x3a), (Byte.eqb x x24), (Byte.eqb x x2a); discriminate.
  - apply fl_integer_ub; [congruence|].
    destruct (Byte.eqb x x2d); [unfold fl_line in H; destruct (seek_newline _); discriminate|].
    destruct (Byte.eqb x x2b); [unfold fl_line in H; destruct (seek_newline _); discriminate|].
    destruct (Byte.eqb x x3a); [|destruct (Byte.eqb x x24); [|destruct (Byte.eqb x x2a); [|discriminate]]].
    + unfold fl_int in H. destruct (fl_integer _) as [[[[z s2] k2]| |]| | |]; cbn [bind] in H; congruence.
    + unfold fl_bulk in H. destruct (fl_integer _) as [[[[z s2] k2]| |]| | |]; cbn [bind] in H; try congruence.
      destruct (z <? 0); [discriminate|]. destruct (_ <? _); discriminate.
    + unfold fl_array in H. destruct (ridx =? 8); [discriminate|].
      destruct (fl_integer _) as [[[[z s2] k2]| |]| | |]; cbn [bind] in H; congruence.
Qed.
Lemma pre_serial_ub stack s first p : pre_serial stack s first p = UB -> digit_run s.
Proof.
  unfold pre_serial. destruct (_ || _); [|discriminate]. unfold fl_serial. destruct s as [|x b]; [discriminate|].
  destruct (negb _); [discriminate|]. destruct b as [|y b]; [discriminate|]. intros H. apply (digit_run_app [x] (y :: b)).
  apply fl_integer_ub; [congruence|]. destruct (fl_integer _) as [[[[z s2] k2]| |]| | |]; cbn [bind] in H; congruence.
Qed.
Lemma fl_item_open ridx s n s1 k : fl_item ridx s = Ok (Got (IOpen n, s1, k)) -> ridx <> 8.
Proof.
  unfold fl_item. destruct s as [|x [|y b]]; [discriminate| |].
  - destruct (Byte.eqb x x2d), (Byte.eqb x x2b), (Byte.eqb x x3a), (Byte.eqb x x24), (Byte.eqb x x2a); discriminate.
  - destruct (Byte.eqb x x2d); [unfold fl_line; destruct (seek_newline _); discriminate|].
    destruct (Byte.eqb x x2b); [unfold fl_line; destruct (seek_newline _); discriminate|].
    destruct (Byte.eqb x x3a); [|destruct (Byte.eqb x x24); [|destruct (Byte.eqb x x2a); [|discriminate]]].
    + unfold fl_int. destruct (fl_integer _) as [[[[z s2] k2]| |]| | |]; cbn [bind]; congruence.
    + unfold fl_bulk. destruct (fl_integer _) as [[[[z s2] k2]| |]| | |]; cbn [bind]; try congruence.
      destruct (z <? 0); [discriminate|]. destruct (_ <? _); discriminate.
    + unfold fl_array. destruct (Z.eqb_spec ridx 8); [discriminate|auto].
Qed.
Lemma finish_length stack : forall r st, finish stack r = inl st -> (length st <= length stack)%nat.
Proof.
  induction stack as [|[[sn n] d] rest IH]; intros r st H; cbn in H; [discriminate|].
  destruct (_ =? _).
  - apply IH in H. cbn [length]. lia.
  - injection H as <-. cbn [length]. lia.
Qed.
Lemma fl_loop_ub : forall f stack s consumed first p,
  (length stack <= 8)%nat -> fl_loop f stack s consumed first p = UB -> digit_run s.
Proof.
  induction f as [|f IH]; intros stack s consumed first p Hst; [discriminate|]. rewrite fl_loop_S.
  destruct s as [|y s]; [discriminate|].
  destruct (pre_serial stack (y :: s) first p) as [[[[sn s1] k1]| |]| | |] eqn:E1; cbn [bind]; try discriminate.
  2:{ intros _. eapply pre_serial_ub; eauto. }
  destruct (pre_serial_got _ _ _ _ _ _ _ E1) as (a & Ea & _). rewrite Ea.
  destruct (fl_item _ s1) as [[[[i s2] k2]| |]| | |] eqn:E2; cbn [bind]; try discriminate.
  2:{ intros _. apply digit_run_app. eapply fl_item_ub; eauto. }
  destruct (fl_item_got _ _ _ _ _ E2) as (b & Eb & Hb & Hk). rewrite Eb.
  intros H. apply digit_run_app, digit_run_app.
  unfold after in H. destruct i as [bd|m].
  - destruct (finish stack (Reply sn bd)) as [st|] eqn:F; [|discriminate]. apply finish_length in F.
    eapply IH; [|exact H]. lia.
  - apply fl_item_open in E2. destruct (Z.ltb_spec 8 (Z.of_nat (length stack) + 1)); [lia|].
    eapply IH; [|exact H]. cbn [length]. lia.
Qed.
Lemma fl_reply_ub s p : fl_reply s p = UB -> digit_run s.
Proof.
  unfold fl_reply. destruct s as [|y s]; [discriminate|]. apply fl_loop_ub. unfold start.
  destruct (1 <? p); cbn [length]; lia.
Qed.
