(** Rejected input and bounded memory. *)
From Verif Require Import Lib.Base Lib.Bytes Lib.Decimal Lib.ListX HttpCodec.Model HttpFrame.Model HttpFrame.Spec.
From Verif Require Import HttpFrame.ProofsSplit HttpFrame.ProofsServer HttpFrame.ProofsMsg.
From Coq Require Import Strings.Byte.
Open Scope Z_scope.

(** What strtoll takes. *)
Lemma take_digits_all s b : In b (take_digits s) -> is_digit b = true.
Proof.
  induction s as [|x s IH]; simpl; [tauto|]. destruct (is_digit x) eqn:D; simpl; [|tauto]. intros [<-|H]; auto.
Qed.
Lemma take_digits_pre s : exists r, s = take_digits s ++ r.
Proof.
  induction s as [|x s [r IH]]; simpl; [exists []; reflexivity|]. destruct (is_digit x); [|eexists; reflexivity].
  exists r. simpl. congruence.
Qed.
Lemma skip_spaces_eq s : forall k t, skip_spaces s = (k, t) -> exists w, s = w ++ t /\ length w = k /\ Forall (fun b => is_space b = true) w.
Proof.
  induction s as [|x s IH]; simpl; intros k t.
  - intros H. injection H as <- <-. exists []. repeat constructor.
  - destruct (is_space x) eqn:E.
    + destruct (skip_spaces s) as [k1 t1]. intros H. injection H as <- <-. destruct (IH _ _ eq_refl) as (w & -> & <- & F).
      exists (x :: w). repeat constructor; auto.
    + intros H. injection H as <- <-. exists []. repeat constructor.
Qed.
Lemma foreign_ok b : foreign b -> is_digit b = false /\ is_space b = false /\ Byte.eqb b x2d = false /\ Byte.eqb b x2b = false.
Proof.
  unfold foreign. intros (A & B & C & D & E).
  assert (E1 : forall c, b2z b <> b2z c -> Byte.eqb b c = false).
  { intros c N. destruct (Byte.eqb b c) eqn:Q; [|reflexivity]. apply Byte.byte_dec_bl in Q. congruence. }
  change 43 with (b2z x2b) in B. change 45 with (b2z x2d) in C.
  split; [|split; [|split; apply E1; assumption]].
  - unfold is_digit, in_range. lia.
  - unfold is_space, in_range. lia.
Qed.
Lemma foreign_number v : (v = [] \/ exists b, In b v /\ foreign b) -> parse_content_length v = None.
Proof.
  intros [-> |(b & Hb & F)]; [reflexivity|]. apply foreign_ok in F. destruct F as (F1 & F2 & F3 & F4).
  unfold parse_content_length, strtoll. destruct (skip_spaces v) as [k s1] eqn:Sk. apply skip_spaces_eq in Sk.
  destruct Sk as (w & -> & <- & Fw).
  assert (In1 : In b s1).
  { apply in_app_or in Hb. destruct Hb as [Hb|Hb]; [|exact Hb]. rewrite Forall_forall in Fw. apply Fw in Hb. congruence. }
  assert (K : forall k1 s2 neg, In b s2 -> (k1 + length s2 = length (w ++ s1))%nat ->
    (let '(v0, used) := match take_digits s2 with [] => (0, O) | d => (saturate (if neg : bool then - dval d else dval d), (k1 + length d)%nat) end in
     if negb (Z.of_nat (length (w ++ s1)) =? 0) && (v0 >=? 0) && (used =? length (w ++ s1))%nat then Some v0 else None) = None).
  { intros k1 s2 neg I2 Ln. destruct (take_digits_pre s2) as [r Er].
    assert (Lt : (length (take_digits s2) < length s2)%nat).
    { rewrite Er at 2. rewrite app_length. destruct r as [|y r]; [|simpl; lia].
      rewrite app_nil_r in Er. rewrite Er in I2. apply take_digits_all in I2. congruence. }
    destruct (take_digits s2) as [|d0 d]; cbv beta iota zeta.
    - destruct (0%nat =? length (w ++ s1))%nat eqn:Q; [|rewrite andb_false_r; reflexivity].
      apply Nat.eqb_eq in Q. simpl in Lt. lia.
    - match goal with |- (if _ && ?q then _ else _) = _ => destruct q eqn:Q end; [|rewrite andb_false_r; reflexivity].
      apply Nat.eqb_eq in Q. simpl in Q, Lt. lia. }
  destruct s1 as [|c s2]; [destruct In1|].
  destruct (Byte.eqb c x2d) eqn:M.
  - assert (I2 : In b s2) by (destruct In1 as [<-|X]; [congruence|exact X]).
    apply (K _ s2 true I2). rewrite app_length. simpl. lia.
  - destruct (Byte.eqb c x2b) eqn:P.
    + assert (I2 : In b s2) by (destruct In1 as [<-|X]; [congruence|exact X]).
      apply (K _ s2 false I2). rewrite app_length. simpl. lia.
    + apply (K _ (c :: s2) false In1). rewrite app_length. reflexivity.
Qed.

Section B.
Variable L : lib.
Hypothesis Law : lawful L.
Variables (mp : Z) (blk : bool).

Lemma fail_header s w : idle L s -> w <> [] -> parse_header L mp blk (set_buf L s w) = PErr L -> feed L mp blk s w = Ok None.
Proof.
  intros (I1 & I2 & I3 & I4) Nn E. unfold feed. rewrite I1. cbn [app loop]. unfold round. cbn [buf set_buf].
  destruct w as [|x l]; [congruence|]. change (newr L (set_buf L s (x :: l))) with (newr L s). rewrite I2, E. reflexivity.
Qed.

Lemma fail_head s hb f e : idle L s -> p_head L hb = HOk (length hb) f -> 16 <= size hb <= room mp ->
  regular (p_head L) mp (hb ++ e) ->
  (scan (negb blk) (room mp - size hb) f false None = None \/
   exists n, scan (negb blk) (room mp - size hb) f false None = Some (true, Some n)) ->
  feed L mp blk s (hb ++ e) = Ok None.
Proof.
  intros I0 H [Z1 Z2] R Sc.
  assert (Hh := head_of (p_head L) mp hb f e (l_head L Law) H Z2 R). cbv zeta in Hh. destruct Hh as [H1 H2].
  apply fail_header; [exact I0| |].
  - destruct hb; [simpl in Z1; unfold size in Z1; simpl in Z1; lia|discriminate].
  - unfold parse_header. cbn [buf set_buf].
    assert (Ln : blen (hb ++ e) <? min_request = false).
    { rewrite blen_app. assert (X := blen_nonneg e). unfold min_request. change (size hb) with (blen hb) in Z1. lia. }
    rewrite Ln. replace (blen (until (hb ++ e) (limit mp + 1)) >? limit mp) with false by lia. rewrite H2, limit_room.
    change (Z.of_nat (length hb)) with (size hb). destruct Sc as [-> |[n ->]]; reflexivity.
Qed.

Lemma bad_feed s input : idle L s -> bad (p_head L) mp blk input -> regular (p_head L) mp input ->
  feed L mp blk s input = Ok None.
Proof.
  intros I0 [hb f e H Zs T C|hb f e v l H Zs C V|hb f e v l n Nb H Zs C D Sn G|b Nm G Zs] R.
  - apply (fail_head s hb f e I0 H Zs R). rewrite scan_eq. destruct (cl f) as [|v l]; [congruence|].
    destruct (parse_content_length v) as [n|]; [|auto]. destruct (negb blk && (n >? room mp - size hb)); [auto|].
    right. exists n. destruct (te f); [congruence|reflexivity].
  - apply (fail_head s hb f e I0 H Zs R). rewrite scan_eq, C, (foreign_number v V). auto.
  - apply (fail_head s hb f e I0 H Zs R). rewrite scan_eq, C. destruct (decnum_parse v n D Sn) as [-> _].
    replace (negb blk && (n >? room mp - size hb)) with true; [auto|]. rewrite Nb. cbn [negb andb]. symmetry. apply Z.gtb_lt. lia.
  - apply fail_header; [exact I0|destruct b; [unfold size in Zs; simpl in Zs; lia|discriminate]|].
    unfold parse_header. cbn [buf set_buf]. replace (blen b <? min_request) with false by (unfold min_request, blen; unfold size in Zs; lia).
    assert (Fe : find_end b = None).
    { destruct (find_end b) as [k|] eqn:K; [exfalso|reflexivity].
      assert (X : exists x y, b = x ++ crlf ++ crlf ++ y).
      { clear -K. revert k K. induction b as [|c b IH]; intros k; cbn [find_end].
        - destruct (starts marker []) eqn:S0; discriminate.
        - destruct (starts marker (c :: b)) eqn:S0.
          + intros _. apply starts_split in S0. destruct S0 as [y ->]. exists [], y. reflexivity.
          + destruct (find_end b) as [j|]; [|discriminate]. intros _. destruct (IH j eq_refl) as (x & y & ->).
            exists (c :: x), y. reflexivity. }
      destruct X as (x & y & X). exact (Nm x y X). }
    rewrite (until_none b _ Fe). assert (Lp := limit_pos mp). rewrite limit_room in *.
    replace (blen (firstn (Z.to_nat (Z.min (room mp + 1) (blen b))) b) >? room mp) with true; [reflexivity|].
    symmetry. apply Z.gtb_lt. unfold blen. rewrite firstn_length. unfold size in G. lia.
Qed.

Lemma serve_app a : forall s b, serve L mp blk s (a ++ b) =
  match serve L mp blk s a with Ok (Some s1) => serve L mp blk s1 b | r => r end.
Proof.
  induction a as [|w a IH]; intros s b; [reflexivity|]. cbn [app serve]. destruct (feed L mp blk s w) as [[s1|]| | |]; try reflexivity.
  apply IH.
Qed.

Lemma reject_l ms input ws : Forall (well_formed (p_head L)) ms -> Forall (fits mp blk) ms -> bad (p_head L) mp blk input ->
  concat ws = concat (map bytes_of ms) ++ input -> regular (p_head L) mp (concat ws) ->
  serve L mp blk (st_init L) ws = Ok None.
Proof.
  intros W F B E R.
  assert (E2 : concat ws = concat (map bytes_of ms ++ [input])) by (rewrite E, concat_app; simpl; rewrite app_nil_r; reflexivity).
  destruct (split_l L Law mp blk ws _ E2 R) as [-> _].
  assert (R1 : regular (p_head L) mp (concat (map bytes_of ms)) /\ regular (p_head L) mp input).
  { rewrite E in R. destruct R as [R|R]; [split; left; exact R|]. unfold size in R. rewrite app_length in R. split; right; unfold size; lia. }
  destruct R1 as [R1 R2].
  destruct (serve_msgs L Law mp blk ms (st_init L) (idle_init L) W F R1) as (s & S1 & I0 & _).
  rewrite serve_app, S1. cbn [serve]. rewrite (bad_feed s input I0 B R2). reflexivity.
Qed.
End B.

(** Memory. *)
Section M.
Variable L : lib.
Hypothesis Law : lawful L.
Variable mp : Z.

Definition bound (s : st L) : Prop :=
  (forall q, In q (fin L s) -> blen (cont q) < limit mp) /\
  (forall q, cur L s = Some q -> blen (cont q) < limit mp) /\ (newr L s = false -> maxb L s < limit mp).

Lemma bound_content s s1 : bound s -> maxb L s < limit mp -> parse_content L false s = Some s1 -> bound s1.
Proof.
  intros (B1 & B2 & _) Mb. unfold parse_content.
  destruct (take_body L (chk L s) (expect L s) (dst L s) (buf L s)) as [[[[[o full] ex] d] r]|]; [|discriminate].
  destruct (cur L s) as [q|]; [|discriminate]. cbn [orb]. destruct (blen (cont q) + blen o <=? maxb L s) eqn:G; [|discriminate].
  intros H. injection H as <-. unfold bound. cbn [fin cur newr maxb].
  set (q1 := {| flds := flds q; cont := cont q ++ o; eof := full; pushes := _ |}).
  assert (Q : blen (cont q1) < limit mp) by (unfold q1; cbn [cont]; rewrite blen_app; lia).
  split; [|split].
  - destruct full; [|exact B1]. intros z Hz. apply in_app_or in Hz. destruct Hz as [Hz|[<-|[]]]; [apply B1; exact Hz|exact Q].
  - destruct full; [discriminate|]. intros z Hz. injection Hz as <-. exact Q.
  - intros _. exact Mb.
Qed.

Lemma bound_round s s1 : bound s -> round L mp false s = Cont L s1 -> bound s1.
Proof.
  intros B R. unfold round in R. destruct (buf L s) as [|x l]; [discriminate|]. destruct (newr L s) eqn:N.
  - unfold parse_header in R. destruct (blen (buf L s) <? min_request); [discriminate|].
    destruct (blen (until (buf L s) (limit mp + 1)) >? limit mp); [discriminate|].
    destruct (p_head L (until (buf L s) (limit mp + 1))) as [| |n f] eqn:H; try discriminate.
    assert (N1 : (1 <= n)%nat) by (destruct (l_head L Law) as (_ & E2 & _); apply E2 in H; lia).
    assert (Lp := limit_pos mp).
    destruct (scan (negb false) (limit mp - Z.of_nat n) f false None) as [[t c]|]; [|discriminate].
    assert (K : forall s2 : st L, fin L s2 = fin L s -> cur L s2 = Some {| flds := f; cont := []; eof := false; pushes := 0 |} ->
      maxb L s2 <= limit mp - Z.of_nat n ->
      match parse_content L false s2 with Some s3 => Cont L s3 | None => Fail L end = Cont L s1 -> bound s1).
    { intros s2 F2 C2 M2 E. destruct (parse_content L false s2) as [s3|] eqn:P; [|discriminate]. injection E as <-.
      apply (bound_content s2); [| lia|exact P]. destruct B as (B1 & B2 & _). split; [rewrite F2; exact B1|]. split.
      - rewrite C2. intros q Q. injection Q as <-. unfold blen. simpl. lia.
      - intros _. lia. }
    destruct t, c as [v|]; try discriminate; (eapply K; [| | |exact R]); try reflexivity; cbn [maxb]; lia.
  - destruct B as (B1 & B2 & B3). destruct (parse_content L false s) as [s2|] eqn:P; [|discriminate]. injection R as <-.
    apply (bound_content s); [split; auto|auto|exact P].
Qed.

Lemma bound_loop f : forall s s1, bound s -> loop L f mp false s = Ok (Some s1) -> bound s1.
Proof.
  induction f as [|f IH]; intros s s1 B; cbn [loop]; [discriminate|].
  destruct (round L mp false s) as [| |s2] eqn:R; [discriminate|intros H; injection H as <-; exact B|].
  apply IH. exact (bound_round s s2 B R).
Qed.

Lemma stop_buf s : wf L s -> round L mp false s = Stop L -> blen (buf L s) <= Z.max 15 (limit mp).
Proof.
  intros W R. assert (Lp := limit_pos mp). unfold round in R. destruct (buf L s) as [|x l] eqn:Eb; [unfold blen; simpl; lia|]. rewrite <- Eb in *.
  destruct (newr L s) eqn:N.
  - unfold parse_header in R. destruct (blen (buf L s) <? min_request) eqn:Mn; [unfold min_request in Mn; lia|].
    destruct (blen (until (buf L s) (limit mp + 1)) >? limit mp) eqn:G; [discriminate|].
    destruct (find_end (buf L s)) as [k|] eqn:K.
    + exfalso. destruct (l_head L Law) as (_ & _ & _ & E4).
      assert (X : exists x0, until (buf L s) (limit mp + 1) = x0 ++ crlf ++ crlf).
      { unfold until in *. rewrite K in *. rewrite firstn_all2.
        2: { unfold blen in *. rewrite !firstn_length in *. assert (Q := find_end_le _ _ K). lia. }
        clear -K. revert k K. generalize (buf L s) as b. induction b as [|c b IH]; intros k; cbn [find_end].
        - destruct (starts marker []) eqn:S0; discriminate.
        - destruct (starts marker (c :: b)) eqn:S0.
          + intros H. injection H as <-. apply starts_split in S0. destruct S0 as [y ->]. exists []. reflexivity.
          + destruct (find_end b) as [j|]; [|discriminate]. intros H. injection H as <-.
            destruct (IH j eq_refl) as [x0 X]. exists (c :: x0). simpl. rewrite X. reflexivity. }
      destruct X as [x0 X]. rewrite X in R. specialize (E4 x0). destruct (p_head L (x0 ++ crlf ++ crlf)) as [| |n f]; [discriminate|congruence|].
      destruct (scan (negb false) (limit mp - Z.of_nat n) f false None) as [[t c]|]; [|discriminate].
      destruct t, c as [v|]; try discriminate;
        (match type of R with match ?p with _ => _ end = _ => destruct p end); discriminate.
    + rewrite (until_none _ _ K) in G. unfold blen in *. rewrite firstn_length in G. lia.
  - destruct (parse_content L false s); discriminate.
Qed.

Lemma bounded_l ws s : serve L mp false (st_init L) ws = Ok (Some s) ->
  (forall q, In q (fin L s) \/ cur L s = Some q -> size (cont q) < room mp) /\
  size (buf L s) <= Z.max 15 (room mp).
Proof.
  assert (G : forall ws s0 s, wf L s0 -> bound s0 -> blen (buf L s0) <= Z.max 15 (limit mp) -> serve L mp false s0 ws = Ok (Some s) ->
    bound s /\ blen (buf L s) <= Z.max 15 (limit mp)).
  { clear ws s. induction ws as [|w ws IH]; intros s0 s W B Bf E; cbn [serve] in E; [injection E as <-; auto|].
    destruct (feed_wf L Law mp false s0 w W) as (r & Fe & K). rewrite Fe in E. destruct r as [s1|]; [|discriminate].
    destruct (K s1 eq_refl) as (W1 & _ & R1). apply (IH s1 s W1); [|exact (stop_buf s1 W1 R1)|exact E].
    unfold feed in Fe. apply bound_loop in Fe; [exact Fe|exact B]. }
  intros E. destruct (idle_init L) as (_ & _ & _ & I4). apply G in E; [|exact I4| |].
  - destruct E as [(E1 & E2 & _) E3]. rewrite limit_room in *. split; [|exact E3]. intros q [Q|Q]; [apply E1|apply E2]; exact Q.
  - split; [intros q []|]. split; discriminate.
  - unfold blen. simpl. assert (Lp := limit_pos mp). lia.
Qed.
End M.
