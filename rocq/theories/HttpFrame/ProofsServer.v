(** The server. *)
From Verif Require Import Lib.Base Lib.Bytes Lib.ListX HttpCodec.Model HttpFrame.Model HttpFrame.Spec HttpFrame.ProofsSplit.
From Coq Require Import Strings.Byte.
Open Scope Z_scope.

Lemma pcl_nonneg v n : parse_content_length v = Some n -> 0 <= n.
Proof.
  unfold parse_content_length. destruct (strtoll v) as [x u].
  destruct (negb (Z.of_nat (length v) =? 0) && (x >=? 0) && (u =? length v)%nat) eqn:E; [|discriminate].
  intros H. injection H as <-. apply andb_prop in E. destruct E as [E _]. apply andb_prop in E. destruct E as [_ E]. lia.
Qed.
Lemma scan_nonneg ck cap f : forall te cl te1 cl1, scan ck cap f te cl = Some (te1, cl1) ->
  (forall n, cl = Some n -> 0 <= n) -> forall n, cl1 = Some n -> 0 <= n.
Proof.
  induction f as [|[k v] f IH]; intros te cl te1 cl1; cbn [scan]; [intros H; injection H as <- <-; auto|].
  destruct (negb te && equals_ignore_case k n_te); [apply IH|].
  destruct (match cl with None => equals_ignore_case k n_cl | Some _ => false end); [|apply IH].
  destruct (parse_content_length v) as [n|] eqn:P; [|discriminate]. destruct (ck && (n >? cap)); [discriminate|].
  intros H _. apply (IH _ _ _ _ H). intros m E. injection E as <-. eapply pcl_nonneg; eauto.
Qed.

Section S.
Variable L : lib.
Hypothesis Law : lawful L.
Variables (mp : Z) (blk : bool).

(** Between the calls. *)
Definition wf (s : st L) : Prop :=
  0 <= expect L s /\ (newr L s = false -> cur L s <> None /\ (chk L s = false -> 0 < expect L s)).

Lemma set_buf_eta s l : buf L s = l -> set_buf L s l = s.
Proof. intros <-. destruct s. reflexivity. Qed.
Lemma set_buf_twice s a b : set_buf L (set_buf L s a) b = set_buf L s b. Proof. reflexivity. Qed.

(** How a head is parsed when more follows. *)
Definition safe (a b : list byte) : Prop := strict (p_head L) \/ blen (a ++ b) <= limit mp.

Lemma head_split a b :
  safe a b ->
  let pa := until a (limit mp + 1) in let pb := until (a ++ b) (limit mp + 1) in
  (blen pa > limit mp -> blen pb > limit mp) /\
  (blen pa <= limit mp -> p_head L pa = HErr -> blen pb > limit mp \/ p_head L pb = HErr) /\
  (blen pa <= limit mp -> forall n f, p_head L pa = HOk n f ->
     blen pb <= limit mp /\ p_head L pb = HOk n f /\ (1 <= n <= length a)%nat).
Proof.
  intros Sf pa pb. assert (M := limit_pos mp). destruct (l_head L Law) as (E1 & E2 & E3 & _).
  assert (Pl : (length pa <= length a)%nat).
  { unfold pa, until. rewrite firstn_length. assert (K := firstn_length). destruct (find_end a); [rewrite firstn_length|]; lia. }
  destruct (find_end a) as [k|] eqn:F.
  - assert (E : pb = pa) by (apply (until_found a b (limit mp + 1) k F); lia). rewrite E.
    split; [auto|]. split; [auto|]. intros B n f H. split; [exact B|]. split; [exact H|]. apply E2 in H. lia.
  - destruct (until_more a b (limit mp + 1) F) as [(C & D & E)|(C & D & z & E)]; [lia| |].
    + fold pa in D. fold pb in E. split; [lia|]. split; intros; lia.
    + fold pa in D. fold pb in E. rewrite E, D. split; [|split].
      * intros; lia.
      * intros _ H. right. apply E3. exact H.
      * intros B n f H. destruct Sf as [Sf|Sf].
        { exfalso. destruct (Sf _ _ _ H) as (x & y & X). apply (find_end_has x y). rewrite <- F, X. reflexivity. }
        assert (R := E2 _ _ _ H). split; [|split; [apply E1; exact H|exact R]].
        assert (Pb : (length pb <= length (a ++ b))%nat).
        { unfold pb, until. rewrite firstn_length. destruct (find_end (a ++ b)); [rewrite firstn_length|]; lia. }
        rewrite E in Pb. unfold blen in *. lia.
Qed.

Lemma header_split s b :
  safe (buf L s) b ->
  match parse_header L mp blk s with
  | PErr _ => parse_header L mp blk (set_buf L s (buf L s ++ b)) = PErr L
  | PMore _ => True
  | POk _ s1 => parse_header L mp blk (set_buf L s (buf L s ++ b)) = POk L (set_buf L s1 (buf L s1 ++ b)) /\
                (length (buf L s1) < length (buf L s))%nat /\
                0 <= expect L s1 /\ newr L s1 = true /\ cur L s1 <> None /\ dst L s1 = d_init L
  end.
Proof.
  intros Sf. destruct (head_split (buf L s) b Sf) as (A & B & C). unfold parse_header. cbn [buf set_buf].
  destruct (blen (buf L s) <? min_request) eqn:Mn; [exact I|].
  assert (Mn2 : blen (buf L s ++ b) <? min_request = false).
  { rewrite blen_app. assert (Y := blen_nonneg b). lia. }
  rewrite Mn2. destruct (blen (until (buf L s) (limit mp + 1)) >? limit mp) eqn:G.
  - replace (blen (until (buf L s ++ b) (limit mp + 1)) >? limit mp) with true by (symmetry; apply Z.gtb_lt; lia). reflexivity.
  - destruct (p_head L (until (buf L s) (limit mp + 1))) as [| |n f] eqn:H.
    + destruct (B ltac:(lia) eq_refl) as [X|X].
      * replace (blen (until (buf L s ++ b) (limit mp + 1)) >? limit mp) with true by (symmetry; apply Z.gtb_lt; lia). reflexivity.
      * rewrite X. destruct (blen (until (buf L s ++ b) (limit mp + 1)) >? limit mp); reflexivity.
    + exact I.
    + destruct (C ltac:(lia) n f eq_refl) as (X & Y & Z0). rewrite Y.
      replace (blen (until (buf L s ++ b) (limit mp + 1)) >? limit mp) with false by lia.
      destruct (scan (negb blk) (limit mp - Z.of_nat n) f false None) as [[t c]|] eqn:Sc; [|reflexivity].
      assert (NN : forall v, c = Some v -> 0 <= v).
      { intros v Ev. eapply (scan_nonneg _ _ _ _ _ _ _ Sc); [|exact Ev]. discriminate. }
      assert (SK : skipn n (buf L s ++ b) = skipn n (buf L s) ++ b).
      { rewrite skipn_app. replace (n - length (buf L s))%nat with 0%nat by lia. reflexivity. }
      assert (SL : (length (skipn n (buf L s)) < length (buf L s))%nat) by (rewrite skipn_length; lia).
      destruct t, c as [v|]; try reflexivity; (split; [unfold set_buf; cbn [buf newr chk expect maxb dst cur fin]; rewrite SK; reflexivity|]);
        cbn [buf newr chk expect maxb dst cur fin]; (split; [exact SL|]); (split; [try (apply NN; reflexivity); lia|]);
        (split; [reflexivity|]); (split; [discriminate|reflexivity]).
Qed.

(** How a body is parsed when more follows. *)
Lemma content_split s b : 0 <= expect L s -> cur L s <> None ->
  match parse_content L blk s with
  | None => parse_content L blk (set_buf L s (buf L s ++ b)) = None
  | Some s1 =>
      wf s1 /\ (length (buf L s1) <= length (buf L s))%nat /\
      if newr L s1 then parse_content L blk (set_buf L s (buf L s ++ b)) = Some (set_buf L s1 (buf L s1 ++ b))
      else buf L s1 = [] /\
           parse_content L blk (set_buf L s (buf L s ++ b)) = parse_content L blk (set_buf L s1 b)
  end.
Proof.
  intros P Cn. unfold parse_content. cbn [buf set_buf chk expect dst cur maxb newr fin].
  destruct (cur L s) as [q|]; [|congruence].
  destruct (take_body L (chk L s) (expect L s) (dst L s) (buf L s)) as [[[[[o full] ex] d] r]|] eqn:T.
  2: { rewrite (take_body_none L _ _ _ _ b T). reflexivity. }
  assert (Rl : (length r <= length (buf L s))%nat).
  { clear -T. unfold take_body in T. destruct (chk L s); cbn [negb] in T.
    - assert (Q : forall l d o r, decode L d l = ODone L o r -> (length r <= length l)%nat).
      { induction l as [|x l IH]; intros d0 o0 r0; cbn [decode]; [discriminate|].
        destruct (d_step L d0 x); [discriminate| |intros H; injection H as <- <-; simpl; lia].
        destruct (decode L d1 l) eqn:E; try discriminate. intros H. injection H as <- <-. apply IH in E. simpl. lia. }
      destruct (decode L (dst L s) (buf L s)) eqn:E; try discriminate; injection T as <- <- <- <- <-; [simpl; lia|].
      eapply Q; eauto.
    - injection T as <- _ _ _ <-. rewrite skipn_length. lia. }
  assert (On := blen_nonneg o).
  destruct full.
  - rewrite (take_body_full L _ _ _ _ b _ _ _ _ P T).
    destruct (blk || (blen (cont q) + blen o <=? maxb L s)) eqn:G; [|reflexivity].
    cbn [buf newr]. split; [|split; [exact Rl|reflexivity]]. split; [|discriminate]. cbn [expect].
    clear -T P. unfold take_body in T. destruct (chk L s); cbn [negb] in T.
    + destruct (decode L (dst L s) (buf L s)); try discriminate. injection T as <- <- <- <-. exact P.
    + assert (N := blen_nonneg (buf L s)). injection T as _ _ <- _ _. lia.
  - destruct (take_body_part L _ _ _ _ b _ _ _ _ P T) as (-> & P1 & P2 & ->).
    destruct (blk || (blen (cont q) + blen o <=? maxb L s)) eqn:G.
    + cbn [buf newr chk expect maxb dst cur fin]. split; [|split; [exact Rl|split; [reflexivity|]]].
      { split; [exact P1|]. intros _. split; [discriminate|exact P2]. }
      destruct (take_body L (chk L s) ex d b) as [[[[[o2 f2] ex2] d2] r2]|]; [|reflexivity].
      cbn [cont pushes flds]. rewrite !app_assoc, !blen_app.
      assert (GG : (blk || (blen (cont q) + (blen o + blen o2) <=? maxb L s)) = (blk || (blen (cont q) + blen o + blen o2 <=? maxb L s))).
      { rewrite Z.add_assoc. reflexivity. }
      rewrite GG. destruct (blk || (blen (cont q) + blen o + blen o2 <=? maxb L s)); [|reflexivity].
      assert (PP : (pushes q + (if (blk && newr L s) || (negb blk && f2) then 1 else 0))%nat =
                   (pushes q + (if (blk && newr L s) || (negb blk && false) then 1 else 0) +
                    (if (blk && false) || (negb blk && f2) then 1 else 0))%nat).
      { destruct blk, (newr L s), f2; simpl; lia. }
      rewrite PP. reflexivity.
    + destruct (take_body L (chk L s) ex d b) as [[[[[o2 f2] ex2] d2] r2]|]; [|reflexivity].
      rewrite blen_app. assert (O2 := blen_nonneg o2). apply orb_false_elim in G. destruct G as [-> G]. simpl.
      replace (blen (cont q) + (blen o + blen o2) <=? maxb L s) with false by lia. reflexivity.
Qed.

(** A body that is not complete makes progress. *)
Lemma content_progress s s1 : wf s -> newr L s = false -> buf L s <> [] -> parse_content L blk s = Some s1 ->
  (length (buf L s1) < length (buf L s))%nat.
Proof.
  intros [W1 W2] N B. destruct (W2 N) as [W3 W4]. unfold parse_content.
  destruct (take_body L (chk L s) (expect L s) (dst L s) (buf L s)) as [[[[[o full] ex] d] r]|] eqn:T; [|discriminate].
  assert (Rl : (length r < length (buf L s))%nat).
  { assert (B1 : (0 < length (buf L s))%nat) by (destruct (buf L s); [congruence|simpl; lia]).
    unfold take_body in T. destruct (chk L s); cbn [negb] in T.
    - assert (Q : forall l d o r, decode L d l = ODone L o r -> (length r < length l)%nat).
      { induction l as [|x l IH]; intros d0 o0 r0; cbn [decode]; [discriminate|].
        destruct (d_step L d0 x); [discriminate| |intros H; injection H as <- <-; simpl; lia].
        destruct (decode L d1 l) eqn:E; try discriminate. intros H. injection H as <- <-. apply IH in E. simpl. lia. }
      destruct (decode L (dst L s) (buf L s)) eqn:E; try discriminate; injection T as <- <- <- <- <-; [simpl; lia|].
      eapply Q; eauto.
    - injection T as <- _ _ _ <-. rewrite skipn_length. specialize (W4 eq_refl). unfold blen. lia. }
  destruct (cur L s) as [q|]; [|discriminate]. destruct (blk || _); [|discriminate].
  intros H. injection H as <-. exact Rl.
Qed.

Lemma content_wf s s1 : 0 <= expect L s -> cur L s <> None -> parse_content L blk s = Some s1 ->
  wf s1 /\ (length (buf L s1) <= length (buf L s))%nat.
Proof.
  intros A B E. assert (X := content_split s [] A B). rewrite E in X. destruct X as (X & Y & _). auto.
Qed.

Lemma round_wf s s1 : wf s -> round L mp blk s = Cont L s1 ->
  wf s1 /\ (length (buf L s1) < length (buf L s))%nat.
Proof.
  intros W E. unfold round in E. destruct (buf L s) as [|x l] eqn:B; [discriminate|]. rewrite <- B in *.
  assert (BN : buf L s <> []) by congruence. destruct (newr L s) eqn:N.
  - destruct (parse_header L mp blk s) as [| |s2] eqn:H; try discriminate.
    assert (HH : safe (buf L s) [] -> _) by (intros Sf; assert (X := header_split s [] Sf); rewrite H in X; exact X).
    assert (H2 : (length (buf L s2) < length (buf L s))%nat /\ 0 <= expect L s2 /\ cur L s2 <> None).
    { clear HH E. unfold parse_header in H. destruct (blen (buf L s) <? min_request); [discriminate|].
      destruct (blen (until (buf L s) (limit mp + 1)) >? limit mp) eqn:G; [discriminate|].
      destruct (p_head L (until (buf L s) (limit mp + 1))) as [| |n f] eqn:P; try discriminate.
      destruct (l_head L Law) as (_ & E2 & _). apply E2 in P.
      assert (Pl : (length (until (buf L s) (limit mp + 1)) <= length (buf L s))%nat).
      { unfold until. rewrite firstn_length. destruct (find_end (buf L s)); [rewrite firstn_length|]; lia. }
      destruct (scan (negb blk) (limit mp - Z.of_nat n) f false None) as [[t c]|] eqn:Sc; [|discriminate].
      assert (NN : forall v, c = Some v -> 0 <= v).
      { intros v Ev. eapply (scan_nonneg _ _ _ _ _ _ _ Sc); [|exact Ev]. discriminate. }
      destruct t, c as [v|]; try discriminate; injection H as <-; cbn [buf expect cur]; rewrite skipn_length;
        (split; [lia|]); (split; [try (apply NN; reflexivity); lia|discriminate]). }
    destruct H2 as (H2 & H3 & H4). destruct (parse_content L blk s2) as [s3|] eqn:C; [|discriminate]. injection E as <-.
    destruct (content_wf s2 s3 H3 H4 C). split; [assumption|lia].
  - destruct (parse_content L blk s) as [s3|] eqn:C; [|discriminate]. injection E as <-.
    destruct W as [W1 W2]. destruct (W2 N) as [W3 W4]. destruct (content_wf s s3 W1 W3 C). split; [assumption|].
    eapply content_progress; eauto. split; auto.
Qed.

Lemma loop_fuel f : forall g s, wf s -> (length (buf L s) < f)%nat -> (length (buf L s) < g)%nat ->
  loop L f mp blk s = loop L g mp blk s.
Proof.
  induction f as [|f IH]; intros g s W A B; [lia|]. destruct g as [|g]; [lia|]. cbn [loop].
  destruct (round L mp blk s) as [| |s1] eqn:R; try reflexivity. destruct (round_wf s s1 W R). apply IH; auto; lia.
Qed.
Lemma loop_ok f : forall s, wf s -> (length (buf L s) < f)%nat -> exists r, loop L f mp blk s = Ok r.
Proof.
  induction f as [|f IH]; intros s W A; [lia|]. cbn [loop].
  destruct (round L mp blk s) as [| |s1] eqn:R; [eauto ..|]. destruct (round_wf s s1 W R). apply IH; auto; lia.
Qed.

(** The loop with more input behind. *)
Definition then_feed (r : out (option (st L))) (b : list byte) : out (option (st L)) :=
  match r with Ok (Some s) => feed L mp blk s b | x => x end.

Lemma feed_loop s b f : wf s -> (length (buf L s ++ b) < f)%nat ->
  feed L mp blk s b = loop L f mp blk (set_buf L s (buf L s ++ b)).
Proof. intros W F. unfold feed. apply loop_fuel; cbn [buf set_buf]; try lia. exact W. Qed.

Lemma loop_app f : forall s b, wf s -> safe (buf L s) b -> (length (buf L s ++ b) < f)%nat ->
  loop L f mp blk (set_buf L s (buf L s ++ b)) = then_feed (loop L f mp blk s) b.
Proof.
  induction f as [|f IH]; intros s b W Sf F; [lia|].
  assert (Fl : (length (buf L s) < S f)%nat) by (rewrite app_length in F; lia).
  cbn [loop]. destruct (round L mp blk s) as [| |s1] eqn:R.
  - (* an error *)
    assert (E : round L mp blk (set_buf L s (buf L s ++ b)) = Fail L); [|rewrite E; reflexivity].
    unfold round in *. destruct (buf L s) as [|x l] eqn:B; [discriminate|]. rewrite <- B in *. cbn [buf set_buf newr].
    replace (match buf L s ++ b with [] => Stop L | _ :: _ =>
      if newr L s then match parse_header L mp blk (set_buf L s (buf L s ++ b)) with
        | PErr _ => Fail L | PMore _ => Stop L
        | POk _ s1 => match parse_content L blk s1 with Some s2 => Cont L s2 | None => Fail L end end
      else match parse_content L blk (set_buf L s (buf L s ++ b)) with Some s2 => Cont L s2 | None => Fail L end end)
      with (if newr L s then match parse_header L mp blk (set_buf L s (buf L s ++ b)) with
        | PErr _ => Fail L | PMore _ => Stop L
        | POk _ s1 => match parse_content L blk s1 with Some s2 => Cont L s2 | None => Fail L end end
      else match parse_content L blk (set_buf L s (buf L s ++ b)) with Some s2 => Cont L s2 | None => Fail L end)
      by (rewrite B; reflexivity).
    destruct (newr L s) eqn:N.
    + assert (H := header_split s b Sf). destruct (parse_header L mp blk s) as [| |s2]; [rewrite H; reflexivity|discriminate|].
      destruct H as (-> & _ & P & _ & Q & _). assert (C := content_split s2 b P Q).
      destruct (parse_content L blk s2); [discriminate|]. rewrite C. reflexivity.
    + destruct W as [W1 W2]. destruct (W2 N) as [W3 _]. assert (C := content_split s b W1 W3).
      destruct (parse_content L blk s); [discriminate|]. rewrite C. reflexivity.
  - (* more is needed *)
    cbn [then_feed]. rewrite (feed_loop s b (S f) W F). reflexivity.
  - assert (R0 := R). destruct (round_wf s s1 W R) as [W1 Ls]. unfold round in R.
    destruct (buf L s) as [|x l] eqn:B; [discriminate|]. rewrite <- B in *.
    set (sb := set_buf L s (buf L s ++ b)).
    (* the content part, from s2 *)
    assert (K : forall s2, 0 <= expect L s2 -> cur L s2 <> None -> (length (buf L s2) <= length (buf L s))%nat ->
      round L mp blk sb = match parse_content L blk (set_buf L s2 (buf L s2 ++ b)) with None => Fail L | Some s3 => Cont L s3 end ->
      parse_content L blk s2 = Some s1 ->
      match round L mp blk sb with Fail _ => Ok None | Stop _ => Ok (Some sb) | Cont _ s3 => loop L f mp blk s3 end
      = then_feed (loop L f mp blk s1) b).
    { intros s2 P Q Le Er Ec. assert (C := content_split s2 b P Q). rewrite Ec in C. destruct C as (_ & Lc & C).
      destruct (newr L s1) eqn:N1.
      - rewrite C in Er. rewrite Er. apply IH; [exact W1| |].
        + destruct Sf as [Sf|Sf]; [left; exact Sf|right]. rewrite blen_app in *. unfold blen in *. lia.
        + rewrite app_length in *. lia.
      - destruct C as [C1 C2]. rewrite C2 in Er. rewrite Er.
        assert (Ls1 : loop L f mp blk s1 = Ok (Some s1)).
        { destruct f as [|f0]; [rewrite app_length in F; lia|]. cbn [loop]. unfold round. rewrite C1. reflexivity. }
        rewrite Ls1. cbn [then_feed]. destruct b as [|y b].
        + assert (Es : set_buf L s1 [] = s1) by (apply set_buf_eta; exact C1). rewrite Es in *.
          assert (Es2 : set_buf L s2 (buf L s2 ++ []) = s2) by (rewrite app_nil_r; apply set_buf_eta; reflexivity).
          rewrite Es2 in C2. rewrite <- C2, Ec. rewrite Ls1. unfold feed. rewrite C1. cbn [app length loop]. unfold round.
          cbn [buf set_buf]. rewrite Es. reflexivity.
        + rewrite (feed_loop s1 (y :: b) (S f) W1) by (rewrite C1; rewrite app_length in F |- *; simpl in *; lia).
          rewrite C1. cbn [app loop]. unfold round at 1. cbn [buf set_buf newr]. rewrite N1.
          destruct (parse_content L blk (set_buf L s1 (y :: b))); reflexivity. }
    destruct (newr L s) eqn:N.
    + assert (H := header_split s b Sf). destruct (parse_header L mp blk s) as [| |s2] eqn:Ph; try discriminate.
      destruct H as (H1 & H2 & P & N2 & Q & _). destruct (parse_content L blk s2) as [s3|] eqn:C; [|discriminate].
      injection R as <-. apply (K s2); auto; [lia|]. unfold round. unfold sb at 1. cbn [buf set_buf].
      unfold sb. rewrite B at 1. cbn [app]. cbn [newr set_buf]. rewrite N. rewrite H1. reflexivity.
    + destruct (parse_content L blk s) as [s3|] eqn:C; [|discriminate]. injection R as <-.
      destruct W as [Wa Wb]. destruct (Wb N) as [Wc Wd].
      apply (K s); auto. unfold round. unfold sb at 1. cbn [buf set_buf]. rewrite B at 1. cbn [app].
      unfold sb. cbn [newr set_buf]. rewrite N. reflexivity.
Qed.

Lemma loop_result f : forall s s1, wf s -> loop L f mp blk s = Ok (Some s1) ->
  wf s1 /\ (length (buf L s1) <= length (buf L s))%nat /\ round L mp blk s1 = Stop L.
Proof.
  induction f as [|f IH]; intros s s1 W E; [discriminate|]. cbn [loop] in E.
  destruct (round L mp blk s) as [| |s2] eqn:R; try discriminate.
  - injection E as <-. split; [exact W|]. split; [lia|exact R].
  - destruct (round_wf s s2 W R) as [W2 Ls]. destruct (IH s2 s1 W2 E) as (A & B & C). split; [assumption|]. split; [lia|exact C].
Qed.

Lemma feed_wf s w : wf s -> exists r, feed L mp blk s w = Ok r /\
  forall s1, r = Some s1 -> wf s1 /\ (length (buf L s1) <= length (buf L s ++ w))%nat /\ round L mp blk s1 = Stop L.
Proof.
  intros W. unfold feed. assert (W0 : wf (set_buf L s (buf L s ++ w))) by exact W.
  destruct (loop_ok (S (length (buf L s ++ w))) (set_buf L s (buf L s ++ w)) W0) as [r R]; [cbn [buf set_buf]; lia|].
  exists r. split; [exact R|]. intros s1 ->. apply loop_result in R; assumption.
Qed.

Lemma feed_app s a b : wf s -> safe (buf L s ++ a) b -> feed L mp blk s (a ++ b) = then_feed (feed L mp blk s a) b.
Proof.
  intros W Sf. rewrite (feed_loop s a (S (length (buf L s ++ a ++ b))) W) by (rewrite !app_length; lia).
  unfold feed at 1. rewrite app_assoc.
  change (set_buf L s ((buf L s ++ a) ++ b)) with (set_buf L (set_buf L s (buf L s ++ a)) (buf L (set_buf L s (buf L s ++ a)) ++ b)).
  apply loop_app; [exact W|exact Sf|]. cbn [buf set_buf]. lia.
Qed.

(** Any number of reads is one. *)
Definition once (s : st L) (ws : list (list byte)) : out (option (st L)) :=
  match ws with [] => Ok (Some s) | _ => feed L mp blk s (concat ws) end.
Lemma serve_once ws : forall s, wf s -> safe (buf L s) (concat ws) -> serve L mp blk s ws = once s ws.
Proof.
  induction ws as [|w ws IH]; intros s W Sf; [reflexivity|]. cbn [serve once concat].
  rewrite feed_app; [|exact W|].
  2: { destruct Sf as [Sf|Sf]; [left; exact Sf|right]. simpl in Sf. rewrite <- app_assoc. exact Sf. }
  destruct (feed_wf s w W) as (r & -> & R). destruct r as [s1|]; [|reflexivity]. destruct (R s1 eq_refl) as (W1 & L1 & Q).
  cbn [then_feed]. rewrite IH; [|exact W1|].
  - destruct ws as [|w2 ws]; [|reflexivity]. cbn [once concat]. 
    unfold feed. rewrite app_nil_r. rewrite set_buf_eta by reflexivity. cbn [loop]. rewrite Q. reflexivity.
  - destruct Sf as [Sf|Sf]; [left; exact Sf|right]. simpl in Sf. rewrite !blen_app in *. rewrite app_length in L1.
    unfold blen in *. lia.
Qed.
End S.
