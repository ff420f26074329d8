(** What a client refuses. *)
From Verif Require Import Lib.Base Lib.Bytes Lib.ListX HttpCodec.Model HttpFrame.Model HttpFrame.Spec.
From Verif Require Import HttpFrame.ProofsSplit HttpFrame.ProofsServer HttpFrame.ProofsMsg HttpFrame.ProofsClient HttpFrame.ProofsBad.
From Coq Require Import Strings.Byte.
Open Scope Z_scope.

Section C.
Variable L : lib.
Hypothesis Law : lawful L.
Variables (mp : Z) (ih : bool).

Lemma receive_err ws : forall s rest, cwf L s -> csafe L mp (cbuf L s) rest -> concat ws = rest ->
  (exists s2, cfeed L mp ih s [] = RLess L s2) -> cfeed L mp ih s rest = RErr L -> receive L mp ih s ws = None.
Proof.
  induction ws as [|w ws IH]; intros s rest W Sf Cn Ql F.
  - simpl in Cn. subst rest. destruct Ql as [s2 Q]. congruence.
  - simpl in Cn. subst rest. cbn [receive].
    assert (Sf2 : csafe L mp (cbuf L s ++ w) (concat ws)).
    { destruct Sf as [Sf|Sf]; [left; exact Sf|right]. rewrite <- app_assoc. exact Sf. }
    assert (X := cfeed_split L Law mp ih s w (concat ws) W Sf2). destruct (cfeed L mp ih s w) as [|s2|s2 r2].
    + reflexivity.
    + destruct X as (X1 & X2 & X3 & X4). apply (IH s2 (concat ws)); auto; [|congruence].
      destruct Sf2 as [Sf2|Sf2]; [left; exact Sf2|right]. destruct X3 as [->| ->]; [|exact Sf2].
      rewrite blen_app in Sf2. assert (Y := blen_nonneg (cbuf L s ++ w)). simpl. lia.
    + destruct X as [X _]. congruence.
Qed.

Lemma cfail_header w : cparse_header L mp ih (set_cbuf L (cst_init L) w) = CErr L -> cfeed L mp ih (cst_init L) w = RErr L.
Proof.
  intros E.
  assert (X : cfeed L mp ih (cst_init L) w = match cparse_header L mp ih (set_cbuf L (cst_init L) w) with
    | CErr _ => RErr L | CMore _ => RLess L (set_cbuf L (cst_init L) w) | COk _ s1 => cparse_content L mp s1 end) by reflexivity.
  rewrite X, E. reflexivity.
Qed.

Lemma cfail_head hb f e : p_rhead L hb = HOk (length hb) f -> size hb <= room mp -> 17 <= size (hb ++ e) ->
  regular (p_rhead L) mp (hb ++ e) ->
  (scan false 0 f false None = None \/ exists n, scan false 0 f false None = Some (true, Some n)) ->
  cfeed L mp ih (cst_init L) (hb ++ e) = RErr L.
Proof.
  intros H Z2 Z1 R Sc.
  assert (Hh := head_of (p_rhead L) mp hb f e (l_rhead L Law) H Z2 R). cbv zeta in Hh. destruct Hh as [H1 H2].
  apply cfail_header. unfold cparse_header. cbn [cbuf set_cbuf].
  assert (Ln : blen (hb ++ e) <? min_response = false) by (unfold min_response; change (size (hb ++ e)) with (blen (hb ++ e)) in Z1; lia).
  rewrite Ln. replace (blen (until (hb ++ e) (limit mp + 1)) >? limit mp) with false by lia. rewrite H2.
  destruct Sc as [-> |[n ->]]; reflexivity.
Qed.

Lemma cbad_feed input : bad (p_rhead L) mp true input -> 17 <= size input -> regular (p_rhead L) mp input ->
  cfeed L mp ih (cst_init L) input = RErr L.
Proof.
  intros [hb f e H Zs T C|hb f e v l H Zs C V|hb f e v l n Nb H Zs C D Sn G|b Nm G Zs] S17 R.
  - apply (cfail_head hb f e H ltac:(lia) S17 R). rewrite scan_eq. destruct (cl f) as [|v l]; [congruence|].
    destruct (parse_content_length v) as [n|]; [|auto]. right. exists n. destruct (te f); [congruence|reflexivity].
  - apply (cfail_head hb f e H ltac:(lia) S17 R). rewrite scan_eq, C, (foreign_number v V). auto.
  - discriminate.
  - apply cfail_header.
    unfold cparse_header. cbn [cbuf set_cbuf]. replace (blen b <? min_response) with false by (unfold min_response, blen; unfold size in S17; lia).
    assert (Fe : find_end b = None).
    { destruct (find_end b) as [k|] eqn:K; [exfalso|reflexivity].
      assert (X : exists x y, b = x ++ crlf ++ crlf ++ y).
      { clear -K. revert k K. induction b as [|c b IH]; intros k; cbn [find_end].
        - destruct (starts marker []) eqn:S0; discriminate.
        - destruct (starts marker (c :: b)) eqn:S0.
          + intros _. apply starts_split in S0. destruct S0 as [y ->]. exists [], y. reflexivity.
          + destruct (find_end b) as [j|]; [|discriminate]. intros _. destruct (IH j eq_refl) as (x & y & ->).
            exists (c :: x), y. reflexivity. }
      destruct X as (x & y & X). exact (Nm x y X). }
    rewrite (until_none b _ Fe). assert (Lp := limit_pos mp). rewrite limit_room in *.
    replace (blen (firstn (Z.to_nat (Z.min (room mp + 1) (blen b))) b) >? room mp) with true; [reflexivity|].
    symmetry. apply Z.gtb_lt. unfold blen. rewrite firstn_length. unfold size in G. lia.
Qed.

Lemma cinit_safe input : regular (p_rhead L) mp input -> csafe L mp (cbuf L (cst_init L)) input.
Proof. intros [R|R]; [left; exact R|right]. cbn [cbuf cst_init app]. rewrite limit_room. exact R. Qed.

Lemma refused_l input ws : bad (p_rhead L) mp true input -> 17 <= size input -> concat ws = input ->
  regular (p_rhead L) mp input -> receive L mp ih (cst_init L) ws = None.
Proof.
  intros B S17 Cn R. apply (receive_err ws _ input); auto.
  - split; simpl; [lia|discriminate].
  - exact (cinit_safe input R).
  - eexists. reflexivity.
  - exact (cbad_feed input B S17 R).
Qed.
End C.

Section T.
Variable L : lib.
Hypothesis Law : lawful L.
Variable mp : Z.

Lemma too_long_l m ws : well_formed (p_rhead L) m -> 17 <= size (m_head m) -> size (m_head m) <= room mp ->
  room mp < size (m_head m) + size (m_load m) -> concat ws = bytes_of m -> regular (p_rhead L) mp (concat ws) ->
  receive L mp false (cst_init L) ws = None.
Proof.
  intros [W1 W2] F1 F2 F3 Cn R. rewrite Cn in R. unfold bytes_of in *.
  assert (Hh := head_of (p_rhead L) mp (m_head m) (m_flds m) (m_body m) (l_rhead L Law) W1 F2 R). cbv zeta in Hh.
  destruct Hh as [H1 H2].
  assert (Ln : 17 <= blen (m_head m ++ m_body m)).
  { rewrite blen_app. assert (X := blen_nonneg (m_body m)). change (size (m_head m)) with (blen (m_head m)) in F1. lia. }
  destruct (body_of L (m_flds m) (m_body m) (m_load m) 0 false [] Law W2 ltac:(discriminate))
    as (t & c & Sc & Tc & Tv & ex & d & Tb). rewrite app_nil_r in Tb.
  apply (receive_err L Law mp false ws (cst_init L) (m_head m ++ m_body m)); auto.
  - split; simpl; [lia|discriminate].
  - exact (cinit_safe L mp _ R).
  - eexists. reflexivity.
  - unfold cfeed, check. cbn [cnew set_cbuf cbuf cst_init app]. unfold cparse_header. cbn [cbuf set_cbuf].
    replace (blen (m_head m ++ m_body m) <? min_response) with false by (unfold min_response; lia).
    replace (blen (until (m_head m ++ m_body m) (limit mp + 1)) >? limit mp) with false by lia. rewrite H2, Sc.
    assert (Sk : skipn (length (m_head m)) (m_head m ++ m_body m) = m_body m).
    { rewrite skipn_app, skipn_all, Nat.sub_diag. reflexivity. }
    rewrite Sk.
    assert (K : forall s1 : cst L, cbuf L s1 = m_body m -> cchk L s1 = t -> cexpect L s1 = match c with Some n => n | None => 0 end ->
      cdst L s1 = d_init L -> chead L s1 = Z.of_nat (length (m_head m)) -> crsp L s1 = (m_flds m, []) -> cparse_content L mp s1 = RErr L).
    { intros s1 E1 E2 E3 E4 E5 E6. unfold cparse_content. rewrite E1, E2, E3, E4, E5, E6, Tb. cbn [snd]. change (blen []) with 0.
      replace (Z.of_nat (length (m_head m)) + 0 + blen (m_load m) <=? limit mp) with false; [reflexivity|].
      symmetry. rewrite limit_room. unfold size, blen in *. apply Z.leb_gt. lia. }
    destruct t; [assert (Ec := Tc eq_refl); rewrite Ec in *|]; apply K; reflexivity.
Qed.
End T.

Section M.
Variable L : lib.
Hypothesis Law : lawful L.
Variables (mp : Z) (ih : bool).

Definition cbound (s : cst L) : Prop := blen (snd (crsp L s)) < limit mp /\ (cnew L s = false -> 1 <= chead L s).

Lemma cbound_content s : 1 <= chead L s ->
  match cparse_content L mp s with
  | RErr _ => True
  | RLess _ s1 => cbound s1
  | RFull _ s1 r => cbound s1 /\ blen (snd r) < limit mp
  end.
Proof.
  intros H. unfold cparse_content.
  destruct (take_body L (cchk L s) (cexpect L s) (cdst L s) (cbuf L s)) as [[[[[o full] ex] d] r]|]; [|exact I].
  destruct (chead L s + blen (snd (crsp L s)) + blen o <=? limit mp) eqn:G; [|exact I].
  destruct full; unfold cbound; cbn [crsp snd cnew chead]; rewrite blen_app; repeat split; try lia.
Qed.
Lemma cbound_feed s w : cbound s ->
  match cfeed L mp ih s w with
  | RErr _ => True
  | RLess _ s1 => cbound s1
  | RFull _ s1 r => cbound s1 /\ blen (snd r) < limit mp
  end.
Proof.
  intros [B1 B2]. unfold cfeed, check. cbn [cnew set_cbuf]. destruct (cnew L s) eqn:N.
  - unfold cparse_header. cbn [cbuf set_cbuf]. destruct (blen (cbuf L s ++ w) <? min_response).
    { split; [exact B1|]. intros Q. cbn [cnew set_cbuf] in Q. congruence. }
    destruct (blen (until (cbuf L s ++ w) (limit mp + 1)) >? limit mp); [exact I|].
    destruct (p_rhead L (until (cbuf L s ++ w) (limit mp + 1))) as [| |n f] eqn:H; [exact I| |].
    { split; [exact B1|]. intros Q. cbn [cnew set_cbuf] in Q. congruence. }
    assert (N1 : (1 <= n)%nat) by (destruct (l_rhead L Law) as (_ & E2 & _); apply E2 in H; lia).
    destruct (scan false 0 f false None) as [[t c]|]; [|exact I].
    destruct t, c as [v|]; try exact I; apply cbound_content; cbn [chead]; lia.
  - apply cbound_content. cbn [chead set_cbuf]. auto.
Qed.
Lemma cbounded_l ws s rs : receive L mp ih (cst_init L) ws = Some (s, rs) ->
  Forall (fun r => size (snd r) < room mp) rs /\ size (snd (crsp L s)) < room mp.
Proof.
  assert (G : forall ws s0 s rs, cbound s0 -> receive L mp ih s0 ws = Some (s, rs) ->
    Forall (fun r => blen (snd r) < limit mp) rs /\ cbound s).
  { clear ws s rs. induction ws as [|w ws IH]; intros s0 s rs B E; cbn [receive] in E.
    - injection E as <- <-. split; [constructor|exact B].
    - assert (X := cbound_feed s0 w B). destruct (cfeed L mp ih s0 w) as [|s1|s1 r]; [discriminate| |].
      + apply (IH s1); assumption.
      + destruct X as [X1 X2]. destruct (receive L mp ih s1 ws) as [[s2 l]|] eqn:R; [|discriminate].
        injection E as <- <-. destruct (IH s1 s2 l X1 R). split; [constructor; assumption|assumption]. }
  intros E. destruct (fun H => G ws (cst_init L) s rs H E) as [A [B _]].
  - split; [|discriminate]. cbn. assert (Lp := limit_pos mp). exact Lp.
  - rewrite limit_room in *. split; assumption.
Qed.
End M.
