(** The client. *)
From Verif Require Import Lib.Base Lib.Bytes Lib.ListX HttpCodec.Model HttpFrame.Model HttpFrame.Spec.
From Verif Require Import HttpFrame.ProofsSplit HttpFrame.ProofsServer HttpFrame.ProofsMsg.
From Coq Require Import Strings.Byte.
Open Scope Z_scope.

Section C.
Variable L : lib.
Hypothesis Law : lawful L.
Variables (mp : Z) (ih : bool).

(** The library with the two parsers of heads exchanged. *)
Definition swap : lib := {| dec := dec L; p_head := p_rhead L; p_rhead := p_head L; d_init := d_init L; d_step := d_step L |}.
Lemma swap_lawful : lawful swap.
Proof.
  destruct Law as [A B C]. split; [exact B|exact A|]. intros e p H. specialize (C e p H). unfold swap. simpl.
  assert (G : forall d e p, decodes L d e p -> decodes swap d e p); [|apply (G (d_init L)); exact C].
  clear. intros d e p C. induction C; [constructor; assumption|]. econstructor; [eassumption|]. exact IHC.
Qed.

Definition csafe (a b : list byte) : Prop := strict (p_rhead L) \/ blen (a ++ b) <= limit mp.

Lemma cheader_split s b : csafe (cbuf L s) b ->
  match cparse_header L mp ih s with
  | CErr _ => cparse_header L mp ih (set_cbuf L s (cbuf L s ++ b)) = CErr L
  | CMore _ => True
  | COk _ s1 => cparse_header L mp ih (set_cbuf L s (cbuf L s ++ b)) = COk L (set_cbuf L s1 (cbuf L s1 ++ b)) /\
                0 <= cexpect L s1
  end.
Proof.
  intros Sf. destruct (head_split swap swap_lawful mp (cbuf L s) b Sf) as (A & B & C). cbn [p_head swap] in *.
  unfold cparse_header. cbn [cbuf set_cbuf]. destruct (blen (cbuf L s) <? min_response) eqn:Mn; [exact I|].
  assert (Mn2 : blen (cbuf L s ++ b) <? min_response = false).
  { rewrite blen_app. assert (Y := blen_nonneg b). lia. }
  rewrite Mn2. destruct (blen (until (cbuf L s) (limit mp + 1)) >? limit mp) eqn:G.
  - replace (blen (until (cbuf L s ++ b) (limit mp + 1)) >? limit mp) with true by (symmetry; apply Z.gtb_lt; lia). reflexivity.
  - destruct (p_rhead L (until (cbuf L s) (limit mp + 1))) as [| |n f] eqn:H.
    + destruct (B ltac:(lia) eq_refl) as [X|X].
      * replace (blen (until (cbuf L s ++ b) (limit mp + 1)) >? limit mp) with true by (symmetry; apply Z.gtb_lt; lia). reflexivity.
      * rewrite X. destruct (blen (until (cbuf L s ++ b) (limit mp + 1)) >? limit mp); reflexivity.
    + exact I.
    + destruct (C ltac:(lia) n f eq_refl) as (X & Y & Z0). rewrite Y.
      replace (blen (until (cbuf L s ++ b) (limit mp + 1)) >? limit mp) with false by lia.
      destruct (scan false 0 f false None) as [[t c]|] eqn:Sc; [|reflexivity].
      assert (NN : forall v, c = Some v -> 0 <= v).
      { intros v Ev. eapply (scan_nonneg _ _ _ _ _ _ _ Sc); [|exact Ev]. discriminate. }
      assert (SK : skipn n (cbuf L s ++ b) = skipn n (cbuf L s) ++ b).
      { rewrite skipn_app. replace (n - length (cbuf L s))%nat with 0%nat by lia. reflexivity. }
      destruct t, c as [v|]; try reflexivity;
        (split; [unfold set_cbuf; cbn [cbuf cnew cchk cexpect chead cdst crsp]; rewrite SK; reflexivity|]);
        cbn [cexpect]; destruct ih; try lia; apply NN; reflexivity.
Qed.

Lemma ccontent_split s b : 0 <= cexpect L s ->
  match cparse_content L mp s with
  | RErr _ => cparse_content L mp (set_cbuf L s (cbuf L s ++ b)) = RErr L
  | RFull _ s1 r => cparse_content L mp (set_cbuf L s (cbuf L s ++ b)) = RFull L (set_cbuf L s1 (cbuf L s1 ++ b)) r /\
                    cnew L s1 = true
  | RLess _ s1 => cbuf L s1 = [] /\ cnew L s1 = false /\ 0 <= cexpect L s1 /\ (cchk L s1 = false -> 0 < cexpect L s1) /\
                  cparse_content L mp (set_cbuf L s (cbuf L s ++ b)) = cparse_content L mp (set_cbuf L s1 b)
  end.
Proof.
  intros P. unfold cparse_content. cbn [cbuf set_cbuf cnew cchk cexpect chead cdst crsp].
  destruct (take_body L (cchk L s) (cexpect L s) (cdst L s) (cbuf L s)) as [[[[[o full] ex] d] r]|] eqn:T.
  2: { rewrite (take_body_none L _ _ _ _ b T). reflexivity. }
  assert (On := blen_nonneg o). destruct full.
  - rewrite (take_body_full L _ _ _ _ b _ _ _ _ P T).
    destruct (chead L s + blen (snd (crsp L s)) + blen o <=? limit mp); [|reflexivity]. split; reflexivity.
  - destruct (take_body_part L _ _ _ _ b _ _ _ _ P T) as (-> & P1 & P2 & ->).
    destruct (chead L s + blen (snd (crsp L s)) + blen o <=? limit mp) eqn:G.
    + cbn [cbuf cnew cchk cexpect chead cdst crsp fst snd]. split; [reflexivity|]. split; [reflexivity|].
      split; [exact P1|]. split; [exact P2|].
      destruct (take_body L (cchk L s) ex d b) as [[[[[o2 f2] ex2] d2] r2]|]; [|reflexivity].
      rewrite !blen_app, !app_assoc.
      replace (chead L s + blen (snd (crsp L s)) + (blen o + blen o2)) with (chead L s + (blen (snd (crsp L s)) + blen o) + blen o2) by lia.
      destruct (chead L s + (blen (snd (crsp L s)) + blen o) + blen o2 <=? limit mp); reflexivity.
    + destruct (take_body L (cchk L s) ex d b) as [[[[[o2 f2] ex2] d2] r2]|]; [|reflexivity].
      rewrite blen_app. assert (O2 := blen_nonneg o2).
      replace (chead L s + blen (snd (crsp L s)) + (blen o + blen o2) <=? limit mp) with false by lia. reflexivity.
Qed.

Definition cwf (s : cst L) : Prop := 0 <= cexpect L s /\ (cnew L s = false -> cchk L s = false -> 0 < cexpect L s).

Lemma set_cbuf_eta s : set_cbuf L s (cbuf L s) = s. Proof. destruct s. reflexivity. Qed.

Lemma cfeed_split s a b : cwf s -> csafe (cbuf L s ++ a) b ->
  match cfeed L mp ih s a with
  | RErr _ => cfeed L mp ih s (a ++ b) = RErr L
  | RFull _ s1 r => cfeed L mp ih s (a ++ b) = RFull L (set_cbuf L s1 (cbuf L s1 ++ b)) r /\ cnew L s1 = true
  | RLess _ s1 => cfeed L mp ih s (a ++ b) = cfeed L mp ih s1 b /\ cwf s1 /\
                  (cbuf L s1 = [] \/ cbuf L s1 = cbuf L s ++ a) /\ exists s2, cfeed L mp ih s1 [] = RLess L s2
  end.
Proof.
  intros [W1 W2] Sf. unfold cfeed. set (sa := set_cbuf L s (cbuf L s ++ a)).
  assert (Eb : set_cbuf L s (cbuf L s ++ a ++ b) = set_cbuf L sa (cbuf L sa ++ b)).
  { unfold sa, set_cbuf. cbn [cbuf cnew cchk cexpect chead cdst crsp]. rewrite app_assoc. reflexivity. }
  rewrite Eb. unfold check. cbn [cnew set_cbuf]. change (cnew L sa) with (cnew L s).
  assert (K : forall s0, 0 <= cexpect L s0 ->
    match cparse_content L mp s0 with
    | RErr _ => cparse_content L mp (set_cbuf L s0 (cbuf L s0 ++ b)) = RErr L
    | RFull _ s1 r => cparse_content L mp (set_cbuf L s0 (cbuf L s0 ++ b)) = RFull L (set_cbuf L s1 (cbuf L s1 ++ b)) r /\
                      cnew L s1 = true
    | RLess _ s1 => cparse_content L mp (set_cbuf L s0 (cbuf L s0 ++ b)) = cfeed L mp ih s1 b /\ cwf s1 /\
                  (cbuf L s1 = [] \/ cbuf L s1 = cbuf L s ++ a) /\ exists s2, cfeed L mp ih s1 [] = RLess L s2
    end).
  { intros s0 P. assert (X := ccontent_split s0 b P). destruct (cparse_content L mp s0) as [|s1|s1 r] eqn:E; try exact X.
    destruct X as (X1 & X2 & X3 & X4 & X5). split; [|split; [split; auto|split; [auto|]]].
    - rewrite X5. unfold cfeed, check. rewrite X1. cbn [app cnew set_cbuf]. rewrite X2. reflexivity.
    - unfold cfeed, check. rewrite X1. cbn [app cnew set_cbuf]. rewrite X2. unfold cparse_content.
      cbn [cbuf set_cbuf cnew cchk cexpect chead cdst crsp].
      assert (Lm : chead L s1 + blen (snd (crsp L s1)) + 0 <= limit mp).
      { clear -E. unfold cparse_content in E.
        destruct (take_body L (cchk L s0) (cexpect L s0) (cdst L s0) (cbuf L s0)) as [[[[[o full] ex] d] r]|]; [|discriminate].
        destruct (chead L s0 + blen (snd (crsp L s0)) + blen o <=? limit mp) eqn:G; [|discriminate].
        destruct full; [discriminate|]. injection E as <-. cbn [chead crsp snd]. rewrite blen_app. lia. }
      unfold take_body. destruct (cchk L s1) eqn:Ck; cbn [negb].
      + cbn [decode]. change (blen []) with 0. replace (chead L s1 + blen (snd (crsp L s1)) + 0 <=? limit mp) with true by lia.
        eexists. reflexivity.
      + specialize (X4 eq_refl). change (blen []) with 0. replace (Z.min (cexpect L s1) 0) with 0 by lia.
        replace (cexpect L s1 - 0 =? 0) with false by lia. cbn [firstn skipn Z.to_nat]. change (blen []) with 0.
        replace (chead L s1 + blen (snd (crsp L s1)) + 0 <=? limit mp) with true by lia. eexists. reflexivity. }
  destruct (cnew L s) eqn:N.
  - assert (H := cheader_split sa b Sf). destruct (cparse_header L mp ih sa) as [| |s1] eqn:Ph.
    + rewrite H. reflexivity.
    + split; [|split; [split; [exact W1|intros Q; exfalso; cbn [cnew sa set_cbuf] in Q; congruence]|split; [right; reflexivity|]]].
      * unfold cfeed, check. cbn [cnew set_cbuf]. change (cnew L sa) with (cnew L s). rewrite N. reflexivity.
      * unfold cfeed. rewrite app_nil_r, set_cbuf_eta. unfold check. change (cnew L sa) with (cnew L s). rewrite N, Ph.
        eexists. reflexivity.
    + destruct H as [-> P]. apply K. exact P.
  - apply K. exact W1.
Qed.

(** Nothing comes out of nothing. *)
Lemma receive_nothing ws : forall s, cbuf L s = [] -> cnew L s = true -> concat ws = [] -> receive L mp ih s ws = Some (s, []).
Proof.
  induction ws as [|w ws IH]; intros s B N E; [reflexivity|]. simpl in E. apply app_eq_nil in E. destruct E as [-> E].
  cbn [receive]. unfold cfeed. rewrite app_nil_r, set_cbuf_eta. unfold check. rewrite N. unfold cparse_header. rewrite B.
  change (blen [] <? min_response) with true. cbv iota. apply IH; assumption.
Qed.

Lemma receive_one ws : forall s rest s1 r, cwf s -> csafe (cbuf L s) rest -> concat ws = rest ->
  (exists s2, cfeed L mp ih s [] = RLess L s2) ->
  cfeed L mp ih s rest = RFull L s1 r -> cbuf L s1 = [] ->
  exists s3, receive L mp ih s ws = Some (s3, [r]) /\ cbuf L s3 = [].
Proof.
  induction ws as [|w ws IH]; intros s rest s1 r W Sf Cn Ql F B.
  - simpl in Cn. subst rest. destruct Ql as [s2 Q]. congruence.
  - simpl in Cn. subst rest. cbn [receive].
    assert (Sf2 : csafe (cbuf L s ++ w) (concat ws)).
    { destruct Sf as [Sf|Sf]; [left; exact Sf|right]. rewrite <- app_assoc. exact Sf. }
    assert (X := cfeed_split s w (concat ws) W Sf2). destruct (cfeed L mp ih s w) as [|s2|s2 r2].
    + congruence.
    + destruct X as (X1 & X2 & X3 & X4). apply (IH s2 (concat ws) s1 r); auto; [|congruence].
      destruct Sf2 as [Sf2|Sf2]; [left; exact Sf2|right]. destruct X3 as [->| ->]; [|exact Sf2].
      rewrite blen_app in Sf2. assert (Y := blen_nonneg (cbuf L s ++ w)). simpl. lia.
    + destruct X as [X N]. rewrite X in F. injection F as <- <-. cbn [cbuf set_cbuf] in B. apply app_eq_nil in B. destruct B as [B1 B2].
      rewrite (receive_nothing ws s2 B1 N B2). simpl. eauto.
Qed.

Lemma response_l m ws : well_formed (p_rhead L) m -> 17 <= size (m_head m) ->
  size (m_head m) + size (m_load m) <= room mp ->
  concat ws = (if ih then m_head m else bytes_of m) -> regular (p_rhead L) mp (concat ws) ->
  exists s, receive L mp ih (cst_init L) ws = Some (s, [(m_flds m, if ih then [] else m_load m)]) /\ cbuf L s = [].
Proof.
  intros [W1 W2] F1 F2 Cn R.
  set (e := if ih then [] else m_body m). assert (Ee : concat ws = m_head m ++ e).
  { rewrite Cn. unfold e, bytes_of. destruct ih; [rewrite app_nil_r|]; reflexivity. }
  assert (Lo : 0 <= size (m_load m)) by (unfold size; lia).
  rewrite Ee in R.
  assert (Hh := head_of (p_rhead L) mp (m_head m) (m_flds m) e (l_rhead L Law) W1 ltac:(lia) R). cbv zeta in Hh.
  destruct Hh as [H1 H2].
  assert (Ln : 17 <= blen (m_head m ++ e)).
  { rewrite blen_app. assert (X := blen_nonneg e). change (size (m_head m)) with (blen (m_head m)) in F1. lia. }
  destruct (body_of L (m_flds m) (m_body m) (m_load m) 0 false [] Law W2 ltac:(discriminate))
    as (t & c & Sc & Tc & Tv & ex & d & Tb). rewrite app_nil_r in Tb.
  set (ec := match c with Some n => n | None => 0 end) in *.
  set (s1 := {| cbuf := e; cnew := true; cchk := if ih then false else t; cexpect := if ih then 0 else ec;
                chead := Z.of_nat (length (m_head m)); cdst := d_init L; crsp := (m_flds m, []) |} : cst L).
  assert (Ph : cparse_header L mp ih (set_cbuf L (cst_init L) (m_head m ++ e)) = COk L s1).
  { unfold cparse_header. cbn [cbuf set_cbuf]. replace (blen (m_head m ++ e) <? min_response) with false by (unfold min_response; lia).
    replace (blen (until (m_head m ++ e) (limit mp + 1)) >? limit mp) with false by lia. rewrite H2, Sc.
    assert (Sk : skipn (length (m_head m)) (m_head m ++ e) = e).
    { rewrite skipn_app, skipn_all, Nat.sub_diag. reflexivity. }
    rewrite Sk. destruct t; [assert (Ec := Tc eq_refl); unfold s1, ec; rewrite Ec|]; reflexivity. }
  assert (Pc : exists s2, cparse_content L mp s1 = RFull L s2 (m_flds m, if ih then [] else m_load m) /\ cbuf L s2 = []).
  { unfold cparse_content. cbn [cchk cexpect cdst cbuf s1 chead crsp fst snd]. unfold e.
    destruct ih.
    - unfold take_body. cbn [negb]. change (blen []) with 0. change (Z.min 0 0) with 0. cbn [Z.to_nat firstn skipn].
      change (0 - 0 =? 0) with true. change (blen []) with 0.
      replace (Z.of_nat (length (m_head m)) + 0 + 0 <=? limit mp) with true by (rewrite limit_room; unfold size in *; lia).
      eexists. split; reflexivity.
    - rewrite Tb. change (blen []) with 0.
      replace (Z.of_nat (length (m_head m)) + 0 + blen (m_load m) <=? limit mp) with true
        by (rewrite limit_room; unfold size, blen in *; lia).
      eexists. split; reflexivity. }
  destruct Pc as (s2 & P1 & P2).
  apply (receive_one ws (cst_init L) (m_head m ++ e) s2); auto.
  - split; simpl; [lia|discriminate].
  - destruct R as [R|R]; [left; exact R|right]. cbn [cbuf cst_init app]. rewrite limit_room. exact R.
  - eexists. reflexivity.
  - unfold cfeed, check. cbn [cbuf cst_init app set_cbuf cnew]. 
    change (set_cbuf L (cst_init L) (m_head m ++ e)) with (set_cbuf L (cst_init L) (m_head m ++ e)) in Ph.
    unfold set_cbuf, cst_init in Ph. unfold set_cbuf, cst_init. cbn [cnew cchk cexpect chead cdst crsp] in *. rewrite Ph. exact P1.
Qed.
End C.
