(** The writer of a request. *)
From Verif Require Import Lib.Base Lib.Bytes Lib.ListX Lib.Decimal HttpCodec.Model HttpCodec.Spec HttpCodec.Proofs.
From Verif Require Import HttpChunk.Model HttpChunk.Spec HttpChunk.ProofsHex HttpChunk.ProofsServer.
From Coq Require Import Strings.Byte.
Open Scope Z_scope.

Definition ccl_of (t : bool) (c : list byte) (n : Z) : Z := if t then -1 else if is_nil c then 0 else n.
Definition cpart (t : bool) (c : list byte) (n : Z) (over : bool) (e p : list byte) : Prop :=
  if t then (if over then chunked e p else chunks e p)
  else e = p /\ size p <= ccl_of t c n /\ (over = true -> size p = ccl_of t c n).

Record K (t : bool) (c : list byte) (n : Z) (s : cw) (over : bool) (acc : list byte) : Prop := {
  k_closed : closed s = false;
  k_cl : ccl s = ccl_of t c n;
  k_wrt : t = false -> cwrt s = size acc;
  k_writing : t = true -> writing s = negb over;
  k_wire : exists bs, cwire s = Head t c false :: map Body bs /\ cpart t c n over (concat bs) acc
}.

Section C.
Variables (t : bool) (c : list byte) (n : Z).
Hypothesis Cn : c = [] \/ (decnum c n /\ n < 2 ^ 63).

Lemma cpart_len (over : bool) e p : t = false ->
  cpart t c n over e p <-> (e = p /\ size p <= ccl_of t c n /\ (over = true -> size p = ccl_of t c n)).
Proof. intros E. unfold cpart. destruct t; [discriminate|]. tauto. Qed.

Lemma n_pos : is_nil c = false -> 0 <= n < 2 ^ 63.
Proof.
  intros E. destruct Cn as [X|[X Y]]; [rewrite X in E; discriminate|]. split; [|exact Y].
  apply decnum_parse in X; tauto.
Qed.

Lemma ccl_range : t = false -> 0 <= ccl_of t c n < 2 ^ 63.
Proof. intros ->. unfold ccl_of. destruct (is_nil c) eqn:E; [lia|]. apply n_pos. exact E. Qed.

Hypothesis Both : t = true -> c = [].

Lemma csend_cases s e rs s1 st rs1 : closed s = false -> csend s e rs = (s1, st, rs1) ->
  (st = SOk /\ s1 = cpush s e) \/ (st <> SOk /\ s1 = s).
Proof.
  unfold csend. intros ->. destruct (answer rs) as [r l]. destruct (r =? 0); cbn [negb]; intros F; injection F as <- <- <-; [auto|].
  right. split; [|reflexivity]. unfold conn_err. destruct (r =? -2); discriminate.
Qed.

Lemma header_K rs s1 rs1 : csend_header (cw_init t c) rs = (s1, SOk, rs1) -> K t c n s1 false [].
Proof.
  unfold csend_header. cbn [cte cw_init]. intros E.
  assert (X : exists w l, csend (cset (cw_init t c) w true false l 0) (Head t c false) rs = (s1, SOk, rs1) /\
                (t = true -> w = true) /\ l = ccl_of t c n).
  { destruct t eqn:Et.
    - rewrite (Both eq_refl) in *. cbn [cclh cset cw_init ccl reading closed cwrt writing] in E.
      exists true, kChunked. cbn [cte cset] in E.
      destruct (csend _ _ rs) as [[s4 st] rs'] eqn:F. destruct st; try discriminate. injection E as <- <-.
      split; [first [exact F|reflexivity]|]. split; [auto|reflexivity].
    - cbn [cclh cw_init] in E. destruct c as [|b l] eqn:Ec.
      + exists false, 0. cbn [cset cw_init ccl cte cclh reading closed cwrt writing] in E.
        destruct (csend _ _ rs) as [[s4 st] rs'] eqn:F. destruct st; try discriminate. injection E as <- <-.
        split; [first [exact F|reflexivity]|]. split; [discriminate|reflexivity].
      + destruct Cn as [X|[X Y]]; [discriminate|]. apply decnum_parse in X; [|exact Y]. destruct X as [X Z0].
        rewrite X in E. exists true, n. cbn [cset cw_init ccl cte cclh reading closed cwrt writing] in E.
        change (0 =? kChunked) with false in E. cbn match in E.
        destruct (csend _ _ rs) as [[s4 st] rs'] eqn:F. destruct st; try discriminate. injection E as <- <-.
        split; [first [exact F|reflexivity]|]. split; [discriminate|reflexivity]. }
  destruct X as (w & l & X & Y & Z0). apply csend_cases in X; [|reflexivity]. destruct X as [[_ ->]|[F _]]; [|congruence].
  split; cbn [closed ccl cwrt writing cwire cpush cset cw_init]; auto.
  exists []. split; [reflexivity|]. unfold cpart. simpl concat. destruct t eqn:Et; [constructor|].
  assert (0 <= ccl_of false c n) by (rewrite <- Et; apply ccl_range; exact Et).
  split; [reflexivity|]. split; [exact H|discriminate].
Qed.

Lemma cwrite_K s acc item rs : size item < 2 ^ 63 -> K t c n s false acc ->
  exists s1 st rs1, cwrite s item rs = Ok (s1, st, rs1) /\
    (st <> SOk -> K t c n s1 false acc) /\ (st = SOk -> item <> [] -> K t c n s1 false (acc ++ item)).
Proof.
  intros Sz H. pose proof H as [H1 H2 H3 H4 (bs & H5 & H6)]. unfold cwrite. cbv zeta.
  change (blen item) with (size item). assert (P0 : 0 <= size item) by (unfold size; lia).
  unfold kChunked. destruct (ccl s =? -1) eqn:Ek.
  - assert (Et : t = true).
    { destruct (bool_dec t true) as [Et|Et]; [exact Et|]. apply not_true_is_false in Et.
      pose proof (ccl_range Et) as R. rewrite H2 in Ek. lia. }
    destruct (chunk_ok item) as (ds & F & G); [lia|]. rewrite F. cbn [bind].
    destruct (csend _ _ rs) as [[s2 st] rs'] eqn:E. apply csend_cases in E; [|exact H1].
    destruct E as [[-> ->]|[Ns ->]].
    + eexists _, _, _. split; [reflexivity|]. split; [congruence|]. intros _ Ni.
      split; cbn [closed ccl cwrt writing cwire cpush cset]; auto; try congruence.
      exists (bs ++ [ds ++ crlf ++ item ++ crlf]). rewrite H5, map_app. split; [reflexivity|].
      unfold cpart in *. rewrite Et in *. rewrite concat_app. simpl concat. rewrite app_nil_r.
      apply chunks_app; [exact H6|]. apply chunks_one; auto.
    + assert (X : K t c n (cset s true (reading s) (closed s) (ccl s) (cwrt s)) false acc).
      { split; cbn [closed ccl cwrt writing cwire cset]; auto. exists bs. auto. }
      destruct st; try congruence; (eexists _, _, _; split; [reflexivity|]; split; [intros _; exact X|congruence]).
  - assert (Et : t = false).
    { apply not_true_is_false. intros Et. rewrite H2, Et in Ek. discriminate. }
    pose proof (ccl_range Et) as R. apply (cpart_len _ _ _ Et) in H6.
    destruct H6 as (X1 & X2 & X3). rewrite (H3 Et), H2.
    assert (P1 : 0 <= size acc) by (unfold size; lia).
    rewrite !u64_small by lia. destruct (size acc + size item <=? ccl_of t c n) eqn:L.
    + destruct (csend _ _ rs) as [[s2 st] rs'] eqn:E. apply csend_cases in E; [|exact H1].
      destruct E as [[-> ->]|[Ns ->]].
      * eexists _, _, _. split; [reflexivity|]. split; [congruence|]. intros _ Ni.
        split; cbn [closed ccl cwrt writing cwire cpush cset]; auto; try congruence.
        { intros _. rewrite size_app. apply u64_small. lia. }
        exists (bs ++ [item]). rewrite H5, map_app. split; [reflexivity|].
        apply (cpart_len _ _ _ Et). rewrite concat_app. simpl concat. rewrite app_nil_r, X1.
        split; [reflexivity|]. split; [rewrite size_app; lia|discriminate].
      * assert (X : K t c n (cset s true (reading s) (closed s) (ccl_of t c n) (size acc)) false acc).
        { split; cbn [closed ccl cwrt writing cwire cset]; auto. exists bs. split; [auto|].
          apply (cpart_len _ _ _ Et). auto. }
        destruct st; try congruence; (eexists _, _, _; split; [reflexivity|]; split; [intros _; exact X|congruence]).
    + eexists _, _, _. split; [reflexivity|]. split; [intros _; exact H|congruence].
Qed.

Lemma cdone_K s over acc rs s1 st rs1 : K t c n s over acc -> cwrite_done s rs = (s1, st, rs1) ->
  (st <> SOk -> K t c n s1 over acc) /\ (st = SOk -> K t c n s1 true acc).
Proof.
  intros H E. pose proof H as [H1 H2 H3 H4 (bs & H5 & H6)]. unfold cwrite_done, kChunked in E. cbv zeta in E.
  destruct (ccl s =? -1) eqn:Ek; cbn [negb andb] in E.
  - assert (Et : t = true).
    { destruct (bool_dec t true) as [Et|Et]; [exact Et|]. apply not_true_is_false in Et.
      pose proof (ccl_range Et) as R. rewrite H2 in Ek. lia. }
    rewrite (H4 Et), negb_involutive in E. destruct over.
    + injection E as <- <- <-. split; [congruence|auto].
    + rewrite H1 in E. destruct (csend _ _ rs) as [[s2 st2] rs'] eqn:F. apply csend_cases in F; [|exact H1].
      destruct F as [[-> ->]|[Ns ->]].
      * injection E as <- <- <-. split; [congruence|]. intros _.
        split; cbn [closed ccl cwrt writing cwire cpush cset]; auto; try congruence.
        exists (bs ++ [s_end_chunked]). rewrite H5, map_app. split; [reflexivity|].
        unfold cpart in *. rewrite Et in *. rewrite concat_app. simpl concat. apply end_chunked_ok. exact H6.
      * assert (st = st2 /\ s1 = s) as [-> ->] by (destruct st2; injection E; intros; subst; auto; congruence).
        split; [auto|congruence].
  - assert (Et : t = false).
    { apply not_true_is_false. intros Et. rewrite H2, Et in Ek. discriminate. }
    pose proof (ccl_range Et) as R. apply (cpart_len _ _ _ Et) in H6.
    destruct H6 as (X1 & X2 & X3). rewrite (H3 Et), H2, u64_small in E by lia.
    destruct (size acc =? ccl_of t c n) eqn:L; cbn [negb] in E.
    + apply Z.eqb_eq in L.
      assert (X : forall w, K t c n (cset s w (reading s) false (ccl_of t c n) (size acc)) true acc).
      { intros w. split; cbn [closed ccl cwrt writing cwire cset]; auto; try congruence.
        exists bs. split; [auto|]. apply (cpart_len _ _ _ Et). auto. }
      destruct (writing s) eqn:W; cbn [negb] in E.
      * rewrite H1 in E. injection E as <- <- <-. split; [congruence|]. intros _. exact (X false).
      * injection E as <- <- <-. split; [congruence|]. intros _.
        split; auto; try congruence. exists bs. split; [auto|]. apply (cpart_len _ _ _ Et). auto.
    + injection E as <- <- <-. split; [auto|congruence].
Qed.

Lemma crun_K ops : forall s need over acc rs s1 sts, Forall small_op ops -> Forall (fun o => o <> OHeader) ops ->
  K t c n s over acc -> crun s ops rs = Ok (s1, sts) -> careful need over (combine ops sts) ->
  K t c n s1 (over_after over (combine ops sts)) (acc ++ accepted (combine ops sts)).
Proof.
  induction ops as [|op ops IH]; intros s need over acc rs s1 sts F NH H R C.
  - injection R as <- <-. simpl. rewrite app_nil_r. exact H.
  - cbn [crun] in R. destruct (cexec s op rs) as [[[s2 st] rs2]| | |] eqn:E; cbn [bind] in R; try discriminate.
    destruct (crun s2 ops rs2) as [[s3 sts2]| | |] eqn:E2; cbn [bind] in R; try discriminate.
    injection R as <- <-. inversion F as [|? ? F1 F2]; subst. inversion NH as [|? ? NH1 NH2]; subst.
    assert (Q : forall need' over' acc', K t c n s2 over' acc' -> careful need' over' (combine ops sts2) ->
       K t c n s3 (over_after over' (combine ops sts2))
       (acc' ++ accepted (combine ops sts2))) by (intros; eapply IH; eauto). clear IH.
    cbn [combine] in *. destruct op as [|item| |]; cbn [cexec] in E.
    + congruence.
    + assert (Ov : over = false) by (destruct st; cbn [careful] in C; tauto). rewrite Ov in *.
      destruct (cwrite_K s acc item rs F1 H) as (s2' & st' & rs2' & E' & A & B).
      rewrite E in E'. injection E' as <- <- <-.
      destruct st; cbn [careful over_after accepted] in *; try (destruct C as [_ C]; apply (Q need); [apply A; congruence|assumption]; fail).
      destruct C as (C1 & C2 & C3). rewrite app_assoc. apply (Q 0%nat); auto.
    + injection E as E. destruct (cdone_K _ _ _ _ _ _ _ H E) as (A & B).
      destruct st; cbn [careful over_after accepted] in *; try (apply (Q need); [apply A; congruence|assumption]).
      destruct C as (C1 & C2). apply (Q 0%nat); auto.
    + destruct st; destruct C.
Qed.
End C.

Lemma client_l t c ops rs s sts :
  good_length c -> (t = true -> c = []) -> Forall small_op ops -> Forall (fun o => o <> OHeader) ops ->
  crun (cw_init t c) (OHeader :: ops) rs = Ok (s, SOk :: sts) ->
  careful 0 false (combine ops sts) ->
  let tr := combine ops sts in
  (finished tr -> message (cwire s) (accepted tr)) /\ (~ finished tr -> under_way (cwire s) (accepted tr)).
Proof.
  intros G Bt F NH R C tr.
  assert (Gn : exists n, c = [] \/ decnum c n /\ n < 2 ^ 63).
  { destruct G as [->|(n & D & B)]; [exists 0; auto|exists n; auto]. }
  destruct Gn as [n Gn]. cbn [crun cexec bind] in R.
  destruct (csend_header (cw_init t c) rs) as [[s1 st1] rs1] eqn:E1. cbn [bind] in R.
  destruct (crun s1 ops rs1) as [[s2 sts2]| | |] eqn:E2; cbn [bind] in R; try discriminate.
  injection R as -> -> ->. pose proof (header_K t c n Gn Bt _ _ _ E1) as K0.
  pose proof (crun_K t c n Gn Bt ops _ _ _ _ _ _ _ F NH K0 E2 C) as [H1 H2 H3 H4 (bs & H5 & H6)].
  fold tr in H4, H6. simpl app in H6.
  assert (Cl : t = false -> is_nil c = true -> size (accepted tr) = 0 -> concat bs = [] /\ accepted tr = []).
  { intros Et En L. unfold cpart in H6. rewrite Et in H6. destruct H6 as (X & _).
    destruct (accepted tr); [auto|unfold size in L; simpl in L; lia]. }
  assert (P : 0 <= size (accepted tr)) by (unfold size; lia).
  split; intros D.
  - assert (O : over_after false tr = true) by (apply over_after_in; auto). rewrite O in *.
    exists 0%nat, t, c, false, bs. split; [exact H5|]. unfold body. unfold cpart in H6. destruct t; [exact H6|].
    destruct H6 as (X & Y & Z0). specialize (Z0 eq_refl). unfold ccl_of in *.
    destruct c as [|b l] eqn:Ec; cbn [is_nil] in *; [apply Cl; auto|]. split; [exact X|].
    rewrite Z0. destruct Gn as [U|[U _]]; [discriminate|exact U].
  - assert (O : over_after false tr = false).
    { destruct (over_after false tr) eqn:O; [|reflexivity]. apply over_after_in in O. destruct O; [discriminate|contradiction]. }
    rewrite O in *. right. exists 0%nat, t, c, false, bs. split; [exact H5|].
    unfold body_start. unfold cpart in H6. destruct t; [exact H6|].
    destruct H6 as (X & Y & Z0). unfold ccl_of in *.
    destruct c as [|b l] eqn:Ec; cbn [is_nil] in *; [apply Cl; auto; lia|]. split; [exact X|].
    exists n. split; [|exact Y]. destruct Gn as [U|[U _]]; [discriminate|exact U].
Qed.

Lemma cexec_total s op rs : small_op op -> exists r, cexec s op rs = Ok r.
Proof.
  intros S0. destruct op; cbn [cexec]; eauto.
  - unfold cwrite. cbv zeta. destruct (ccl s =? kChunked).
    + destruct (chunk_ok item) as (ds & -> & _); [cbn [small_op] in S0; lia|]. cbn [bind].
      destruct (csend _ _ rs) as [[s1 st] r1]. destruct st; eauto.
    + destruct (_ <=? _); eauto. destruct (csend _ _ rs) as [[s1 st] r1]. destruct st; eauto.
  - destruct (cclose s rs). eauto.
Qed.

Lemma crun_total ops : forall s rs, Forall small_op ops ->
  exists s1 sts, crun s ops rs = Ok (s1, sts) /\ length sts = length ops.
Proof.
  induction ops as [|op ops IH]; intros s rs F; [simpl; eauto|]. inversion F; subst.
  cbn [crun]. destruct (cexec_total s op rs) as [[[s1 st] rs1] ->]; auto. cbn [bind].
  destruct (IH s1 rs1) as (s2 & sts & -> & L); auto. cbn [bind]. eexists _, _. split; [reflexivity|]. simpl. lia.
Qed.
