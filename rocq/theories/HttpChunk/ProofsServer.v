(** The writer of a response: what is on the wire after any calls of a careful user. *)
From Verif Require Import Lib.Base Lib.Bytes Lib.ListX Lib.Decimal HttpCodec.Model HttpCodec.Spec HttpCodec.Proofs.
From Verif Require Import HttpChunk.Model HttpChunk.Spec HttpChunk.ProofsHex.
From Coq Require Import Strings.Byte.
Open Scope Z_scope.

Lemma decnum_parse l n : decnum l n -> n < 2 ^ 63 -> parse_content_length l = Some n /\ 0 <= n.
Proof.
  intros (N & F & V) B.
  assert (D : forall l a, fold_left (fun a b => 10 * a + (b2z b - 48)) l a = fold_left (fun a b => a * 10 + (b2z b - 48)) l a).
  { clear. induction l; intros; cbn [fold_left]; [reflexivity|]. rewrite IHl. rewrite (Z.mul_comm 10). reflexivity. }
  rewrite D in V. fold (dval l) in V.
  assert (P : parse_content_length l = Some n).
  { apply content_length_iff_l. exists [], [], l. repeat split; auto. lia. }
  split; [exact P|]. apply content_length_iff_l in P. destruct P as (sp & sg & ds & _ & _ & _ & _ & G & E).
  assert (0 <= dval ds); [|lia].
  clear - G. revert G. unfold dval. assert (forall a, 0 <= a -> Forall (fun b => 48 <= b2z b <= 57) ds ->
    0 <= fold_left (fun a b => a * 10 + (b2z b - 48)) ds a); [|intros; apply H; auto; lia].
  induction ds; intros a0 A G; simpl; [lia|]. inversion G; subst. apply IHds; [lia|auto].
Qed.

Definition is_nil (l : list byte) : bool := match l with [] => true | _ => false end.
(** content_length_ once the head is out. *)
Definition the_cl (c : list byte) (ho : bool) (n : Z) : Z := if ho then 0 else if is_nil c then -1 else n.

(** What the body on the wire has to do with what was accepted. *)
Definition part (c : list byte) (ho : bool) (over : bool) (e p : list byte) (n : Z) : Prop :=
  if ho then e = [] /\ p = []
  else if is_nil c then (if over then chunked e p else chunks e p)
  else e = p /\ size p <= n /\ (over = true -> size p = n).

Fixpoint over_after (over : bool) (tr : list (wop * stat)) : bool :=
  match tr with
  | [] => over
  | (ODone, SOk) :: l => over_after true l
  | _ :: l => over_after over l
  end.

Record J (c : list byte) (ho : bool) (n : Z) (s : sw) (need : nat) (over : bool) (acc : list byte) : Prop := {
  j_clh : clh s = c;
  j_ho : honly s = ho;
  j_te : te s = true -> c = [];
  j_don : don s = over;
  j_need : hdr s = false -> (1 <= need)%nat /\ (status s < 200 -> (2 <= need)%nat);
  j_wire : if hdr s
           then cl s = the_cl c ho n /\ te s = is_nil c /\
                (if is_nil c && negb ho then True else wrt s = size acc) /\
                exists k bs, wire s = repeat Info k ++ Head (is_nil c) c ho :: map Body bs /\
                             part c ho over (concat bs) acc n
           else acc = [] /\ over = false /\ wrt s = 0 /\ exists k, wire s = repeat Info k
}.

Section S.
Variables (c : list byte) (ho : bool) (n : Z).
Hypothesis Cn : c = [] \/ (decnum c n /\ n < 2 ^ 63).

Lemma parse_c : c <> [] -> parse_content_length c = Some n /\ 0 <= n.
Proof. intros N. destruct Cn as [E|[D B]]; [congruence|]. apply decnum_parse; auto. Qed.


Lemma send_cases s e k rs s1 st rs1 : send s e k rs = (s1, st, rs1) ->
  (st = SOk /\ s1 = k (push s e)) \/ (st <> SOk /\ s1 = s).
Proof.
  unfold send. destruct (answer rs) as [r l]. destruct (r =? 0) eqn:E; intros F; injection F as <- <- <-; [auto|].
  right. split; [|reflexivity]. unfold to_stat. rewrite E. destruct (r =? -1); [discriminate|].
  destruct (r =? -2); discriminate.
Qed.

(** WriteHeader. *)
Lemma write_header_J s need over acc rs s1 st rs1 :
  J c ho n s need over acc -> write_header s rs = (s1, st, rs1) ->
  J c ho n s1 need over acc /\
  (st = SOk -> J c ho n s1 (pred need) over acc) /\
  (st = SOk -> hdr s = true \/ 200 <= status s -> hdr s1 = true) /\
  (st = SOk -> hdr s1 = true \/ 200 <= status s1).
Proof.
  intros [H1 H2 H3 H4 H5 H6] E. unfold write_header in E. destruct (hdr s) eqn:Hh; cbn [negb] in E.
  { injection E as <- <- <-. repeat split; auto; try congruence; rewrite Hh; exact H6. }
  destruct (H5 eq_refl) as [N1 N2]. destruct H6 as (A & O & W0 & k & W).
  destruct (status s <? 200) eqn:Es.
  - apply send_cases in E. destruct E as [[-> ->]|[Ns ->]].
    + assert (X : forall nd, (1 <= nd)%nat -> J c ho n (set_status (push s Info) 200) nd over acc).
      { intros nd L. split; cbn [clh honly te don hdr status wire set_status push wrt cl]; auto.
        - intros _. split; [lia|lia].
        - rewrite Hh. repeat split; auto. exists (S k). rewrite W. clear.
          change [Info] with (repeat Info 1). rewrite <- repeat_app. f_equal. lia. }
      split; [apply X; lia|]. split; [intros _; apply X; lia|].
      cbn [hdr status set_status push]. rewrite Hh. split; [intros _ [F|F]; [discriminate|lia]|].
      intros _. right. lia.
    + split; [|repeat split; intros; congruence].
      split; auto. rewrite Hh. repeat split; auto. exists k. exact W.
  - rewrite H1 in E.
    set (cc := match c with [] => kChunked | _ => match parse_content_length c with Some v => v | None => 0 end end) in E.
    assert (Ec : cc = if is_nil c then -1 else n).
    { unfold cc. destruct c as [|b l] eqn:Eb; [reflexivity|]. rewrite <- Eb in *.
      assert (c <> []) as Q by (rewrite Eb; discriminate). rewrite Eb in Q.
      destruct (parse_c) as [P _]; [rewrite Eb; discriminate|]. rewrite Eb in P. rewrite Eb. rewrite P. reflexivity. }
    assert (Et : (if cc =? kChunked then true else te s) = is_nil c).
    { rewrite Ec. destruct c as [|b l] eqn:Eb; [reflexivity|]. rewrite <- Eb in *. unfold kChunked.
      destruct parse_c as [_ P]; [rewrite Eb; discriminate|].
      replace (is_nil c) with false by (rewrite Eb; reflexivity). replace (n =? -1) with false by lia.
      destruct (te s); [|reflexivity]. rewrite Eb in H3. discriminate (H3 eq_refl). }
    rewrite Et in E. cbn [honly te clh set_cl] in E. rewrite H2 in E.
    set (s2 := if ho then set_cl (set_cl s cc (is_nil c)) 0 (is_nil c) else set_cl s cc (is_nil c)) in E.
    assert (S2 : clh s2 = c /\ honly s2 = ho /\ te s2 = is_nil c /\ don s2 = over /\ hdr s2 = false /\
                 status s2 = status s /\ wrt s2 = 0 /\ wire s2 = repeat Info k /\ cl s2 = the_cl c ho n).
    { unfold s2, the_cl. rewrite <- Ec. destruct ho; cbn [clh honly te don hdr status wrt wire cl set_cl]; repeat split; auto. }
    destruct S2 as (T1 & T2 & T3 & T4 & T5 & T6 & T7 & T8 & T9).
    assert (Tn : is_nil c = true -> c = []) by (clear; destruct c; [auto|discriminate]).
    apply send_cases in E. destruct E as [[-> ->]|[Ns ->]].
    + assert (X : forall nd, J c ho n (set_hdr (push s2 (Head (te s2) (clh s2) (honly s2)))) nd over acc).
      { intros nd. split; cbn [clh honly te don hdr status wire set_hdr push wrt cl]; auto; try congruence; try (intros Q; apply Tn; congruence).
        repeat split; auto.
        - rewrite T7, A. destruct (is_nil c && negb ho); reflexivity.
        - exists k, []. rewrite T8, T1, T2, T3. split; [reflexivity|]. simpl. rewrite A, O. unfold part.
          destruct ho; [auto|]. destruct (is_nil c) eqn:Q; [constructor|].
          destruct parse_c as [_ P]; [intros Z0; rewrite Z0 in Q; discriminate|].
          split; [reflexivity|]. split; [exact P|discriminate]. }
      repeat split; try apply X; auto.
    + split; [|repeat split; intros; congruence]. split; auto; try congruence; try (intros Q; apply Tn; congruence).
      * rewrite T6. auto.
      * rewrite T5. repeat split; auto. exists k. exact T8.
Qed.

Lemma header_loop_J s need over acc rs : J c ho n s need over acc ->
  exists s1 st rs1, header_loop 4 s rs = Ok (s1, st, rs1) /\ J c ho n s1 need over acc /\
    (st = SOk -> hdr s1 = true).
Proof.
  intros H. cbn [header_loop]. destruct (hdr s) eqn:Hh; cbn [negb]; [eauto 10|].
  destruct (write_header s rs) as [[s1 st] rs1] eqn:E. destruct (write_header_J _ _ _ _ _ _ _ _ H E) as (A & _ & B & C).
  destruct st; [|(exists s1; eexists; exists rs1; split; [reflexivity|split; [exact A|discriminate]]) ..].
  destruct (hdr s1) eqn:H1; cbn [negb]; [eauto 10|]. destruct (C eq_refl) as [F|F]; [congruence|].
  destruct (write_header s1 rs1) as [[s2 st] rs2] eqn:E2. destruct (write_header_J _ _ _ _ _ _ _ _ A E2) as (A2 & _ & B2 & C2).
  destruct st; [|(exists s2; eexists; exists rs2; split; [reflexivity|split; [exact A2|discriminate]]) ..].
  rewrite (B2 eq_refl (or_intror F)). cbn [negb]. eauto 10.
Qed.

Lemma size_app a b : size (a ++ b) = size a + size b.
Proof. unfold size. rewrite app_length. lia. Qed.

Lemma u64_small z : 0 <= z < 2 ^ 64 -> u64 z = z. Proof. intros. apply Z.mod_small. auto. Qed.

Lemma J_need s a b over acc : hdr s = true -> J c ho n s a over acc -> J c ho n s b over acc.
Proof. intros H []. split; auto. congruence. Qed.

Lemma nil_c : is_nil c = true -> c = []. Proof. destruct c; [auto|discriminate]. Qed.
Lemma not_nil_c : is_nil c = false -> c <> []. Proof. destruct c; [discriminate|intros _; discriminate]. Qed.

Lemma the_cl_range : the_cl c ho n = -1 \/ 0 <= the_cl c ho n < 2 ^ 63.
Proof.
  unfold the_cl. destruct ho; [right; lia|]. destruct (is_nil c) eqn:E; [left; reflexivity|]. right.
  apply not_nil_c in E. destruct (parse_c E). destruct Cn as [X|X]; [congruence|]. lia.
Qed.

Lemma the_cl_chunked : the_cl c ho n = -1 <-> ho = false /\ c = [].
Proof.
  unfold the_cl. destruct ho; [split; [discriminate|intros [? _]; discriminate]|].
  destruct (is_nil c) eqn:E; [apply nil_c in E; tauto|].
  apply not_nil_c in E. destruct (parse_c E). split; [lia|intros [_ ?]; congruence].
Qed.

Lemma not_chunked : the_cl c ho n <> -1 -> is_nil c && negb ho = false.
Proof. unfold the_cl. clear. destruct ho, (is_nil c); auto; congruence. Qed.

(** Write. *)
Lemma write_J s need over acc item rs : size item < 2 ^ 63 -> J c ho n s need over acc ->
  exists s1 st rs1, write s item rs = Ok (s1, st, rs1) /\
    (st <> SOk -> J c ho n s1 need over acc) /\
    (st = SOk -> item <> [] -> over = false -> J c ho n s1 0 over (acc ++ item)).
Proof.
  intros Sz H. unfold write. destruct (header_loop_J _ _ _ _ rs H) as (s1 & st & rs1 & E & A & B).
  rewrite E. cbn [bind].
  destruct st; try (exists s1; eexists; eexists; split; [reflexivity|]; split; [auto|discriminate]).
  specialize (B eq_refl). pose proof A as [H1 H2 H3 H4 H5 H6]. rewrite B in H6.
  destruct H6 as (W1 & W2 & W3 & k & bs & W4 & W5).
  change (blen item) with (size item). assert (P0 : 0 <= size item) by (unfold size; lia).
  destruct (cl s1 =? kChunked) eqn:Ek; unfold kChunked in Ek; cbn [negb andb].
  - apply Z.eqb_eq in Ek. rewrite W1 in Ek. apply the_cl_chunked in Ek. destruct Ek as [Eho Ec].
    destruct (chunk_ok item) as (ds & F & G); [lia|]. rewrite F. cbn [bind].
    destruct (send s1 _ _ rs1) as [[s2 st2] rs2] eqn:E2. apply send_cases in E2.
    destruct E2 as [[-> ->]|[Ns ->]]; (eexists; eexists; eexists; split; [reflexivity|]); [|split; auto; congruence].
    split; [congruence|]. intros _ Ni Ov.
    split; cbn [clh honly te don hdr status wire set_wrt push wrt cl]; auto; try congruence.
    rewrite B. repeat split; auto.
    { rewrite Ec, Eho. exact I. }
    exists k, (bs ++ [ds ++ crlf ++ item ++ crlf]). rewrite W4, map_app, <- app_assoc. split; [reflexivity|].
    unfold part in *. rewrite Eho, Ec, Ov in *. cbn [is_nil] in *. rewrite concat_app. simpl concat. rewrite app_nil_r.
    apply chunks_app; [exact W5|]. apply chunks_one; auto.
  - apply Z.eqb_neq in Ek. rewrite W1 in Ek.
    assert (NC : is_nil c && negb ho = false) by (apply not_chunked; exact Ek).
    rewrite NC in W3. destruct (the_cl_range) as [R|R]; [congruence|].
    assert (L : size acc <= the_cl c ho n).
    { unfold part in W5. unfold the_cl. destruct ho; [destruct W5 as [_ ->]; unfold size; simpl; lia|].
      destruct (is_nil c); [discriminate|]. lia. }
    assert (P1 : 0 <= size acc) by (unfold size; lia).
    rewrite W1, W3, !u64_small by lia.
    destruct (size acc + size item >? the_cl c ho n) eqn:G.
    { eexists; eexists; eexists; split; [reflexivity|]. split; auto; congruence. }
    cbn [bind]. destruct (send s1 _ _ rs1) as [[s2 st2] rs2] eqn:E2. apply send_cases in E2.
    destruct E2 as [[-> ->]|[Ns ->]]; (eexists; eexists; eexists; split; [reflexivity|]); [|split; auto; congruence].
    split; [congruence|]. intros _ Ni Ov.
    split; cbn [clh honly te don hdr status wire set_wrt push wrt cl]; auto; try congruence.
    rewrite B. repeat split; auto.
    { rewrite NC. rewrite size_app, W3. apply u64_small. lia. }
    exists k, (bs ++ [item]). rewrite W4, map_app, <- app_assoc. split; [reflexivity|].
    rewrite concat_app. simpl concat. rewrite app_nil_r.
    unfold part, the_cl in *. pose proof (size_nonempty _ Ni). destruct ho.
    + exfalso. lia.
    + destruct (is_nil c); [discriminate|]. destruct W5 as (-> & W6 & _).
      split; [reflexivity|]. split; [rewrite size_app; lia|congruence].
Qed.

(** WriteDone. *)
Lemma write_done_J s need over acc rs s1 st rs1 :
  J c ho n s need over acc -> write_done s rs = (s1, st, rs1) ->
  (st <> SOk -> J c ho n s1 need over acc) /\ (st = SOk -> need = O -> J c ho n s1 0 true acc).
Proof.
  intros A E. unfold write_done in E. pose proof A as [H1 H2 H3 H4 H5 H6]. rewrite H4 in E.
  destruct over; cbn [negb] in E.
  { injection E as <- <- <-. split; [congruence|]. intros _ ->. exact A. }
  unfold kChunked in E. destruct (cl s =? -1) eqn:Ek.
  - apply send_cases in E. destruct E as [[-> ->]|[Ns ->]]; [|split; [auto|congruence]].
    split; [congruence|]. intros _ ->.
    destruct (hdr s) eqn:B; [|destruct (H5 eq_refl); lia]. destruct H6 as (W1 & W2 & W3 & k & bs & W4 & W5).
    apply Z.eqb_eq in Ek. rewrite W1 in Ek. apply the_cl_chunked in Ek. destruct Ek as [Eho Ec].
    split; cbn [clh honly te don hdr status wire set_done push wrt cl]; auto; try congruence.
    rewrite B. repeat split; auto. exists k, (bs ++ [s_end_chunked]). rewrite W4, map_app, <- app_assoc.
    split; [reflexivity|]. unfold part in *. rewrite Eho, Ec in *. cbn [is_nil] in *.
    rewrite concat_app. simpl concat. apply end_chunked_ok. exact W5.
  - destruct (wrt s =? u64 (cl s)) eqn:Ew; cbn [negb] in E; injection E as <- <- <-.
    + split; [congruence|]. intros _ ->.
      destruct (hdr s) eqn:B; [|destruct (H5 eq_refl); lia]. destruct H6 as (W1 & W2 & W3 & k & bs & W4 & W5).
      apply Z.eqb_neq in Ek. rewrite W1 in Ek.
      assert (NC : is_nil c && negb ho = false) by (apply not_chunked; exact Ek).
      rewrite NC in W3. destruct (the_cl_range) as [R|R]; [congruence|].
      rewrite W1, W3, u64_small in Ew by lia. apply Z.eqb_eq in Ew.
      split; cbn [clh honly te don hdr status wire set_done push wrt cl]; auto; try congruence.
      rewrite B. repeat split; auto. { rewrite NC. exact W3. }
      exists k, bs. split; [exact W4|]. unfold part, the_cl in *. destruct ho; [exact W5|].
      destruct (is_nil c); [discriminate|]. destruct W5 as (X & Y & _). auto.
    + split; [|congruence]. intros _. split; cbn [clh honly te don hdr status wire set_shut wrt cl]; auto.
Qed.


Lemma run_J ops : forall s need over acc rs s1 sts, Forall small_op ops ->
  J c ho n s need over acc -> run s ops rs = Ok (s1, sts) -> careful need over (combine ops sts) ->
  exists need1, J c ho n s1 need1 (over_after over (combine ops sts)) (acc ++ accepted (combine ops sts)).
Proof.
  induction ops as [|op ops IH]; intros s need over acc rs s1 sts F H R C.
  - injection R as <- <-. exists need. simpl. rewrite app_nil_r. exact H.
  - cbn [run] in R. destruct (exec s op rs) as [[[s2 st] rs2]| | |] eqn:E; cbn [bind] in R; try discriminate.
    destruct (run s2 ops rs2) as [[s3 sts2]| | |] eqn:E2; cbn [bind] in R; try discriminate.
    injection R as <- <-. inversion F as [|? ? F1 F2]; subst.
    assert (K : forall need' over' acc', J c ho n s2 need' over' acc' -> careful need' over' (combine ops sts2) ->
       exists need1, J c ho n s3 need1 (over_after over' (combine ops sts2))
       (acc' ++ accepted (combine ops sts2))) by (intros; eapply IH; eauto). clear IH.
    cbn [combine] in *. destruct op as [|item| |]; cbn [exec] in E.
    + injection E as E. destruct (write_header_J _ _ _ _ _ _ _ _ H E) as (A & B & _).
      destruct st; cbn [careful over_after accepted] in *; eauto.
    + destruct (write_J s need over acc item rs F1 H) as (s2' & st' & rs2' & E' & A & B).
      rewrite E in E'. injection E' as <- <- <-.
      destruct st; cbn [careful over_after accepted] in *; try (destruct C as [_ C]; apply (K need); [apply A; congruence|assumption]; fail).
      destruct C as (C1 & C2 & C3). rewrite app_assoc. apply (K 0%nat); auto.
    + injection E as E. destruct (write_done_J _ _ _ _ _ _ _ _ H E) as (A & B).
      destruct st; cbn [careful over_after accepted] in *; try (apply (K need); [apply A; congruence|assumption]).
      destruct C as (C1 & C2). apply (K 0%nat); auto.
    + destruct st; destruct C.
Qed.

End S.

Lemma over_after_in tr : forall over, over_after over tr = true <-> over = true \/ finished tr.
Proof.
  unfold finished. induction tr as [|[op st] l IH]; intros over; cbn [over_after]; [simpl; tauto|].
  assert (X : over_after over l = true <-> over = true \/ In (ODone, SOk) l) by apply IH.
  assert (Y : over_after true l = true <-> true = true \/ In (ODone, SOk) l) by apply IH.
  destruct op, st; simpl; try (rewrite X; split; [tauto|]; intros [?|[?|?]]; [tauto|discriminate|tauto]).
  rewrite Y. tauto.
Qed.

(** Nothing goes wrong whatever is called. *)
Lemma header_loop_total s rs : exists r, header_loop 4 s rs = Ok r.
Proof.
  assert (W : forall s rs s1 st rs1, write_header s rs = (s1, st, rs1) -> st = SOk -> hdr s1 = true \/ 200 <= status s1).
  { intros s0 r0 s1 st rs1 E ->. unfold write_header in E. destruct (hdr s0) eqn:H; cbn [negb] in E.
    - injection E as <- <-. auto.
    - destruct (status s0 <? 200) eqn:L; apply send_cases in E; destruct E as [[_ ->]|[F _]]; try congruence.
      + right. simpl. lia.
      + left. reflexivity. }
  assert (V : forall s rs s1 st rs1, write_header s rs = (s1, st, rs1) -> st = SOk -> 200 <= status s -> hdr s1 = true).
  { intros s0 r0 s1 st rs1 E -> L0. unfold write_header in E. destruct (hdr s0) eqn:H; cbn [negb] in E.
    - injection E as <- <-. auto.
    - replace (status s0 <? 200) with false in E by lia. apply send_cases in E; destruct E as [[_ ->]|[F _]]; [reflexivity|congruence]. }
  cbn [header_loop]. destruct (hdr s); cbn [negb]; [eauto|].
  destruct (write_header s rs) as [[s1 st] rs1] eqn:E1. destruct st; eauto.
  destruct (hdr s1) eqn:H1; cbn [negb]; [eauto|]. destruct (W _ _ _ _ _ E1 eq_refl) as [X|X]; [congruence|].
  destruct (write_header s1 rs1) as [[s2 st] rs2] eqn:E2. destruct st; eauto.
  rewrite (V _ _ _ _ _ E2 eq_refl X). cbn [negb]. eauto.
Qed.

Lemma exec_total s op rs : small_op op -> exists r, exec s op rs = Ok r.
Proof.
  intros S0. destruct op; cbn [exec]; eauto.
  - unfold write. destruct (header_loop_total s rs) as [[[s1 st] rs1] ->]. cbn [bind]. destruct st; eauto.
    destruct (negb _ && _); eauto. destruct (cl s1 =? kChunked); [|cbn [bind]; eauto].
    destruct (chunk_ok item) as (ds & -> & _); [cbn [small_op] in S0; lia|]. cbn [bind]. eauto.
  - destruct (close s rs). eauto.
Qed.

Lemma run_total ops : forall s rs, Forall small_op ops ->
  exists s1 sts, run s ops rs = Ok (s1, sts) /\ length sts = length ops.
Proof.
  induction ops as [|op ops IH]; intros s rs F; [simpl; eauto|]. inversion F; subst.
  cbn [run]. destruct (exec_total s op rs) as [[[s1 st] rs1] ->]; auto. cbn [bind].
  destruct (IH s1 rs1) as (s2 & sts & -> & L); auto. cbn [bind]. eexists _, _. split; [reflexivity|]. simpl. lia.
Qed.

(** The claim about the server. *)
Lemma server_l st c ho ops rs s sts :
  good_length c -> Forall small_op ops ->
  run (sw_init st false c ho) ops rs = Ok (s, sts) ->
  careful (if st <? 200 then 2 else 1) false (combine ops sts) ->
  let tr := combine ops sts in
  (finished tr -> message (wire s) (accepted tr)) /\ (~ finished tr -> under_way (wire s) (accepted tr)).
Proof.
  intros G F R C tr.
  assert (Gn : exists n, c = [] \/ decnum c n /\ n < 2 ^ 63).
  { destruct G as [->|(n & D & B)]; [exists 0; auto|exists n; auto]. }
  destruct Gn as [n Gn].
  assert (J0 : J c ho n (sw_init st false c ho) (if st <? 200 then 2 else 1) false []).
  { split; simpl; auto; try discriminate.
    - intros _. destruct (st <? 200) eqn:E; lia.
    - repeat split; auto. exists O. reflexivity. }
  destruct (run_J c ho n Gn ops _ _ _ _ rs s sts F J0 R C) as [n1 [H1 H2 H3 H4 H5 H6]].
  fold tr in H4, H6. simpl app in H6. split; intros D.
  - assert (O : over_after false tr = true) by (apply over_after_in; auto). rewrite O in *.
    destruct (hdr s) eqn:Hh; [|destruct H6 as (_ & X & _); discriminate].
    destruct H6 as (W1 & W2 & W3 & k & bs & W4 & W5). exists k, (is_nil c), c, ho, bs. split; [exact W4|].
    unfold part in W5. unfold body. destruct ho; [exact W5|]. destruct c as [|b l]; cbn [is_nil] in *; [exact W5|].
    destruct W5 as (W5 & _ & W6). split; [exact W5|]. rewrite (W6 eq_refl). destruct Gn as [X|[X _]]; [discriminate|exact X].
  - assert (O : over_after false tr = false).
    { destruct (over_after false tr) eqn:O; [|reflexivity]. apply over_after_in in O. destruct O; [discriminate|contradiction]. }
    rewrite O in *. destruct (hdr s) eqn:Hh.
    + right. destruct H6 as (W1 & W2 & W3 & k & bs & W4 & W5). exists k, (is_nil c), c, ho, bs. split; [exact W4|].
      unfold part in W5. unfold body_start. destruct ho; [exact W5|]. destruct c as [|b l]; cbn [is_nil] in *; [exact W5|].
      destruct W5 as (W5 & W6 & _). split; [exact W5|]. exists n. split; [|exact W6]. destruct Gn as [X|[X _]]; [discriminate|exact X].
    + left. destruct H6 as (W1 & W2 & W3 & k & W4). exists k. auto.
Qed.

(** Close ends the body once the head is out, and does nothing before. *)
Lemma send_isrsp s e k rs : (forall t, isrsp (k t) = negb (hdr (k t)) \/ isrsp (k t) = isrsp t /\ hdr (k t) = hdr t) ->
  isrsp s = negb (hdr s) -> let s1 := fst (fst (send s e k rs)) in isrsp s1 = negb (hdr s1).
Proof.
  intros K H. unfold send. destruct (answer rs) as [r l]. destruct (r =? 0); simpl; [|exact H].
  destruct (K (push s e)) as [X|[X Y]]; [exact X|]. rewrite X, Y. exact H.
Qed.

Lemma write_header_isrsp s rs : isrsp s = negb (hdr s) ->
  let s1 := fst (fst (write_header s rs)) in isrsp s1 = negb (hdr s1).
Proof.
  intros H. unfold write_header. destruct (hdr s) eqn:Hh; cbn [negb]; [simpl; rewrite Hh; exact H|].
  destruct (status s <? 200).
  - apply send_isrsp; [intros t; right; split; reflexivity|]. rewrite Hh. exact H.
  - apply send_isrsp; [intros t; left; reflexivity|]. destruct (honly _); simpl; rewrite Hh; exact H.
Qed.

Lemma write_done_isrsp s rs : isrsp s = negb (hdr s) ->
  let s1 := fst (fst (write_done s rs)) in isrsp s1 = negb (hdr s1).
Proof.
  intros H. unfold write_done. destruct (don s); cbn [negb]; [exact H|]. destruct (cl s =? kChunked).
  - apply send_isrsp; [intros t; right; split; reflexivity|exact H].
  - destruct (wrt s =? u64 (cl s)); simpl; exact H.
Qed.

Lemma header_loop_isrsp f : forall s rs s1 st rs1, isrsp s = negb (hdr s) ->
  header_loop f s rs = Ok (s1, st, rs1) -> isrsp s1 = negb (hdr s1).
Proof.
  induction f as [|f IH]; intros s rs s1 st rs1 H E; [discriminate|]. cbn [header_loop] in E.
  assert (X := write_header_isrsp s rs H).
  destruct (hdr s) eqn:Hh; cbn [negb] in E; [injection E as <- <- <-; rewrite Hh; exact H|]. destruct (write_header s rs) as [[s2 st2] rs2]. simpl in X.
  destruct st2; [eapply IH; eauto|injection E as <- <- <-; exact X ..].
Qed.

Lemma exec_isrsp s op rs s1 st rs1 : isrsp s = negb (hdr s) -> exec s op rs = Ok (s1, st, rs1) ->
  isrsp s1 = negb (hdr s1).
Proof.
  intros H E. destruct op; cbn [exec] in E.
  - assert (X := write_header_isrsp s rs H). injection E as E. rewrite E in X. exact X.
  - unfold write in E. destruct (header_loop 4 s rs) as [[[s2 st2] rs2]| | |] eqn:L; try discriminate. cbn [bind] in E.
    assert (X := header_loop_isrsp _ _ _ _ _ _ H L).
    destruct st2; [|injection E as <- <- <-; exact X ..].
    destruct (negb _ && _); [injection E as <- <- <-; exact X|].
    destruct (if cl s2 =? kChunked then chunk item else Ok item) as [b| | |]; try discriminate. cbn [bind] in E.
    injection E as E. assert (Y := send_isrsp s2 (Body b) (fun t => set_wrt t (u64 (wrt t + blen item))) rs2).
    rewrite E in Y. apply Y; [intros t; right; split; reflexivity|exact X].
  - assert (X := write_done_isrsp s rs H). injection E as E. rewrite E in X. exact X.
  - unfold close in E. destruct (isrsp s) eqn:I0; cbn [negb] in E; [injection E as <- <- <-; congruence|].
    assert (X := write_header_isrsp s rs). destruct (write_header s rs) as [[s2 st2] rs2]. simpl in X.
    assert (Y := write_done_isrsp s2 rs2). destruct (write_done s2 rs2) as [[s3 st3] rs3]. simpl in Y.
    injection E as <- <- <-. rewrite I0 in X. auto.
Qed.

Lemma run_isrsp ops : forall s rs s1 sts, isrsp s = negb (hdr s) -> run s ops rs = Ok (s1, sts) ->
  isrsp s1 = negb (hdr s1).
Proof.
  induction ops as [|op ops IH]; intros s rs s1 sts H R; cbn [run] in R; [injection R as <- <-; exact H|].
  destruct (exec s op rs) as [[[s2 st] rs2]| | |] eqn:E; try discriminate. cbn [bind] in R.
  destruct (run s2 ops rs2) as [[s3 sts3]| | |] eqn:E2; try discriminate. cbn [bind] in R. injection R as <- <-.
  eapply IH; [|exact E2]. eapply exec_isrsp; eauto.
Qed.

Lemma close_l st ops rs s sts s1 rs1 :
  Forall small_op ops -> run (sw_init st false [] false) ops rs = Ok (s, sts) ->
  careful (if st <? 200 then 2 else 1) false (combine ops sts) ->
  close s [] = (s1, rs1) ->
  if hdr s then message (wire s1) (accepted (combine ops sts)) else wire s1 = wire s.
Proof.
  intros F R C E. set (tr := combine ops sts) in *.
  assert (I0 := run_isrsp ops _ rs s sts (eq_refl : isrsp (sw_init st false [] false) = negb (hdr (sw_init st false [] false))) R).
  assert (J0 : J [] false 0 (sw_init st false [] false) (if st <? 200 then 2 else 1) false []).
  { split; simpl; auto; try discriminate.
    - intros _. destruct (st <? 200) eqn:L; lia.
    - repeat split; auto. exists O. reflexivity. }
  destruct (run_J [] false 0 (or_introl eq_refl) ops _ _ _ _ rs s sts F J0 R C) as [n1 [H1 H2 H3 H4 H5 H6]].
  fold tr in H4, H6. simpl app in H6. unfold close in E. rewrite I0 in E.
  destruct (hdr s) eqn:Hh; cbn [negb] in E; [|injection E as <- <-; reflexivity].
  unfold write_header in E. rewrite Hh in E. cbn [negb] in E. unfold write_done in E.
  destruct H6 as (W1 & W2 & _ & k & bs & W4 & W5). rewrite W1 in E. cbn [is_nil negb andb part] in *.
  unfold part in W5. cbn [is_nil] in W5. rewrite H4 in E. destruct (over_after false tr) eqn:O.
  - cbn [negb] in E. injection E as <- <-. exists k, true, [], false, bs. split; [exact W4|exact W5].
  - cbn [negb] in E. change (the_cl [] false 0 =? kChunked) with true in E.
    unfold send in E. cbn [answer] in E. change (0 =? 0) with true in E. cbv iota in E. injection E as <- <-.
    exists k, true, [], false, (bs ++ [s_end_chunked]). split.
    + cbn [wire set_done push]. rewrite W4, <- app_assoc. simpl. rewrite map_app. reflexivity.
    + unfold body. rewrite concat_app. apply end_chunked_ok. exact W5.
Qed.
