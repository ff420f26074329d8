(** The two comparisons of header maps are orders on the names they are used with. *)
From Coq Require Import Permutation Sorted.
From Verif.Lib Require Import Base Bytes ListX.
From Coq Require Import Strings.Byte.
From Verif.HttpFields Require Import Model Spec Proofs.
Local Open Scope Z_scope.

(** ** Case-sensitive *)
Lemma cs_irrefl a : cs_lt a a = false.
Proof. induction a as [|x a IH]; cbn; auto. rewrite Z.ltb_irrefl, Z.eqb_refl. auto. Qed.

Lemma cs_trans : forall a b c, cs_lt a b = true -> cs_lt b c = true -> cs_lt a c = true.
Proof.
  induction a as [|x a IH]; intros [|y b] [|z c]; cbn; intros H1 H2; try discriminate; auto.
  apply orb_true_iff in H1. apply orb_true_iff in H2. apply orb_true_iff. rewrite !andb_true_iff, Z.ltb_lt, Z.eqb_eq in *.
  destruct H1 as [H1|[H1 H1']], H2 as [H2|[H2 H2']]; try (left; lia). right. split; [lia|]. eapply IH; eauto.
Qed.

Lemma cs_total : forall a b, a <> b -> cs_lt a b = true \/ cs_lt b a = true.
Proof.
  induction a as [|x a IH]; intros [|y b] N; cbn; auto.
  rewrite !orb_true_iff, !andb_true_iff, !Z.ltb_lt, !Z.eqb_eq.
  destruct (Z.lt_total (b2z x) (b2z y)) as [H|[H|H]]; auto.
  assert (x = y) by (apply b2z_inj; auto). subst. destruct (IH b) as [E|E]; [congruence| |]; auto.
Qed.

Lemma query_map_l cs : no_set_if_not_present cs ->
  exists l answers, fm_run cs_less [] cs = Ok (l, answers) /\ Forall2 (agree same_cs any_order) answers (s_run same_cs [] cs).
Proof.
  intros H.
  apply (run_ok cs_less (fun x => x) cs_lt (names cs)).
  - reflexivity.
  - intros a _. apply cs_irrefl.
  - intros a b c _ _ _. apply cs_trans.
  - intros a b _ _. apply cs_total.
  - intros. exact I.
  - auto.
  - intros k v Hin. destruct (H k v Hin).
  - apply R_nil.
Qed.

(** ** Case-insensitive *)
Lemma lower_check : forall b, Byte.eqb (lower b) (ascii_lower b) = true /\ (b2z b =? 0) = (b2z (ascii_lower b) =? 0) /\
  Byte.eqb b x3a = Byte.eqb (ascii_lower b) x3a /\ Byte.eqb b x00 = Byte.eqb (ascii_lower b) x00.
Proof. destruct b; vm_compute; repeat split. Qed.

Lemma lower_eq b : lower b = ascii_lower b.
Proof. destruct (byte_eqb_spec (lower b) (ascii_lower b)); auto. destruct (lower_check b) as (E & _). destruct (byte_eqb_spec (lower b) (ascii_lower b)); congruence. Qed.

Fixpoint scmp (a b : list byte) : Z :=
  match a, b with
  | [], _ => 0
  | x :: _, [] => b2z x
  | x :: r, y :: t => if negb (b2z x =? b2z y) then b2z x - b2z y else if b2z x =? 0 then 0 else scmp r t
  end.

Definition low (n : name) : name := map ascii_lower n.

Lemma strncasecmp_scmp : forall a b, strncasecmp a b = scmp (low a) (low b).
Proof.
  induction a as [|x a IH]; intros [|y b]; cbn; auto; rewrite ?lower_eq; auto.
  destruct (lower_check x) as (_ & E & _). rewrite E, IH. reflexivity.
Qed.

Lemma scmp_refl a : scmp a a = 0.
Proof. induction a as [|x a IH]; cbn; auto. rewrite Z.eqb_refl. cbn. destruct (b2z x =? 0); auto. Qed.

Lemma scmp_trans : forall a b c, scmp a b < 0 -> scmp b c < 0 -> scmp a c < 0.
Proof.
  induction a as [|x a IH]; intros [|y b] [|z c]; cbn; intros H1 H2; try lia;
    try (match goal with H : b2z ?v < 0 |- _ => pose proof (b2z_range v); lia end).
  - destruct (Z.eqb_spec (b2z x) (b2z y)); cbn [negb] in H1; destruct (Z.eqb_spec (b2z y) (b2z z)); cbn [negb] in H2;
      destruct (Z.eqb_spec (b2z x) (b2z z)); cbn [negb]; try lia.
    destruct (Z.eqb_spec (b2z x) 0); [lia|]. destruct (Z.eqb_spec (b2z y) 0); [lia|]. eapply IH; eauto.
Qed.

Lemma scmp_total : forall a b, ~ In x00 a -> ~ In x00 b ->
  scmp a b < 0 \/ scmp b a < 0 \/ (exists r, b = a ++ r) \/ (exists r, a = b ++ r).
Proof.
  induction a as [|x a IH]; intros [|y b] Ha Hb.
  - right. right. left. exists []. reflexivity.
  - right. right. left. exists (y :: b). reflexivity.
  - right. right. right. exists (x :: a). reflexivity.
  - cbn [scmp]. destruct (Z.eqb_spec (b2z x) (b2z y)) as [E|E].
    + cbn [negb]. assert (x = y) by (apply b2z_inj; auto). subst y. rewrite Z.eqb_refl. cbn [negb].
      destruct (Z.eqb_spec (b2z x) 0) as [Z0|Z0].
      { exfalso. apply Ha. left. apply b2z_inj. rewrite Z0. reflexivity. }
      destruct (IH b) as [H|[H|[[r H]|[r H]]]]; auto.
      * intros Q. apply Ha. right. auto.
      * intros Q. apply Hb. right. auto.
      * right. right. left. exists r. subst. reflexivity.
      * right. right. right. exists r. subst. reflexivity.
    + cbn [negb]. destruct (Z.eqb_spec (b2z y) (b2z x)); [lia|]. cbn [negb]. lia.
Qed.

Lemma scmp_zero : forall a b, ~ In x00 a -> length a = length b -> scmp a b = 0 -> a = b.
Proof.
  induction a as [|x a IH]; intros [|y b] Ha Hl H; cbn in *; try discriminate; auto.
  destruct (Z.eqb_spec (b2z x) (b2z y)) as [E|E]; cbn [negb] in H; [|lia].
  assert (x = y) by (apply b2z_inj; auto). subst y.
  destruct (Z.eqb_spec (b2z x) 0) as [Z0|Z0].
  { exfalso. apply Ha. left. apply b2z_inj. rewrite Z0. reflexivity. }
  f_equal. apply IH; auto.
Qed.

Definition colon (n : name) : bool := match n with c :: _ => Byte.eqb c x3a | [] => false end.

Definition ci_lt (a b : name) : bool :=
  if negb (length a =? length b)%nat && negb (colon a) && negb (colon b) then (length a <? length b)%nat else scmp a b <? 0.

Lemma colon_low n : colon (low n) = colon n.
Proof. destruct n as [|c n]; auto. cbn. destruct (lower_check c) as (_ & _ & E & _). auto. Qed.

Lemma pseudo_colon n : pseudo n = colon n.
Proof. destruct n as [|c n]; auto. cbn. destruct c; reflexivity. Qed.

Lemma ci_less_lt a b : a <> [] -> b <> [] -> ci_less a b = Ok (ci_lt (low a) (low b)).
Proof.
  intros Ha Hb. unfold ci_less, ci_lt, low. rewrite !map_length. fold (low a) (low b). rewrite !colon_low.
  destruct a as [|x a]; [congruence|]. destruct b as [|y b]; [congruence|]. rewrite strncasecmp_scmp. cbn [front colon].
  destruct (length (x :: a) =? length (y :: b))%nat; cbn [negb andb bind]; [reflexivity|].
  destruct (Byte.eqb x x3a); cbn [negb andb bind]; [reflexivity|]. destruct (Byte.eqb y x3a); reflexivity.
Qed.

Lemma low_no_nul n : ~ In x00 n -> ~ In x00 (low n).
Proof.
  intros H Q. unfold low in Q. apply in_map_iff in Q. destruct Q as (x & E & Hx). apply H.
  destruct (lower_check x) as (_ & _ & _ & C). rewrite E in C. change (Byte.eqb x00 x00) with true in C.
  destruct (byte_eqb_spec x x00); [subst; auto|congruence].
Qed.

Lemma ci_equal_same a b : ~ In x00 a -> ci_equal a b = same_ci a b.
Proof.
  intros Ha. unfold ci_equal, same_ci. fold (low a) (low b). rewrite strncasecmp_scmp.
  destruct (same_text_spec (low a) (low b)) as [E|E].
  - rewrite E, scmp_refl. apply (f_equal (@length byte)) in E. unfold low in E. rewrite !map_length in E. rewrite E, Nat.eqb_refl. reflexivity.
  - destruct (Nat.eqb_spec (length a) (length b)) as [L|L]; auto. destruct (Z.eqb_spec (scmp (low a) (low b)) 0) as [S|S]; auto.
    exfalso. apply E. apply scmp_zero; auto; [apply low_no_nul; auto|unfold low; rewrite !map_length; auto].
Qed.

Section Names.
Variable ks : list name.
Hypothesis ok : names_ok ks.

Lemma ok_name n : In n ks -> n <> [] /\ ~ In x00 n.
Proof. destruct ok as (H & _). auto. Qed.

Lemma lt_pp a b : colon a = true -> ci_lt a b = (scmp a b <? 0).
Proof. intros H. unfold ci_lt. rewrite H. rewrite andb_false_r. reflexivity. Qed.
Lemma lt_pp2 a b : colon b = true -> ci_lt a b = (scmp a b <? 0).
Proof. intros H. unfold ci_lt. rewrite H. rewrite andb_false_r. reflexivity. Qed.
Lemma lt_rr a b : colon a = false -> colon b = false ->
  ci_lt a b = if (length a =? length b)%nat then scmp a b <? 0 else (length a <? length b)%nat.
Proof. intros H1 H2. unfold ci_lt. rewrite H1, H2. destruct (length a =? length b)%nat; reflexivity. Qed.

(** If there is a pseudo header, the others start above ':'. *)
Lemma above_colon p r : In p ks -> colon p = true -> In r ks -> colon r = false ->
  exists c t, low r = c :: t /\ 58 < b2z c.
Proof.
  intros Hp Cp Hr Cr. destruct ok as (_ & [H|H] & _).
  - specialize (H p Hp). rewrite pseudo_colon in H. congruence.
  - rewrite <- pseudo_colon in Cr. specialize (H r Hr Cr). destruct r as [|c t]; [destruct H|]. exists (ascii_lower c), (low t). split; auto.
Qed.

Lemma pr a b : In a ks -> In b ks -> colon a = true -> colon b = false ->
  scmp (low a) (low b) < 0 /\ 0 <= scmp (low b) (low a).
Proof.
  intros Ha Hb Ca Cb. destruct (above_colon a b Ha Ca Hb Cb) as (c & t & E & L). rewrite E.
  destruct a as [|x a]; [discriminate|]. cbn [colon] in Ca. destruct (byte_eqb_spec x x3a); [|discriminate]. subst x.
  change (low (x3a :: a)) with (x3a :: low a). cbn [scmp]. change (b2z x3a) with 58.
  destruct (Z.eqb_spec 58 (b2z c)); [lia|]. destruct (Z.eqb_spec (b2z c) 58); [lia|]. cbn [negb]. lia.
Qed.

Lemma ci_trans a b c : In a ks -> In b ks -> In c ks ->
  ci_lt (low a) (low b) = true -> ci_lt (low b) (low c) = true -> ci_lt (low a) (low c) = true.
Proof.
  intros Ha Hb Hc.
  destruct (colon a) eqn:Ca, (colon b) eqn:Cb, (colon c) eqn:Cc.
  - rewrite !lt_pp by (rewrite colon_low; auto). rewrite !Z.ltb_lt. apply scmp_trans.
  - intros _ _. rewrite lt_pp by (rewrite colon_low; auto). apply Z.ltb_lt. apply pr; auto.
  - intros _ H. rewrite lt_pp2 in H by (rewrite colon_low; auto). apply Z.ltb_lt in H. destruct (pr c b Hc Hb Cc Cb). lia.
  - intros _ _. rewrite lt_pp by (rewrite colon_low; auto). apply Z.ltb_lt. apply pr; auto.
  - intros H. rewrite lt_pp2 in H by (rewrite colon_low; auto). apply Z.ltb_lt in H. destruct (pr b a Hb Ha Cb Ca). lia.
  - intros H. rewrite lt_pp2 in H by (rewrite colon_low; auto). apply Z.ltb_lt in H. destruct (pr b a Hb Ha Cb Ca). lia.
  - intros _ H. rewrite lt_pp2 in H by (rewrite colon_low; auto). apply Z.ltb_lt in H. destruct (pr c b Hc Hb Cc Cb). lia.
  - rewrite !lt_rr by (rewrite colon_low; auto).
    destruct (Nat.eqb_spec (length (low a)) (length (low b))), (Nat.eqb_spec (length (low b)) (length (low c))),
      (Nat.eqb_spec (length (low a)) (length (low c))); rewrite ?Z.ltb_lt, ?Nat.ltb_lt; try lia. apply scmp_trans.
Qed.

Lemma prefix_low a b r : low b = low a ++ r -> is_prefix_ci a b.
Proof. intros H. exists r. exact H. Qed.

Lemma ci_total a b : In a ks -> In b ks -> low a <> low b ->
  ci_lt (low a) (low b) = true \/ ci_lt (low b) (low a) = true.
Proof.
  intros Ha Hb N. destruct (ok_name a Ha) as [_ Za]. destruct (ok_name b Hb) as [_ Zb].
  pose proof (scmp_total (low a) (low b) (low_no_nul a Za) (low_no_nul b Zb)) as T.
  destruct (colon a) eqn:Ca, (colon b) eqn:Cb.
  - rewrite !lt_pp by (rewrite colon_low; auto). rewrite !Z.ltb_lt. destruct T as [T|[T|[[r T]|[r T]]]]; auto; exfalso.
    + destruct ok as (_ & _ & H). specialize (H a b Ha Hb). rewrite !pseudo_colon in H. specialize (H Ca Cb (prefix_low _ _ _ T)).
      unfold same_ci in H. destruct (same_text_spec (map ascii_lower a) (map ascii_lower b)); [auto|discriminate].
    + destruct ok as (_ & _ & H). specialize (H b a Hb Ha). rewrite !pseudo_colon in H. specialize (H Cb Ca (prefix_low _ _ _ T)).
      unfold same_ci in H. destruct (same_text_spec (map ascii_lower b) (map ascii_lower a)); [unfold low in N; congruence|discriminate].
  - left. rewrite lt_pp by (rewrite colon_low; auto). apply Z.ltb_lt. apply pr; auto.
  - right. rewrite lt_pp by (rewrite colon_low; auto). apply Z.ltb_lt. apply pr; auto.
  - rewrite !lt_rr by (rewrite colon_low; auto). rewrite (Nat.eqb_sym (length (low b))).
    destruct (Nat.eqb_spec (length (low a)) (length (low b))) as [E|E]; rewrite ?Z.ltb_lt, ?Nat.ltb_lt; [|lia].
    destruct T as [T|[T|[[r T]|[r T]]]]; auto; exfalso; apply N; rewrite T in E; rewrite app_length in E;
      (assert (r = []) by (apply length_zero_iff_nil; lia)); subst; rewrite app_nil_r in T; auto.
Qed.

Lemma ci_pseudo_first l : in_k ks l -> sorted low ci_lt l -> pseudo_first l.
Proof.
  intros Hin Hs. induction Hs as [|p l Hs IH Hall].
  - exists [], []. repeat split; constructor.
  - inversion Hin as [|? ? Hp Hin']; subst. destruct (pseudo (fst p)) eqn:E.
    + destruct (IH Hin') as (a & b & -> & Fa & Fb). exists (p :: a), b. repeat split; auto.
    + exists [], (p :: l). repeat split; [constructor|]. constructor; auto. rewrite Forall_forall in *.
      intros q Hq. specialize (Hall q Hq). unfold ord in Hall. destruct (pseudo (fst q)) eqn:F; auto.
      rewrite pseudo_colon in E, F. rewrite lt_pp in Hall by (rewrite colon_low; auto). apply Z.ltb_ge in Hall.
      destruct (pr (fst q) (fst p)); auto; try lia. exact (Hin' q Hq).
Qed.
End Names.

Lemma header_map_l cs : names_ok (names cs) ->
  exists l answers, fm_run ci_less [] cs = Ok (l, answers) /\ Forall2 (agree same_ci pseudo_first) answers (s_run same_ci [] cs).
Proof.
  intros H.
  apply (run_ok ci_less low ci_lt (names cs)).
  - intros a b Ha Hb. apply ci_less_lt; apply (ok_name _ H); auto.
  - intros a _. unfold ci_lt. rewrite Nat.eqb_refl, scmp_refl. reflexivity.
  - intros a b c. apply (ci_trans _ H).
  - intros a b. apply (ci_total _ H).
  - intros l. apply (ci_pseudo_first _ H).
  - auto.
  - intros k v Hin a Ha. apply ci_equal_same. apply (ok_name _ H). exact Ha.
  - apply R_nil.
Qed.
