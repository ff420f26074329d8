(** Lemmas about splitting, joining, replacing and trimming. *)
From Verif.Lib Require Import Base Bytes ListX.
From Coq Require Import Strings.Byte Strings.String Lists.List.
From Verif.Strings Require Import Model Spec.
Local Open Scope string_scope.
Local Open Scope list_scope.
Local Open Scope Z_scope.

Lemma bytes_eqb_spec a b : reflect (a = b) (bytes_eqb a b).
Proof.
  revert b. induction a as [|x a IH]; destruct b as [|y b]; cbn; try (constructor; congruence).
  destruct (byte_eqb_spec x y); cbn; [|constructor; congruence]. destruct (IH b); constructor; congruence.
Qed.

Lemma is_prefix_spec a b : is_prefix a b = true <-> exists t, b = a ++ t.
Proof.
  revert b. induction a as [|x a IH]; intros b; cbn.
  - split; [exists b; auto|auto].
  - destruct b as [|y b]; [split; [discriminate|intros [t E]; discriminate]|].
    destruct (byte_eqb_spec x y) as [E|E]; cbn.
    + rewrite IH. split; intros [t H]; exists t; congruence.
    + split; [discriminate|intros [t H]; congruence].
Qed.

Lemma skipn_len {A} (a b : list A) : skipn (length a) (a ++ b) = b.
Proof. induction a; cbn; auto. Qed.
Lemma firstn_len {A} (a b : list A) : firstn (length a) (a ++ b) = a.
Proof. induction a; cbn; congruence. Qed.

(** ** find *)
Lemma find_some d : forall s p, find d s = Some p -> exists a rest, first_at d a s rest /\ length a = p.
Proof.
  induction s as [|c s IH]; intros p H; cbn [find] in H.
  - destruct (is_prefix d []) eqn:E; [|discriminate]. inversion H. apply is_prefix_spec in E. destruct E as [t E].
    exists [], t. repeat split; auto. intros; cbn; lia.
  - destruct (is_prefix d (c :: s)) eqn:E.
    + inversion H. apply is_prefix_spec in E. destruct E as [t E]. exists [], t. repeat split; auto. intros; cbn; lia.
    + destruct (find d s) as [q|]; [|discriminate]. inversion H. destruct (IH q eq_refl) as (a & rest & [E1 E2] & L).
      exists (c :: a), rest. repeat split; [cbn; congruence| |cbn; congruence].
      intros x y Q. destruct x as [|z x].
      * assert (is_prefix d (c :: s) = true) by (apply is_prefix_spec; exists y; exact Q). congruence.
      * cbn in Q. inversion Q. specialize (E2 x y H3). cbn. lia.
Qed.

Lemma find_none d : forall s, find d s = None -> ~ contains d s.
Proof.
  induction s as [|c s IH]; intros H [x [y Q]]; cbn [find] in H.
  - destruct (is_prefix d []) eqn:E; [discriminate|]. destruct x; [|discriminate]. 
    assert (is_prefix d [] = true) by (apply is_prefix_spec; exists y; exact Q). congruence.
  - destruct (is_prefix d (c :: s)) eqn:E; [discriminate|]. destruct (find d s) as [q|]; [discriminate|].
    destruct x as [|z x].
    + assert (is_prefix d (c :: s) = true) by (apply is_prefix_spec; exists y; exact Q). congruence.
    + cbn in Q. inversion Q. apply IH; auto. exists x, y. auto.
Qed.

Lemma first_at_det d a1 a2 s r1 r2 : first_at d a1 s r1 -> first_at d a2 s r2 -> a1 = a2 /\ r1 = r2.
Proof.
  intros [E1 M1] [E2 M2]. pose proof (M1 _ _ E2). pose proof (M2 _ _ E1). assert (L : length a1 = length a2) by lia.
  subst s. assert (A : a1 = a2) by (rewrite <- (firstn_len a1 (d ++ r1)), E2, L; apply firstn_len). subst a2.
  apply app_inv_head in E2. apply app_inv_head in E2. auto.
Qed.

Lemma first_at_contains d a s rest : first_at d a s rest -> contains d s.
Proof. intros [E _]. exists a, rest. auto. Qed.

(** ** Splitting *)
Lemma not_contains_nil d : d <> [] -> ~ contains d [].
Proof. intros H [x [y E]]. destruct x; [destruct d; [congruence|discriminate]|discriminate]. Qed.

Lemma split_loop_spec d : d <> [] -> forall fuel cur, (length cur < fuel)%nat -> cur <> [] ->
  exists parts, split_loop fuel cur d true = Ok parts /\ is_split d cur parts /\ split_loop fuel cur d false = Ok (filter nonempty parts).
Proof.
  intros Nd. induction fuel as [|f IH]; intros cur L Nc; [lia|]. cbn [split_loop].
  destruct (find d cur) as [p|] eqn:F.
  - destruct (find_some _ _ _ F) as (a & rest & [E M] & <-). rewrite orb_true_r, orb_false_r.
    unfold substr. assert (Ll : length cur = (length a + (length d + length rest))%nat) by (rewrite E, !app_length; auto).
    destruct (Nat.leb_spec (length a + length d) (length cur)); [|lia]. cbn [bind].
    assert (Es : firstn (length cur) (skipn (length a + length d) cur) = rest).
    { rewrite E at 2. rewrite app_assoc, <- app_length, skipn_len. apply firstn_all2. lia. }
    assert (Ea : firstn (length a) cur = a) by (rewrite E; apply firstn_len).
    rewrite Es, Ea.
    assert (Fa : (if negb (length a =? 0)%nat then [a] else []) = filter nonempty [a]) by (destruct a; reflexivity).
    rewrite Fa. destruct rest as [|c rest].
    + exists ([a] ++ [[]]). repeat split.
      * cbn [app]. eapply split_at; [split; [exact E|exact M]|]. constructor. apply not_contains_nil; auto.
      * rewrite filter_app. reflexivity.
    + destruct (IH (c :: rest)) as (parts & H1 & H2 & H3).
      { assert (0 < length d)%nat by (destruct d; [congruence|cbn; lia]). cbn [length] in *. lia. }
      { discriminate. }
      rewrite H1, H3. cbn [bind]. exists ([a] ++ parts). repeat split.
      * cbn [app]. eapply split_at; [split; [exact E|exact M]|exact H2].
      * rewrite filter_app. reflexivity.
  - exists [cur]. repeat split; [constructor; apply find_none; auto|]. destruct cur; [congruence|reflexivity].
Qed.

Lemma split_l s d : d <> [] -> s <> [] ->
  exists parts, split s d true = Ok parts /\ is_split d s parts /\ split s d false = Ok (filter nonempty parts).
Proof.
  intros Nd Ns. destruct (split_loop_spec d Nd (S (length s)) s) as (parts & H); auto. exists parts.
  unfold split. destruct s; [congruence|]. destruct d; [congruence|]. exact H.
Qed.

Lemma is_split_nonempty d s parts : is_split d s parts -> parts <> [].
Proof. intros H; destruct H; discriminate. Qed.

Lemma is_split_joined d s parts : is_split d s parts -> joined d parts = s.
Proof.
  intros H. induction H as [s N|a s rest parts [E M] H IH]; [reflexivity|].
  pose proof (is_split_nonempty _ _ _ H). destruct parts as [|p parts]; [congruence|]. cbn [joined] in *. rewrite IH. auto.
Qed.

Lemma is_split_free d s parts : d <> [] -> is_split d s parts -> Forall (fun p => ~ contains d p) parts.
Proof.
  intros Nd H. induction H as [s N|a s rest parts [E M] H IH]; [repeat constructor; auto|]. constructor; auto.
  intros [x [y Q]]. specialize (M x (y ++ d ++ rest)). assert (length a <= length x)%nat.
  { apply M. rewrite E, Q. rewrite <- !app_assoc. reflexivity. }
  rewrite Q, !app_length in H0. assert (0 < length d)%nat by (destruct d; [congruence|cbn; lia]). lia.
Qed.

Lemma is_split_det d s p1 p2 : is_split d s p1 -> is_split d s p2 -> p1 = p2.
Proof.
  intros H. revert p2. induction H as [s N|a s rest parts F H IH]; intros p2 H2; inversion H2; subst; auto.
  - exfalso. apply N. eapply first_at_contains; eauto.
  - exfalso. match goal with Q : ~ contains d s |- _ => apply Q end. eapply first_at_contains; eauto.
  - match goal with Q : first_at d ?x s ?y |- _ => destruct (first_at_det _ _ _ _ _ _ F Q) as [-> ->] end. f_equal. auto.
Qed.

(** ** Joining *)
Lemma total_nonneg d parts : 0 <= total_length d parts.
Proof. induction parts; cbn [total_length fold_right]; [lia|]. unfold total_length in IHparts. lia. Qed.

Lemma total_cons d p parts : total_length d (p :: parts) = Z.of_nat (length p) + Z.of_nat (length d) + total_length d parts.
Proof. reflexivity. Qed.

Lemma i32_id z : - 2 ^ 31 <= z < 2 ^ 31 -> i32 z = z.
Proof. intros H. unfold i32. rewrite Z.mod_small; lia. Qed.

Lemma join_size_spec d : forall parts n, 0 <= n -> n + total_length d parts < 2 ^ 31 ->
  fold_left (fun n p => i32 (n + Z.of_nat (length p) + Z.of_nat (length d))) parts n = n + total_length d parts.
Proof.
  induction parts as [|p parts IH]; intros n Hn L; cbn [fold_left]; [cbn [total_length fold_right]; lia|].
  rewrite total_cons in *. pose proof (total_nonneg d parts). rewrite i32_id by lia. rewrite IH by lia. lia.
Qed.

Lemma join_loop_spec d : forall parts acc, join_loop parts d false acc = acc ++ flat_map (fun p => d ++ p) parts.
Proof.
  induction parts as [|p parts IH]; intros acc; cbn [join_loop flat_map]; [rewrite app_nil_r; auto|].
  rewrite IH. rewrite <- !app_assoc. reflexivity.
Qed.

Lemma joined_flat d p parts : joined d (p :: parts) = p ++ flat_map (fun p => d ++ p) parts.
Proof.
  revert p. induction parts as [|q parts IH]; intros p; [cbn; rewrite app_nil_r; auto|].
  change (joined d (p :: q :: parts)) with (p ++ d ++ joined d (q :: parts)). rewrite IH. cbn [flat_map]. rewrite <- app_assoc. reflexivity.
Qed.

Lemma join_l parts d : total_length d parts < 2 ^ 31 -> join parts d = Ok (joined d parts).
Proof.
  intros L. unfold join, join_size. rewrite join_size_spec by lia. rewrite Z.add_0_l. destruct (Z.eqb_spec (total_length d parts) 0) as [E|E].
  - f_equal. destruct parts as [|p parts]; [reflexivity|]. rewrite joined_flat.
    assert (Z.of_nat (length d) = 0).
    { rewrite total_cons in E. pose proof (total_nonneg d parts). lia. }
    assert (d = []) by (apply length_zero_iff_nil; lia). subst d. clear H L.
    assert (H : forall ps, total_length [] ps = 0 -> flat_map (fun p => [] ++ p) ps = []).
    { induction ps as [|q ps IH]; intros Q; [reflexivity|]. rewrite total_cons in Q. pose proof (total_nonneg [] ps). cbn [length] in Q.
      assert (Q1 : total_length [] ps = 0) by lia. specialize (IH Q1). cbn [flat_map app] in *. rewrite IH. rewrite app_nil_r. apply length_zero_iff_nil. lia. }
    specialize (H (p :: parts) E). cbn [flat_map app] in *. symmetry. exact H.
  - destruct parts as [|p parts]; [cbn in E; lia|]. rewrite total_cons in *. pose proof (total_nonneg d parts).
    rewrite i32_id by lia. destruct (Z.ltb_spec (Z.of_nat (length p) + Z.of_nat (length d) + total_length d parts - Z.of_nat (length d)) 0); [lia|].
    f_equal. cbn [join_loop]. rewrite join_loop_spec, joined_flat. reflexivity.
Qed.

Lemma is_split_total d s parts : is_split d s parts -> total_length d parts = Z.of_nat (length s) + Z.of_nat (length d).
Proof.
  intros H. induction H as [s N|a s rest parts [E M] H IH]; rewrite total_cons; [cbn [total_length fold_right]; lia|].
  rewrite IH, E, !app_length. lia.
Qed.

Lemma round_trip_l s d : d <> [] -> Z.of_nat (length s) + Z.of_nat (length d) < 2 ^ 31 ->
  exists parts, split s d true = Ok parts /\ join parts d = Ok s.
Proof.
  intros Nd L. destruct s as [|c s]; [exists []; split; reflexivity|].
  destruct (split_l (c :: s) d Nd) as (parts & H1 & H2 & _); [discriminate|]. exists parts. split; auto.
  rewrite join_l by (rewrite (is_split_total _ _ _ H2); lia). rewrite (is_split_joined _ _ _ H2). reflexivity.
Qed.

Lemma parts_free_l s d keep : d <> [] -> exists parts, split s d keep = Ok parts /\ Forall (fun p => ~ contains d p) parts.
Proof.
  intros Nd. destruct s as [|c s]; [exists []; split; [reflexivity|constructor]|].
  destruct (split_l (c :: s) d Nd) as (parts & H1 & H2 & H3); [discriminate|]. pose proof (is_split_free _ _ _ Nd H2) as Hf.
  destruct keep; eauto. eexists. split; [exact H3|]. rewrite Forall_forall in *. intros x Hx. apply filter_In in Hx. apply Hf. tauto.
Qed.

(** ** Replacing *)
Lemma replace_loop_spec from to : from <> [] -> forall fuel done rest count, (length rest < fuel)%nat -> 0 <= count ->
  exists t, replace_loop fuel from to (done ++ rest) (length done) count = Ok (done ++ t) /\ replaced from to count rest t.
Proof.
  intros Nf. assert (Lf : (0 < length from)%nat) by (destruct from; [congruence|cbn; lia]).
  induction fuel as [|f IH]; intros done rest count L Hc; [lia|]. cbn [replace_loop]. rewrite skipn_len.
  destruct (find from rest) as [q|] eqn:F.
  - destruct (find_some _ _ _ F) as (a & rest' & [E M] & <-). destruct (Z.eqb_spec count 0) as [->|N].
    + exists rest. split; auto. apply r_stop.
    + assert (E1 : firstn (length done + length a) (done ++ rest) = done ++ a).
      { rewrite E, app_assoc, <- app_length. apply firstn_len. }
      assert (E2 : skipn (length done + length a + length from) (done ++ rest) = rest').
      { rewrite E. replace (done ++ a ++ from ++ rest') with ((done ++ a ++ from) ++ rest') by (rewrite <- !app_assoc; reflexivity).
        replace (length done + length a + length from)%nat with (length (done ++ a ++ from)) by (rewrite !app_length; lia). apply skipn_len. }
      rewrite E1, E2. destruct (IH (done ++ a ++ to) rest' (count - 1)) as (t & H1 & H2).
      { rewrite E, !app_length in L. lia. }
      { lia. }
      exists (a ++ to ++ t). replace ((done ++ a) ++ to ++ rest') with ((done ++ a ++ to) ++ rest') by (rewrite <- !app_assoc; reflexivity).
      replace (length done + length a + length to)%nat with (length (done ++ a ++ to)) by (rewrite !app_length; lia).
      rewrite H1. split; [rewrite <- !app_assoc; reflexivity|]. eapply r_step; eauto; [lia|]. split; auto.
  - exists rest. split; auto. constructor. apply find_none; auto.
Qed.

Lemma replace_l from to s count : from <> [] -> 0 <= count ->
  exists t, replace from to s count = Ok t /\ replaced from to count s t.
Proof.
  intros Nf Hc. unfold replace. destruct from as [|c from]; [congruence|].
  exact (replace_loop_spec (c :: from) to Nf (S (length s)) [] s count (Nat.lt_succ_diag_r _) Hc).
Qed.

Lemma replaced_joined from to : from <> [] -> forall n s t, replaced from to n s t -> forall parts, is_split from s parts ->
  Z.of_nat (length s) <= n -> t = joined to parts.
Proof.
  intros Nf n s t H. assert (Lf : (0 < length from)%nat) by (destruct from; [congruence|cbn; lia]).
  induction H as [n s N|s|n a s rest t Hn F H IH]; intros parts Hs L.
  - inversion Hs; subst; [reflexivity|]. exfalso. apply N. eapply first_at_contains; eauto.
  - assert (s = []) by (apply length_zero_iff_nil; lia). subst s.
    inversion Hs; subst; [reflexivity|]. exfalso. apply (not_contains_nil from Nf). eapply first_at_contains; eauto.
  - inversion Hs; subst.
    + exfalso. match goal with Q : ~ contains from s |- _ => apply Q end. eapply first_at_contains; eauto.
    + match goal with Q : first_at from ?x s ?y |- _ => destruct (first_at_det _ _ _ _ _ _ F Q) as [<- <-] end.
      match goal with Q : is_split from rest ?ps |- _ => pose proof (is_split_nonempty _ _ _ Q) as Np; rewrite (IH ps Q); [destruct ps; [congruence|reflexivity]|] end.
      destruct F as [E _]. rewrite E, !app_length in L. lia.
Qed.

Lemma replace_all_l from to s count parts : from <> [] -> split s from true = Ok parts -> Z.of_nat (length s) <= count ->
  replace from to s count = Ok (joined to parts).
Proof.
  intros Nf Hs L. destruct s as [|c s].
  - cbn in Hs. inversion Hs; subst. cbn [joined]. unfold replace. destruct from; [congruence|]. reflexivity.
  - destruct (split_l (c :: s) from Nf) as (parts' & H1 & H2 & _); [discriminate|]. rewrite Hs in H1. inversion H1; subst parts'.
    destruct (replace_l from to (c :: s) count Nf ltac:(lia)) as (t & -> & R). f_equal. eapply replaced_joined; eauto.
Qed.

(** ** Prefixes and suffixes *)
Lemma starts_with_l s p : exists b, starts_with s p = Ok b /\ (b = true <-> exists t, s = p ++ t).
Proof.
  unfold starts_with, substr. destruct (Nat.leb_spec (length p) (length s)).
  - cbn [Nat.leb bind skipn]. eexists. split; [reflexivity|]. destruct (bytes_eqb_spec (firstn (length p) s) p) as [E|E].
    + split; auto. intros _. exists (skipn (length p) s). rewrite <- E at 1. symmetry. apply firstn_skipn.
    + split; [discriminate|]. intros [t ->]. rewrite firstn_len in E. congruence.
  - eexists. split; [reflexivity|]. split; [discriminate|]. intros [t ->]. rewrite app_length in H. lia.
Qed.

Lemma ends_with_l s p : exists b, ends_with s p = Ok b /\ (b = true <-> exists t, s = t ++ p).
Proof.
  unfold ends_with, substr. destruct (Nat.leb_spec (length p) (length s)).
  - destruct (Nat.leb_spec (length s - length p) (length s)); [|lia]. cbn [bind]. rewrite firstn_all2 by (rewrite skipn_length; lia).
    eexists. split; [reflexivity|]. destruct (bytes_eqb_spec (skipn (length s - length p) s) p) as [E|E].
    + split; auto. intros _. exists (firstn (length s - length p) s). rewrite <- E at 2. symmetry. apply firstn_skipn.
    + split; [discriminate|]. intros [t ->]. exfalso. apply E. rewrite app_length. replace (length t + length p - length p)%nat with (length t) by lia.
      apply skipn_len.
  - eexists. split; [reflexivity|]. split; [discriminate|]. intros [t ->]. rewrite app_length in H. lia.
Qed.

Lemma trim_prefix_l s p : (forall t, s = p ++ t -> trim_prefix s p = Ok t) /\ ((forall t, s <> p ++ t) -> trim_prefix s p = Ok s).
Proof.
  unfold trim_prefix, substr. split.
  - intros t ->. rewrite app_length. destruct (Nat.ltb_spec (length p + length t) (length p)); [lia|]. cbn [Nat.leb bind skipn].
    rewrite firstn_len. destruct (bytes_eqb_spec p p); [|congruence]. cbn [negb]. destruct (Nat.leb_spec (length p) (length p + length t)); [|lia].
    rewrite skipn_len. rewrite firstn_all2 by lia. reflexivity.
  - intros N. destruct (Nat.ltb_spec (length s) (length p)); [reflexivity|]. cbn [Nat.leb bind skipn].
    destruct (bytes_eqb_spec (firstn (length p) s) p) as [E|E]; [|reflexivity]. exfalso. apply (N (skipn (length p) s)).
    rewrite <- E at 1. symmetry. apply firstn_skipn.
Qed.

Lemma trim_suffix_l s p : (forall t, s = t ++ p -> trim_suffix s p = Ok t) /\ ((forall t, s <> t ++ p) -> trim_suffix s p = Ok s).
Proof.
  unfold trim_suffix, substr. split.
  - intros t ->. rewrite app_length. destruct (Nat.ltb_spec (length t + length p) (length p)); [lia|].
    replace (length t + length p - length p)%nat with (length t) by lia.
    destruct (Nat.leb_spec (length t) (length t + length p)); [|lia]. cbn [bind]. rewrite skipn_len, firstn_all2 by lia.
    destruct (bytes_eqb_spec p p); [|congruence]. cbn [negb Nat.leb skipn]. rewrite firstn_len. reflexivity.
  - intros N. destruct (Nat.ltb_spec (length s) (length p)); [reflexivity|].
    destruct (Nat.leb_spec (length s - length p) (length s)); [|lia]. cbn [bind]. rewrite firstn_all2 by (rewrite skipn_length; lia).
    destruct (bytes_eqb_spec (skipn (length s - length p) s) p) as [E|E]; [|reflexivity]. exfalso. apply (N (firstn (length s - length p) s)).
    rewrite <- E at 2. symmetry. apply firstn_skipn.
Qed.

(** ** Trimming *)
Lemma first_not_space_spec s :
  match first_not_space s with
  | Some i => exists a c r, s = a ++ c :: r /\ spaces a /\ c <> x20 /\ i = length a
  | None => spaces s
  end.
Proof.
  induction s as [|c s IH]; cbn [first_not_space]; [constructor|]. destruct (byte_eqb_spec c x20) as [->|N].
  - destruct (first_not_space s) as [i|]; cbn [option_map].
    + destruct IH as (a & c & r & -> & Ha & Nc & ->). exists (x20 :: a), c, r. repeat split; auto. constructor; auto.
    + constructor; auto.
  - exists [], c, s. repeat split; auto. constructor.
Qed.

Lemma last_not_space_spec s :
  match last_not_space s with
  | Some i => exists r c b, s = (r ++ [c]) ++ b /\ spaces b /\ c <> x20 /\ i = length r
  | None => spaces s
  end.
Proof.
  induction s as [|c s IH]; cbn [last_not_space]; [constructor|]. destruct (last_not_space s) as [i|].
  - destruct IH as (r & d & b & -> & Hb & Nd & ->). exists (c :: r), d, b. repeat split; auto.
  - destruct (byte_eqb_spec c x20) as [->|N]; [constructor; auto|]. exists [], c, s. repeat split; auto.
Qed.

Lemma spaces_app a b : spaces (a ++ b) <-> spaces a /\ spaces b.
Proof. apply Forall_app. Qed.

Lemma drop_spaces_app a t : spaces a -> drop_spaces (a ++ t) = drop_spaces t.
Proof. intros H. induction H as [|c a <- H IH]; [reflexivity|]. cbn [app drop_spaces]. destruct (byte_eq_dec x20 x20); [auto|congruence]. Qed.

Lemma drop_spaces_stop t : (forall r, t <> x20 :: r) -> drop_spaces t = t.
Proof. destruct t as [|c t]; intros H; [reflexivity|]. cbn. destruct (byte_eq_dec c x20); [subst; exfalso; eapply H; eauto|auto]. Qed.

Lemma spaces_rev a : spaces a -> spaces (rev a).
Proof. unfold spaces. rewrite !Forall_forall. intros H x Hx. apply H. apply in_rev. auto. Qed.

Lemma strip_of s t : trimmed s t -> strip s = t.
Proof.
  intros (a & b & -> & Ha & Hb & N1 & N2). unfold strip. rewrite drop_spaces_app by auto.
  destruct t as [|c t].
  - cbn [app]. rewrite <- (app_nil_r b), drop_spaces_app by auto. reflexivity.
  - rewrite (drop_spaces_stop ((c :: t) ++ b)) by (intros r Q; inversion Q; subst; eapply N1; reflexivity).
    rewrite rev_app_distr, drop_spaces_app by (apply spaces_rev; auto). rewrite drop_spaces_stop.
    + apply rev_involutive.
    + intros r Q. apply (N2 (rev r)). apply (f_equal (@rev byte)) in Q. rewrite rev_involutive in Q. exact Q.
Qed.

Lemma trimmed_unique s t1 t2 : trimmed s t1 -> trimmed s t2 -> t1 = t2.
Proof. intros H1 H2. rewrite <- (strip_of _ _ H1), <- (strip_of _ _ H2). reflexivity. Qed.

Lemma last_snoc_not {A} (r : list A) c x : c <> x -> forall q, r ++ [c] <> q ++ [x].
Proof. intros N q E. apply app_inj_tail in E. destruct E; congruence. Qed.

(** The text between the first and the last character that is no space. *)
Lemma middle a c r : spaces a -> c <> x20 ->
  exists m e b, a ++ c :: r = a ++ (m ++ [e]) ++ b /\ c :: r = (m ++ [e]) ++ b /\ spaces b /\ e <> x20 /\ (forall q, m ++ [e] <> x20 :: q) /\
    last_not_space (c :: r) = Some (length m) /\ last_not_space (a ++ c :: r) = Some (length a + length m)%nat.
Proof.
  intros Ha Nc. pose proof (last_not_space_spec (c :: r)) as H. destruct (last_not_space (c :: r)) as [i|] eqn:E.
  - destruct H as (m & e & b & Er & Hb & Ne & ->). exists m, e, b. repeat split; auto.
    + rewrite Er. reflexivity.
    + intros q Q. rewrite Q in Er. inversion Er. congruence.
    + clear -E. induction a as [|x a IH]; cbn [app last_not_space length]; [exact E|]. rewrite IH. reflexivity.
  - inversion H; subst. congruence.
Qed.

Lemma trimmed_middle a m e b : spaces a -> spaces b -> e <> x20 -> (forall q, m ++ [e] <> x20 :: q) -> trimmed (a ++ (m ++ [e]) ++ b) (m ++ [e]).
Proof. intros Ha Hb Ne N. exists a, b. repeat split; auto. apply last_snoc_not; auto. Qed.

Lemma trimmed_spaces s : spaces s -> trimmed s [].
Proof. intros H. exists s, []. split; [cbn; rewrite app_nil_r; auto|]. repeat split; auto; [constructor|discriminate|]. intros [|]; discriminate. Qed.

Lemma trim_inplace_l s : trimmed s (trim_inplace s).
Proof.
  unfold trim_inplace. destruct s as [|x s]; [apply trimmed_spaces; constructor|].
  pose proof (first_not_space_spec (x :: s)) as H. destruct (first_not_space (x :: s)) as [i|].
  - destruct H as (a & c & r & E & Ha & Nc & ->). rewrite E. rewrite skipn_len.
    destruct (middle a c r Ha Nc) as (m & e & b & E1 & E2 & Hb & Ne & Nq & -> & _).
    assert (firstn (S (length m)) (c :: r) = m ++ [e]) as ->.
    { rewrite E2. apply firstn_exact_app. rewrite app_length. cbn. lia. }
    rewrite E1. apply trimmed_middle; auto.
  - cbn. apply trimmed_spaces; auto.
Qed.

Lemma trim_string_view_l s : Z.of_nat (length s) < 2 ^ 63 -> trimmed s (trim_string_view s).
Proof.
  intros L. unfold trim_string_view. pose proof (first_not_space_spec s) as H. destruct (first_not_space s) as [i|].
  - destruct H as (a & c & r & E & Ha & Nc & ->).
    assert (Nat.min (length a) (length s) = length a) as -> by (rewrite E, app_length; lia).
    assert (Es : skipn (length a) s = c :: r) by (rewrite E; apply skipn_len). rewrite Es.
    destruct (middle a c r Ha Nc) as (m & e & b & E1 & E2 & Hb & Ne & Nq & -> & _).
    assert (Lc : length (c :: r) = (length m + 1 + length b)%nat) by (rewrite E2, !app_length; reflexivity).
    assert (Lt : Z.of_nat (length (c :: r)) < 2 ^ 63) by (rewrite E, app_length in L; lia).
    rewrite Lc in *. rewrite Z.mod_small by lia.
    replace (Z.to_nat (Z.min (Z.of_nat (length m + 1 + length b) - Z.of_nat (length m) - 1) (Z.of_nat (length m + 1 + length b)))) with (length b) by lia.
    replace (length m + 1 + length b - length b)%nat with (length (m ++ [e])) by (rewrite app_length; cbn; lia).
    rewrite E2, firstn_len. rewrite E, E1. apply trimmed_middle; auto.
  - rewrite skipn_all. cbn. apply trimmed_spaces; auto.
Qed.

Lemma last_space s d : List.last (s ++ [d]) x00 = d.
Proof. apply last_last. Qed.

Lemma trim_view_l s : s <> [] -> Z.of_nat (length s) < 2 ^ 63 -> exists t, trim_view s = Ok t /\ trimmed s t.
Proof.
  intros Ns L. unfold trim_view. destruct s as [|x s]; [congruence|].
  set (A := if Byte.eqb x x20 then first_not_space (x :: s) else Some O).
  assert (HA : A = first_not_space (x :: s)).
  { unfold A. cbn [first_not_space]. destruct (Byte.eqb x x20); reflexivity. }
  rewrite HA. clear A HA. pose proof (first_not_space_spec (x :: s)) as H. destruct (first_not_space (x :: s)) as [i|].
  - destruct H as (a & c & r & E & Ha & Nc & ->). rewrite E in *. clear E x s Ns.
    destruct (middle a c r Ha Nc) as (m & e & b & E1 & E2 & Hb & Ne & Nq & _ & E3). rewrite E3, E1 in *. clear E1 E2 E3 c r Nc.
    exists (m ++ [e]). split; [|apply trimmed_middle; auto].
    assert (Sub : forall n, (length (m ++ [e]) <= n)%nat -> (b = [] \/ n = length (m ++ [e])) -> substr (a ++ (m ++ [e]) ++ b) (length a) n = Ok (m ++ [e])).
    { intros n Ln Hn. unfold substr. destruct (Nat.leb_spec (length a) (length (a ++ (m ++ [e]) ++ b))) as [_|Q]; [|rewrite app_length in Q; lia].
      rewrite skipn_len. f_equal. destruct Hn as [->| ->]; [rewrite app_nil_r; apply firstn_all2; auto|apply firstn_len]. }
    rewrite app_length in L. rewrite !app_length in L. cbn [length] in L.
    destruct b as [|y b] using rev_ind.
    + rewrite app_nil_r. rewrite app_assoc, last_space. destruct (byte_eqb_spec e x20); [congruence|].
      rewrite <- app_assoc. specialize (Sub (Z.to_nat ((Z.of_nat (length (a ++ m ++ [e])) - Z.of_nat (length a) + 1) mod 2 ^ 64))).
      rewrite app_nil_r in Sub. apply Sub; auto. rewrite !app_length. cbn [length]. rewrite Z.mod_small by lia. lia.
    + clear IHb. rewrite !app_assoc, last_space, <- !app_assoc. unfold spaces in Hb. rewrite Forall_app in Hb. destruct Hb as [_ Hb].
      inversion Hb; subst. change (Byte.eqb x20 x20) with true. cbn iota. replace (m ++ [e] ++ b ++ [x20]) with ((m ++ [e]) ++ b ++ [x20]) by (rewrite <- app_assoc; auto).
      apply Sub; [|right]; rewrite app_length; cbn [length]; rewrite Z.mod_small by lia; lia.
  - exists []. split; [reflexivity|apply trimmed_spaces; auto].
Qed.

Lemma trim_inplace_strip s : trim_inplace s = strip s.
Proof. symmetry. apply strip_of, trim_inplace_l. Qed.

Lemma strip_l s : trimmed s (strip s).
Proof. rewrite <- trim_inplace_strip. apply trim_inplace_l. Qed.

(** ** SplitString *)
Lemma find_byte_spec c : forall s, (exists a rest, first_at [c] a s rest /\ find_byte c s = length a /\ (length a < length s)%nat) \/
  (~ contains [c] s /\ find_byte c s = length s).
Proof.
  induction s as [|x s IH]; cbn [find_byte].
  - right. split; auto. apply not_contains_nil. discriminate.
  - destruct (byte_eqb_spec x c) as [->|N].
    + left. exists [], s. repeat split; cbn; [|lia]. intros; lia.
    + destruct IH as [(a & rest & [E M] & F & L)|[C F]].
      * left. exists (x :: a), rest. repeat split; cbn; [rewrite E; reflexivity| |lia|lia].
        intros u v Q. destruct u as [|z u]; cbn in Q; inversion Q; [congruence|]. specialize (M u v H1). cbn. lia.
      * right. split; [|cbn; lia]. intros [u [v Q]]. destruct u as [|z u]; cbn in Q; inversion Q; [congruence|]. apply C. exists u, v. auto.
Qed.

Lemma split_byte_spec c : forall fuel s, (length s < fuel)%nat -> exists parts, is_split [c] s parts /\ split_byte fuel s c = Ok (filter nonempty parts).
Proof.
  induction fuel as [|f IH]; intros s L; [lia|]. cbn [split_byte]. destruct s as [|x s].
  - exists [[]]. split; [|reflexivity]. constructor. apply not_contains_nil. discriminate.
  - destruct (find_byte_spec c (x :: s)) as [(a & rest & [E M] & -> & La)|[C ->]].
    + destruct (Nat.eqb_spec (length a) (length (x :: s))); [lia|].
      assert (E1 : firstn (length a) (x :: s) = a) by (rewrite E; apply firstn_len).
      assert (E2 : skipn (S (length a)) (x :: s) = rest).
      { rewrite E. replace (S (length a)) with (length (a ++ [c])) by (rewrite app_length; cbn; lia). rewrite app_assoc. apply skipn_len. }
      rewrite E1, E2. destruct (IH rest) as (parts & H1 & H2).
      { rewrite E, !app_length in L. cbn [length] in L. lia. }
      rewrite H2. cbn [bind]. exists (a :: parts). split; [eapply split_at; [split; [exact E|exact M]|exact H1]|].
      destruct a; reflexivity.
    + rewrite Nat.eqb_refl. rewrite firstn_all. exists [x :: s]. split; [constructor; auto|]. reflexivity.
Qed.

Lemma split_string_l s c : exists parts, is_split [c] s parts /\ split_string s c = Ok (filter nonempty parts).
Proof. apply split_byte_spec. lia. Qed.

Lemma map_get_set k v k' m : map_get (map_set k v m) k' = if list_eq_dec byte_eq_dec k k' then Some v else map_get m k'.
Proof.
  induction m as [|[k1 v1] m IH]; cbn [map_set map_get].
  - destruct (bytes_eqb_spec k k'), (list_eq_dec byte_eq_dec k k'); congruence.
  - destruct (bytes_eqb_spec k1 k) as [->|N]; cbn [map_get].
    + destruct (bytes_eqb_spec k k'), (list_eq_dec byte_eq_dec k k'); congruence.
    + rewrite IH. destruct (bytes_eqb_spec k1 k'), (list_eq_dec byte_eq_dec k k'); congruence.
Qed.

Lemma to_map_loop_spec c2 (trim : bool) : forall subs m, exists m' es,
  to_map_loop subs c2 trim m = Ok m' /\
  Forall2 (fun p e => exists fs, is_split [c2] p fs /\ e = entry (if trim then strip else fun x => x) (filter nonempty fs)) subs es /\
  forall k, map_get m' k = match last_entry k es with Some v => Some v | None => map_get m k end.
Proof.
  set (tf := if trim then strip else fun x => x).
  induction subs as [|p subs IH]; intros m; cbn [to_map_loop].
  - exists m, []. repeat split; constructor.
  - destruct (split_string_l p c2) as (fs & Hf & ->). cbn [bind].
    assert (Next : forall m1, (forall k, map_get m1 k = match last_entry k [entry tf (filter nonempty fs)] with Some v => Some v | None => map_get m k end) ->
      exists m' es, to_map_loop subs c2 trim m1 = Ok m' /\
        Forall2 (fun p e => exists fs, is_split [c2] p fs /\ e = entry tf (filter nonempty fs)) (p :: subs) es /\
        forall k, map_get m' k = match last_entry k es with Some v => Some v | None => map_get m k end).
    { intros m1 Hm. destruct (IH m1) as (m' & es & H1 & H2 & H3). exists m', (entry tf (filter nonempty fs) :: es). repeat split; auto.
      - constructor; eauto.
      - intros k. rewrite H3, Hm. cbn [last_entry]. destruct (last_entry k es); reflexivity. }
    destruct (filter nonempty fs) as [|k0 vs]; [apply Next; reflexivity|].
    assert (Et : forall x, (if trim then trim_inplace x else x) = tf x).
    { intros x. unfold tf. destruct trim; [apply trim_inplace_strip|reflexivity]. }
    rewrite Et. cbn [entry] in Next. destruct (tf k0) as [|c key]; [apply Next; reflexivity|].
    destruct vs as [|v vs]; [|rewrite Et]; apply Next; intros k; rewrite map_get_set; cbn [last_entry]; destruct (list_eq_dec byte_eq_dec (c :: key) k); reflexivity.
Qed.

Lemma split_to_map_l s c1 c2 (trim : bool) : exists m parts es,
  split_to_map s c1 c2 trim = Ok m /\ is_split [c1] s parts /\
  Forall2 (fun p e => exists fs, is_split [c2] p fs /\ e = entry (if trim then strip else fun x => x) (filter nonempty fs)) (filter nonempty parts) es /\
  forall k, map_get m k = last_entry k es.
Proof.
  unfold split_to_map. destruct (split_string_l s c1) as (parts & Hp & ->). cbn [bind].
  destruct (to_map_loop_spec c2 trim (filter nonempty parts) []) as (m & es & H1 & H2 & H3). exists m, parts, es. repeat split; auto.
  intros k. rewrite H3. cbn. destruct (last_entry k es); reflexivity.
Qed.

(** Joins of 2^31 characters and more *)
Lemma join_long_l : exists parts d, join parts d = Abort.
Proof.
  exists [repeat x61 (Z.to_nat (2 ^ 31))], []. unfold join, join_size. cbn [fold_left length].
  rewrite repeat_length. rewrite Z2Nat.id by lia. reflexivity.
Qed.
