(** Lemmas about routing. *)
From Verif.Lib Require Import Base Bytes ListX.
From Coq Require Import Strings.Byte Strings.String Lists.List.
From Verif.HttpRoute Require Import Model Spec.
Local Open Scope string_scope.
Local Open Scope list_scope.
Local Open Scope Z_scope.

Lemma bytes_eqb_spec a b : reflect (a = b) (bytes_eqb a b).
Proof.
  revert b. induction a as [|x a IH]; destruct b as [|y b]; cbn; try (constructor; congruence).
  destruct (byte_eqb_spec x y); cbn; [|constructor; congruence]. destruct (IH b); constructor; congruence.
Qed.

Lemma is_prefix_spec a b : is_prefix a b = true <-> exists t, b = a ++ t.
Proof.
  revert b. induction a as [|x a IH]; intros b; cbn.
  - split; [exists b; auto|auto].
  - destruct b as [|y b]; [split; [discriminate|intros [t E]; discriminate]|].
    destruct (byte_eqb_spec x y) as [E|E]; cbn.
    + rewrite IH. split; intros [t H]; exists t; congruence.
    + split; [discriminate|intros [t H]; congruence].
Qed.

Lemma skipn_len {A} (a b : list A) : skipn (length a) (a ++ b) = b.
Proof. induction a; cbn; auto. Qed.
Lemma firstn_len {A} (a b : list A) : firstn (length a) (a ++ b) = a.
Proof. induction a; cbn; congruence. Qed.

(** ** Literal text *)
Lemma literal_match_spec cmp pre rest :
  literal_match cmp (pre ++ rest) (length pre) = true <-> exists after, literal_at cmp rest after.
Proof.
  unfold literal_match, literal_at, at_boundary. rewrite skipn_len, !andb_true_iff, orb_true_iff, Nat.leb_le, Nat.eqb_eq, is_prefix_spec.
  split.
  - intros [[L [t ->]] H]. exists t. split; auto. destruct t as [|c t]; auto. right. exists t. destruct H as [H|H].
    + rewrite !app_length in H. cbn [length] in H. lia.
    + assert (N : nth_error (pre ++ cmp ++ c :: t) (length cmp + length pre) = Some c).
      { rewrite nth_error_app2 by lia. replace (length cmp + length pre - length pre)%nat with (length cmp) by lia.
        rewrite nth_error_app2 by lia. rewrite Nat.sub_diag. reflexivity. }
      rewrite N in H. destruct (byte_eqb_spec c x2f); congruence.
  - intros (after & -> & H). split; [split; [rewrite !app_length; lia|exists after; auto]|].
    destruct H as [->|[t ->]]; [left; rewrite app_nil_r, app_length; lia|right].
    assert (N : nth_error (pre ++ cmp ++ x2f :: t) (length cmp + length pre) = Some x2f).
    { rewrite nth_error_app2 by lia. replace (length cmp + length pre - length pre)%nat with (length cmp) by lia.
      rewrite nth_error_app2 by lia. rewrite Nat.sub_diag. reflexivity. }
    rewrite N. reflexivity.
Qed.

Lemma literal_at_det c rest a1 a2 : literal_at c rest a1 -> literal_at c rest a2 -> a1 = a2.
Proof. intros [-> _] [E _]. apply app_inv_head in E. auto. Qed.

(** ** Slashes *)
Lemma find_slash_spec : forall s i, 
  (exists a b, s = a ++ x2f :: b /\ no_slash a /\ find_slash s i = Some (i + length a)%nat) \/ (no_slash s /\ find_slash s i = None).
Proof.
  induction s as [|c s IH]; intros i; cbn [find_slash].
  - right. split; auto. intros [].
  - destruct (byte_eqb_spec c x2f) as [->|N].
    + left. exists [], s. repeat split; [intros []|f_equal; cbn; lia].
    + destruct (IH (S i)) as [(a & b & -> & Ha & E)|[Ha E]].
      * left. exists (c :: a), b. repeat split; [intros [Q|Q]; [congruence|auto]|rewrite E; f_equal; cbn [length]; lia].
      * right. split; auto. intros [Q|Q]; [congruence|auto].
Qed.

Lemma segment_split s : exists v after, s = v ++ after /\ no_slash v /\ at_boundary after.
Proof.
  destruct (find_slash_spec s 0) as [(a & b & -> & Ha & _)|[Ha _]].
  - exists a, (x2f :: b). repeat split; auto. right. eauto.
  - exists s, []. rewrite app_nil_r. repeat split; auto. left. auto.
Qed.

Lemma segment_det v1 a1 v2 a2 : no_slash v1 -> no_slash v2 -> at_boundary a1 -> at_boundary a2 ->
  v1 ++ a1 = v2 ++ a2 -> v1 = v2 /\ a1 = a2.
Proof.
  revert v2. induction v1 as [|x v1 IH]; intros v2 N1 N2 B1 B2 E.
  - destruct v2 as [|y v2]; [split; auto|]. cbn [app] in E. exfalso. destruct B1 as [->|[t ->]]; [discriminate|]. inversion E; subst.
    apply N2. left. auto.
  - destruct v2 as [|y v2].
    + cbn [app] in E. exfalso. destruct B2 as [->|[t ->]]; [discriminate|]. inversion E; subst. apply N1. left. auto.
    + cbn [app] in E. inversion E; subst. destruct (IH v2) as [-> ->]; auto; intros Q; [apply N1|apply N2]; right; auto.
Qed.

(** ** Placeholders *)
Lemma run_length_spec s v t : no_slash v -> s = v ++ t -> (length v <= run_length s)%nat.
Proof.
  intros N ->. induction v as [|c v IH]; cbn; [lia|]. destruct (byte_eqb_spec c x2f); [exfalso; apply N; left; auto|].
  assert (no_slash v) by (intros Q; apply N; right; auto). specialize (IH H). lia.
Qed.

Lemma run_length_no_slash : forall s i, (i <= run_length s)%nat -> no_slash (firstn i s).
Proof.
  induction s as [|c s IH]; intros [|i] H; cbn in *; try (intros []); try lia.
  - destruct (byte_eqb_spec c x2f); [lia|]. congruence.
  - destruct (byte_eqb_spec c x2f); [lia|]. apply (IH i); [lia|auto].
Qed.

Lemma run_length_le s : (run_length s <= length s)%nat.
Proof. induction s as [|c s IH]; cbn; auto. destruct (Byte.eqb c x2f); lia. Qed.

Lemma try_lengths_some next n : forall i s r, try_lengths next n i s = Some r ->
  exists j r', (1 <= j <= i)%nat /\ next (skipn j s) = Some r' /\ r = (n, firstn j s) :: r'.
Proof.
  induction i as [|i IH]; intros s r H; cbn [try_lengths] in H; [discriminate|].
  destruct (next (skipn (S i) s)) as [r'|] eqn:E.
  - inversion H; subst. exists (S i), r'. repeat split; auto; lia.
  - destruct (IH s r H) as (j & r' & L & H1 & H2). exists j, r'. repeat split; auto; lia.
Qed.

Lemma try_lengths_none next n : forall i s, try_lengths next n i s = None ->
  forall j, (1 <= j <= i)%nat -> next (skipn j s) = None.
Proof.
  induction i as [|i IH]; intros s H j L; [lia|]. cbn [try_lengths] in H.
  destruct (next (skipn (S i) s)) as [r'|] eqn:E; [discriminate|].
  destruct (Nat.eq_dec j (S i)); [subst; auto|]. apply IH; auto; lia.
Qed.

Lemma ph_match_sound : forall items s b, ph_match items s = Some b -> ph_spec items s b.
Proof.
  induction items as [|[c| |n] items IH]; intros s b H; cbn [ph_match] in H.
  - destruct s; inversion H. constructor.
  - destruct s as [|x s]; [discriminate|]. destruct (byte_eqb_spec x c); [|discriminate]. subst. constructor. auto.
  - destruct s as [|x s]; [discriminate|]. destruct (byte_eqb_spec x x0a); [discriminate|]. destruct (byte_eqb_spec x x0d); [discriminate|].
    constructor; auto.
  - destruct (try_lengths_some _ _ _ _ _ H) as (j & r & L & E & ->).
    pose proof (run_length_le s) as Ls.
    rewrite <- (firstn_skipn j s) at 1. constructor; auto.
    + intros Q. apply (f_equal (@length byte)) in Q. rewrite firstn_length in Q. cbn in Q. lia.
    + apply run_length_no_slash. lia.
Qed.

Lemma ph_match_complete : forall items s b, ph_spec items s b -> ph_match items s <> None.
Proof.
  intros items s b H. induction H as [|c r s b H IH|c r s b N1 N2 H IH|n v r s b Nv Sv H IH]; cbn [ph_match].
  - discriminate.
  - destruct (byte_eqb_spec c c); [auto|congruence].
  - destruct (byte_eqb_spec c x0a); [congruence|]. destruct (byte_eqb_spec c x0d); [congruence|]. auto.
  - intros Q. pose proof (try_lengths_none _ _ _ _ Q (length v)) as T. rewrite skipn_len in T. apply IH. apply T.
    split; [destruct v; [congruence|cbn; lia]|]. apply (run_length_spec _ v s); auto.
Qed.

Lemma ph_unique_l : forall items s b1 b2, segment_pattern items -> ph_spec items s b1 -> ph_spec items s b2 -> b1 = b2.
Proof.
  assert (Bd : forall items s b, match items with [] => True | PLit c :: _ => c = x2f | _ => False end -> ph_spec items s b -> at_boundary s).
  { intros items s b H P. destruct P; try contradiction; [left|right; subst; eauto]. reflexivity. }
  intros items s b1 b2 HP H1. revert b2 HP. induction H1 as [|c r s b H IH|c r s b N1 N2 H IH|n v r s b Nv Sv H IH]; intros b2 HP H2.
  - inversion H2; auto.
  - inversion H2; subst. apply IH; auto.
  - inversion H2; subst. apply IH; auto.
  - cbn [segment_pattern] in HP. destruct HP as [HP1 HP2]. inversion H2 as [| | |n2 v2 r2 s2 b2' Nv2 Sv2 H2' E1 E2 E3]; subst.
    destruct (segment_det v2 s2 v s) as [-> ->]; auto; [eapply Bd; eauto|eapply Bd; eauto|]. f_equal. apply IH; auto.
Qed.

(** ** Matchers *)
Lemma find_end_tail url start : find_end_param url start true = length url.
Proof. reflexivity. Qed.

Lemma m_match_spec m pre rest ps :
  exists r, m_match m (pre ++ rest) (length pre) ps = Ok r /\
  match r with
  | Some (i, ps') => exists mid after b, rest = mid ++ after /\ i = length (pre ++ mid) /\
      consumes (pre ++ rest) m rest b after /\ ps' = p_sets b ps
  | None => forall b after, ~ consumes (pre ++ rest) m rest b after
  end.
Proof.
  destruct m as [c|c f|items|n entire]; cbn [m_match].
  - eexists. split; [reflexivity|]. destruct (literal_match c (pre ++ rest) (length pre)) eqn:E.
    + apply literal_match_spec in E. destruct E as [after [E B]]. exists c, after, []. rewrite app_length.
      repeat split; auto; [lia|]. constructor. split; auto.
    + intros b after H. inversion H; subst. assert (literal_match c (pre ++ rest) (length pre) = true); [|congruence].
      apply literal_match_spec. eauto.
  - eexists. split; [reflexivity|]. destruct (literal_match c (pre ++ rest) (length pre)) eqn:E.
    + apply literal_match_spec in E. destruct E as [after [E B]]. exists c, after, []. rewrite app_length.
      repeat split; auto; [lia|]. apply c_regex_literal. split; auto.
    + assert (NL : forall after, ~ literal_at c rest after).
      { intros after H. assert (literal_match c (pre ++ rest) (length pre) = true); [|congruence]. apply literal_match_spec. eauto. }
      destruct (f (pre ++ rest)) eqn:F.
      * exists rest, [], []. rewrite app_nil_r. repeat split; auto. apply c_regex; auto.
      * intros b after H. inversion H; subst; [eapply NL; eauto|congruence].
  - eexists. split; [reflexivity|]. destruct (ph_match items (pre ++ rest)) as [b|] eqn:E.
    + exists rest, [], b. rewrite app_nil_r. repeat split; auto. constructor. apply ph_match_sound; auto.
    + intros b after H. inversion H; subst. eapply ph_match_complete; eauto.
  - unfold param_match. destruct entire.
    + rewrite find_end_tail. destruct (Nat.eqb_spec (length (pre ++ rest)) (length pre)) as [E|E].
      * rewrite app_length in E. assert (rest = []) by (apply length_zero_iff_nil; lia). subst rest.
        eexists. split; [reflexivity|]. exists [], [], [(n, [])]. repeat split; [rewrite app_nil_r; auto|constructor].
      * unfold substr. destruct (Nat.leb_spec (length pre) (length (pre ++ rest))) as [L|L]; [|rewrite app_length in L; lia].
        cbn [bind]. eexists. split; [reflexivity|]. exists rest, [], [(n, rest)]. rewrite app_nil_r. repeat split; auto; [constructor|].
        cbn. rewrite skipn_len, app_length. replace (length pre + length rest - length pre)%nat with (length rest) by lia.
        rewrite firstn_all. reflexivity.
    + unfold find_end_param, find_from.
      destruct rest as [|c rest].
      * rewrite app_nil_r. rewrite skipn_all2 by lia. cbn [find_slash]. rewrite Nat.eqb_refl. eexists. split; [reflexivity|].
        intros b after H. inversion H.
      * replace (pre ++ c :: rest) with ((pre ++ [c]) ++ rest) by (rewrite <- app_assoc; reflexivity).
        replace (length pre + 1)%nat with (length (pre ++ [c])) by (rewrite app_length; reflexivity). rewrite skipn_len.
        assert (Sub : forall v after, rest = v ++ after -> substr ((pre ++ [c]) ++ rest) (length pre) (length (pre ++ [c]) + length v - length pre) = Ok (c :: v)).
        { intros v after ->. unfold substr. rewrite !app_length. destruct (Nat.leb_spec (length pre) (length pre + length [c] + (length v + length after))); [|cbn in *; lia].
          f_equal. rewrite <- app_assoc. rewrite skipn_len. cbn [app length].
          replace (length pre + 1 + length v - length pre)%nat with (length (c :: v)) by (cbn [length]; lia).
          change (c :: v ++ after) with ((c :: v) ++ after). apply firstn_len. }
        destruct (find_slash_spec rest (length (pre ++ [c]))) as [(v & t & E & N & F)|[N F]]; rewrite F.
        -- destruct (Nat.eqb_spec (length (pre ++ [c]) + length v) (length pre)) as [Q|Q]; [rewrite app_length in Q; cbn in Q; lia|].
           rewrite (Sub v _ E). cbn [bind]. eexists. split; [reflexivity|]. exists (c :: v), (x2f :: t), [(n, c :: v)].
           subst rest. repeat split; auto.
           ++ rewrite !app_length. cbn [length]. lia.
           ++ apply c_segment; auto. right. eauto.
        -- destruct (Nat.eqb_spec (length ((pre ++ [c]) ++ rest)) (length pre)) as [Q|Q]; [rewrite !app_length in Q; cbn in Q; lia|].
           assert (Sb : substr ((pre ++ [c]) ++ rest) (length pre) (length ((pre ++ [c]) ++ rest) - length pre) = Ok (c :: rest)).
           { rewrite <- (Sub rest []) by (rewrite app_nil_r; auto). f_equal. rewrite (app_length (pre ++ [c])). reflexivity. }
           rewrite Sb. cbn [bind]. eexists. split; [reflexivity|]. exists (c :: rest), [], [(n, c :: rest)]. rewrite app_nil_r.
           repeat split; auto.
           ++ f_equal. rewrite <- app_assoc. reflexivity.
           ++ rewrite <- (app_nil_r rest) at 2. apply c_segment; auto. left. auto.
Qed.

Lemma consumes_det url m rest b1 a1 b2 a2 : consumes url m rest b1 a1 -> consumes url m rest b2 a2 -> a1 = a2.
Proof.
  intros H1 H2. destruct H1; inversion H2; subst; auto; try solve [eapply literal_at_det; eauto].
  - exfalso. match goal with N : forall a, ~ literal_at _ _ a |- _ => eapply N; eauto end.
  - exfalso. match goal with N : forall a, ~ literal_at _ _ a |- _ => eapply N; eauto end.
  - match goal with E : ?x ++ ?y = ?z ++ ?w |- _ => destruct (segment_det x y z w) as [_ ->]; auto end.
Qed.

Lemma consumes_split url m rest b after : consumes url m rest b after -> exists mid, rest = mid ++ after.
Proof.
  intros H. destruct H.
  - destruct H as [-> _]. eauto.
  - destruct H as [-> _]. eauto.
  - exists rest. rewrite app_nil_r. auto.
  - exists rest. rewrite app_nil_r. auto.
  - exists (c :: v). reflexivity.
  - exists rest. rewrite app_nil_r. auto.
Qed.

Lemma p_sets_app b1 b2 ps : p_sets (b1 ++ b2) ps = p_sets b2 (p_sets b1 ps).
Proof. unfold p_sets. apply fold_left_app. Qed.

Lemma rule_get_spec h : forall ms pre rest ps,
  exists x ps', rule_get ms h (pre ++ rest) (length pre) ps = Ok (x, ps') /\
  ((exists b after, chain (pre ++ rest) ms rest b after /\ (length after <= 1)%nat /\ x = h /\ ps' = p_sets b ps) \/
   (x = None /\ forall b after, chain (pre ++ rest) ms rest b after -> (1 < length after)%nat)).
Proof.
  induction ms as [|m ms IH]; intros pre rest ps; cbn [rule_get].
  - rewrite app_length. destruct (Nat.leb_spec (length pre + length rest) (length pre + 1)) as [L|L].
    + do 2 eexists. split; [reflexivity|]. left. exists [], rest. repeat split; [constructor|lia].
    + do 2 eexists. split; [reflexivity|]. right. split; auto. intros b after H. inversion H; subst. lia.
  - destruct (m_match_spec m pre rest ps) as (r & E & H). rewrite E. cbn [bind]. destruct r as [[i ps1]|].
    + destruct H as (mid & after & b & Er & -> & Hc & ->).
      assert (Eu : pre ++ rest = (pre ++ mid) ++ after) by (rewrite <- app_assoc; congruence).
      destruct (IH (pre ++ mid) after (p_sets b ps)) as (x & ps' & E2 & H2). rewrite <- Eu in *.
      exists x, ps'. split; [exact E2|]. destruct H2 as [(b2 & a2 & C2 & L2 & -> & ->)|[-> H2]].
      * left. exists (b ++ b2), a2. repeat split; auto; [econstructor; eauto|]. rewrite p_sets_app. reflexivity.
      * right. split; auto. intros b2 a2 C2. inversion C2 as [|? ? ? b3 mid3 bs3 ? C3 C4]; subst.
        rewrite (consumes_det _ _ _ _ _ _ _ C3 Hc) in C4. eapply H2; eauto.
    + do 2 eexists. split; [reflexivity|]. right. split; auto. intros b after C. inversion C; subst. exfalso. eapply H; eauto.
Qed.

Lemma consumes_boundary url m rest b after : consumes url m rest b after -> at_boundary after.
Proof. intros H. destruct H; auto; try (left; reflexivity); destruct H; auto. Qed.

Lemma chain_boundary url ms rest b after : ms <> [] -> chain url ms rest b after -> at_boundary after.
Proof.
  intros N H. induction H as [|m ms rest b mid bs after Hc Hr IH]; [congruence|].
  destruct ms as [|m2 ms]; [|apply IH; congruence]. inversion Hr; subst. eapply consumes_boundary; eauto.
Qed.

Lemma boundary_short after : at_boundary after -> ((length after <= 1)%nat <-> (after = [] \/ after = [x2f])).
Proof.
  intros [->|[t ->]]; cbn; [split; auto|]. split.
  - intros H. right. destruct t; [auto|cbn in H; lia].
  - intros [H|H]; inversion H; subst; cbn; lia.
Qed.

Lemma rule_top ms h url ps : ms <> [] ->
  exists x ps', rule_get ms h url 0 ps = Ok (x, ps') /\
  ((exists b, rule_matches url ms b /\ x = h /\ ps' = p_sets b ps) \/ (x = None /\ forall b, ~ rule_matches url ms b)).
Proof.
  intros N. destruct (rule_get_spec h ms [] url ps) as (x & ps' & E & H). cbn [app length] in *. exists x, ps'. split; auto.
  destruct H as [(b & after & C & L & -> & ->)|[-> H]].
  - left. exists b. split; [|auto]. exists after. split; auto. apply boundary_short; auto. eapply chain_boundary; eauto.
  - right. split; auto. intros b (after & C & B). specialize (H b after C). destruct B; subst; cbn in H; lia.
Qed.

(** ** Tables *)
Lemma build_app l r : build (l ++ [r]) = register (build l) r.
Proof. unfold build. rewrite fold_left_app. reflexivity. Qed.

Lemma last_put_app : forall l1 l2 m path acc, last_put (l1 ++ l2) m path acc = last_put l2 m path (last_put l1 m path acc).
Proof. induction l1 as [|[] l1 IH]; intros; cbn [app last_put]; auto. Qed.

Lemma exact_build l m path : exact_find (exact (build l)) m path = last_put l m path None.
Proof.
  induction l as [|x l IH] using rev_ind; [reflexivity|]. rewrite build_app, last_put_app.
  destruct x as [m1 p1 h|m1 ms h]; cbn [register exact exact_find last_put]; [|exact IH].
  destruct (Nat.eqb m1 m); cbn [andb]; [|exact IH].
  destruct (bytes_eqb_spec p1 path), (list_eq_dec byte_eq_dec p1 path); congruence.
Qed.

Lemma rules_build l m : map snd (filter (fun x => Nat.eqb (fst x) m) (rules (build l))) = rules_of l m.
Proof.
  induction l as [|x l IH] using rev_ind; [reflexivity|]. rewrite build_app. unfold rules_of in *. rewrite flat_map_app.
  destruct x as [m1 p1 h|m1 ms h]; cbn [register rules flat_map].
  - rewrite app_nil_r. exact IH.
  - rewrite filter_app, map_app, IH. f_equal. cbn. destruct (Nat.eqb m1 m); reflexivity.
Qed.

Lemma rules_find_filter : forall l m path ps,
  rules_find l m path ps = rules_find (filter (fun x => Nat.eqb (fst x) m) l) m path ps.
Proof.
  induction l as [|[m1 [ms h]] l IH]; intros m path ps; cbn [rules_find filter fst]; auto.
  destruct (Nat.eqb m1 m) eqn:E; [|apply IH]. cbn [rules_find]. rewrite E.
  destruct (rule_get ms h path 0 ps) as [[x ps1]| | |]; cbn [bind]; auto. destruct x; auto.
Qed.

Lemma rules_find_spec m path : forall l,
  (forall x, In x l -> fst x = m /\ fst (snd x) <> []) ->
  exists x ps', rules_find l m path [] = Ok (x, ps') /\
  ((exists before ms h later b, map snd l = before ++ (ms, Some h) :: later /\ Forall (does_not_match path) before /\
      rule_matches path ms b /\ x = Some h /\ ps' = p_sets b []) \/
   (x = None /\ ps' = [] /\ Forall (does_not_match path) (map snd l))).
Proof.
  induction l as [|[m1 [ms h]] l IH]; intros Hm; cbn [rules_find].
  - do 2 eexists. split; [reflexivity|]. right. repeat split; constructor.
  - destruct (Hm (m1, (ms, h)) (or_introl eq_refl)) as [E N]. cbn [fst snd] in E, N. subst m1. rewrite Nat.eqb_refl.
    destruct (rule_top ms h path [] N) as (x & ps' & E & H). rewrite E. cbn [bind].
    assert (Next : does_not_match path (ms, h) -> exists x ps', rules_find l m path [] = Ok (x, ps') /\
      ((exists before ms0 h0 later b, map snd ((m, (ms, h)) :: l) = before ++ (ms0, Some h0) :: later /\ Forall (does_not_match path) before /\
      rule_matches path ms0 b /\ x = Some h0 /\ ps' = p_sets b []) \/
      (x = None /\ ps' = [] /\ Forall (does_not_match path) (map snd ((m, (ms, h)) :: l))))).
    { intros D. destruct IH as (x2 & ps2 & E2 & H2); [intros y Hy; apply Hm; right; auto|]. exists x2, ps2. split; auto.
      destruct H2 as [(before & ms0 & h0 & later & b & M & F & R & -> & ->)|(-> & -> & F)].
      - left. exists ((ms, h) :: before), ms0, h0, later, b. repeat split; auto. cbn [map snd app]. rewrite M. reflexivity.
      - right. repeat split; auto. constructor; auto. }
    destruct H as [(b & R & -> & ->)|[-> R]].
    + destruct h as [h|].
      * do 2 eexists. split; [reflexivity|]. left. exists [], ms, h, (map snd l), b. repeat split; auto.
      * apply Next. left. reflexivity.
    + apply Next. right. exact R.
Qed.

Lemma p_get_set k v k' ps : p_get (p_set k v ps) k' = if list_eq_dec byte_eq_dec k k' then Some v else p_get ps k'.
Proof.
  induction ps as [|[k1 v1] ps IH]; cbn [p_set p_get].
  - destruct (bytes_eqb_spec k k'), (list_eq_dec byte_eq_dec k k'); congruence.
  - destruct (bytes_eqb_spec k1 k) as [->|N]; cbn [p_get].
    + destruct (bytes_eqb_spec k k'), (list_eq_dec byte_eq_dec k k'); congruence.
    + rewrite IH. destruct (bytes_eqb_spec k1 k'), (list_eq_dec byte_eq_dec k k'); congruence.
Qed.

Lemma p_get_sets : forall b n, p_get (p_sets b []) n = last_bound b n.
Proof.
  induction b as [|[k v] b IH] using rev_ind; intros n; [reflexivity|]. rewrite p_sets_app. unfold last_bound. rewrite rev_unit.
  cbn [fst snd find]. change (p_sets [(k, v)] (p_sets b [])) with (p_set k v (p_sets b [])). rewrite p_get_set.
  destruct (list_eq_dec byte_eq_dec k n); auto. apply IH.
Qed.

Lemma get_handler_l l m url : rules_have_matchers l ->
  exists h ps b, get_handler (build l) m url [] = Ok (h, ps) /\ dispatch l m url h b /\ forall n, p_get ps n = last_bound b n.
Proof.
  intros HM. unfold get_handler. rewrite exact_build. destruct (last_put l m url None) as [h|] eqn:E.
  - exists (Some h), [], []. repeat split; auto. constructor; auto.
  - rewrite rules_find_filter.
    destruct (rules_find_spec m url (filter (fun x => Nat.eqb (fst x) m) (rules (build l)))) as (x & ps & Ef & H).
    { intros y Hy. apply filter_In in Hy. destruct Hy as [Hy Q]. apply Nat.eqb_eq in Q. split; auto.
      clear Q E. revert Hy. clear -HM. induction l as [|z l IH] using rev_ind; [intros []|]. rewrite build_app. intros Hy.
      assert (HM' : rules_have_matchers l) by (intros m1 ms h Q; apply (HM m1 ms h); apply in_or_app; auto).
      destruct z as [m1 p1 h|m1 ms h]; cbn [register rules] in Hy; [auto|]. apply in_app_or in Hy. destruct Hy as [Hy|[<-|[]]]; auto.
      cbn. apply (HM m1 ms h). apply in_or_app. right. left. reflexivity. }
    rewrite rules_build in H. rewrite Ef. destruct H as [(before & ms & h & later & b & M & F & R & -> & ->)|(-> & -> & F)].
    + exists (Some h), (p_sets b []), b. repeat split; [|apply p_get_sets]. eapply d_rule; eauto.
    + exists None, [], []. repeat split. apply d_none; auto.
Qed.

Lemma dispatch_det_l l m url h1 b1 h2 b2 : dispatch l m url h1 b1 -> dispatch l m url h2 b2 -> h1 = h2.
Proof.
  assert (Split : forall (P : list matcher * option nat -> Prop) l1 x1 r1 l2 x2 r2,
    l1 ++ x1 :: r1 = l2 ++ x2 :: r2 -> Forall P l1 -> Forall P l2 -> ~ P x1 -> ~ P x2 -> x1 = x2).
  { intros P. induction l1 as [|y l1 IH]; intros x1 r1 [|z l2] x2 r2 E F1 F2 N1 N2; cbn [app] in E; inversion E; subst; auto.
    - inversion F2; subst. contradiction.
    - inversion F1; subst. contradiction.
    - inversion F1; inversion F2; subst. eapply IH; eauto. }
  intros H1 H2. destruct H1; inversion H2; subst; try congruence.
  - match goal with E1 : rules_of l m = ?a, E2 : rules_of l m = ?b |- _ => 
      assert (E : a = b) by (rewrite <- E1; exact E2) end.
    match type of E with _ ++ ?x1 :: _ = _ ++ ?x2 :: _ => assert (Q : x1 = x2) end; [|congruence].
    apply (Split (does_not_match url) _ _ _ _ _ _ E); auto; intros [D|D]; try discriminate; eapply D; eauto.
  - exfalso. match goal with F : Forall _ (rules_of l m), E : rules_of l m = _ |- _ => rewrite E in F; apply Forall_app in F; destruct F as [_ F]; inversion F as [|? ? D _]; subst end.
    destruct D as [D|D]; [discriminate|]. eapply D; eauto.
  - exfalso. match goal with F : Forall _ (rules_of l m), E : rules_of l m = _ |- _ => rewrite E in F; apply Forall_app in F; destruct F as [_ F]; inversion F as [|? ? D _]; subst end.
    destruct D as [D|D]; [discriminate|]. eapply D; eauto.
Qed.

(** ** Patterns *)
Lemma take_word_app n t : Forall word_char n -> take_word (n ++ x3e :: t) = n.
Proof.
  intros H. induction H as [|c n Hc Hn IH]; cbn [app take_word]; [reflexivity|].
  assert (word c = true) as ->; [|rewrite IH; reflexivity].
  unfold word, word_char in *. destruct Hc as [Hc|[Hc|[Hc|Hc]]].
  - destruct (Z.leb_spec 48 (b2z c)), (Z.leb_spec (b2z c) 57); lia.
  - rewrite (proj2 (Z.leb_le 65 (b2z c))), (proj2 (Z.leb_le (b2z c) 90)) by lia. rewrite orb_true_r. reflexivity.
  - rewrite (proj2 (Z.leb_le 97 (b2z c))), (proj2 (Z.leb_le (b2z c) 122)) by lia. rewrite orb_true_r. reflexivity.
  - rewrite Hc, (Z.eqb_refl 95), !orb_true_r. reflexivity.
Qed.

Lemma parse_items_l : forall items, Forall writable items -> forall fuel, (length (render items) < fuel)%nat ->
  parse_items fuel (render items) = Some items.
Proof.
  intros items H. induction H as [|x items Hx Hi IH]; intros fuel L; (destruct fuel as [|f]; [lia|]); [reflexivity|].
  unfold render in *. cbn [flat_map] in *. rewrite app_length in L. destruct x as [c| |n]; cbn [render_item app length parse_items] in *.
  - destruct Hx as [Hx1 [Hx2 Hx3]].
    assert (special c = false) as ->.
    { unfold special. destruct (existsb (Byte.eqb c) _) eqn:E; auto. apply existsb_exists in E. destruct E as (y & Iy & Ey).
      destruct (byte_eqb_spec c y); [subst|discriminate]. contradiction. }
    destruct (byte_eqb_spec c x3c); [congruence|]. destruct (byte_eqb_spec c x2e); [congruence|]. rewrite IH by lia. reflexivity.
  - change (str "." ++ flat_map render_item items) with (x2e :: flat_map render_item items). cbn [parse_items].
    change (special x2e) with false. change (Byte.eqb x2e x3c) with false. change (Byte.eqb x2e x2e) with true. cbn iota.
    rewrite IH; [reflexivity|]. cbn in L. lia.
  - change (str "<") with [x3c] in *. change (str ">") with [x3e] in *. cbn [app length parse_items] in *.
    destruct Hx as [Nn Hw]. rewrite <- app_assoc. cbn [app].
    change (Byte.eqb x3c x3c) with true. change (special x3c) with false. cbn iota zeta. rewrite take_word_app by auto. destruct n as [|c n]; [congruence|].
    change (S (length n)) with (length (c :: n)). rewrite skipn_len. rewrite IH; [reflexivity|]. rewrite !app_length in L. cbn [length] in L. lia.
Qed.

Lemma between_app a b x : no_newline x = true -> between a b (a ++ x ++ b) = Some x.
Proof.
  intros N. unfold between. rewrite !app_length.
  replace (length a + (length x + length b) - length a - length b)%nat with (length x) by lia.
  rewrite skipn_len, firstn_len. rewrite N.
  assert (skipn (length a + length x) (a ++ x ++ b) = b) as ->.
  { rewrite app_assoc, <- app_length. apply skipn_len. }
  rewrite (proj2 (Nat.leb_le (length a + length b) (length a + (length x + length b)))) by lia.
  assert (is_prefix a (a ++ x ++ b) = true) as -> by (apply is_prefix_spec; eauto).
  assert (is_prefix b b = true) as -> by (apply is_prefix_spec; exists []; rewrite app_nil_r; auto). reflexivity.
Qed.

Lemma between_prefix a b s : (forall t, s <> a ++ t) -> between a b s = None.
Proof.
  intros H. unfold between. destruct (is_prefix a s) eqn:E.
  - apply is_prefix_spec in E. destruct E as [t E]. exfalso. eapply H; eauto.
  - rewrite andb_false_r. reflexivity.
Qed.

Lemma proxy_ph_l compile items : Forall writable items -> no_line_break (render items) ->
  proxy compile (str "<ph(" ++ render items ++ str ")>") = Some (MPlaceholder items).
Proof.
  intros H N. unfold proxy. change (str "<ph(") with [x3c; x70; x68; x28]. change (str ")>") with [x29; x3e].
  rewrite between_app.
  - rewrite parse_items_l by (auto; lia). reflexivity.
  - apply forallb_forall. intros c Ic. apply negb_true_iff, orb_false_iff. destruct N as [N1 N2].
    split; [destruct (byte_eqb_spec c x0a)|destruct (byte_eqb_spec c x0d)]; auto; subst; contradiction.
Qed.

Lemma proxy_plain_l compile s : (forall t, s <> x3c :: t) -> proxy compile s = Some (MString s).
Proof. intros H. unfold proxy. rewrite !between_prefix; [reflexivity| |]; intros t E; eapply H; exact E. Qed.

Lemma proxy_regex_l compile x : no_line_break x ->
  proxy compile (str "<regex" ++ x ++ str ">") = Some (MRegex (str "<regex" ++ x ++ str ">") (compile x)).
Proof.
  intros N. unfold proxy. rewrite between_prefix by (intros t E; discriminate).
  change (str "<regex") with [x3c; x72; x65; x67; x65; x78]. change (str ">") with [x3e]. rewrite between_app; [reflexivity|].
  apply forallb_forall. intros c Ic. apply negb_true_iff, orb_false_iff. destruct N as [N1 N2].
  split; [destruct (byte_eqb_spec c x0a)|destruct (byte_eqb_spec c x0d)]; auto; subst; contradiction.
Qed.

Lemma path_rule_l compile s param : (forall t, s <> x3c :: t) ->
  path_rule compile s param =
  Some (MString s :: match list_eq_dec byte_eq_dec param [] with left _ => [] | right _ => [MParam param true] end).
Proof. intros H. unfold path_rule. rewrite proxy_plain_l by auto. destruct param; reflexivity. Qed.
