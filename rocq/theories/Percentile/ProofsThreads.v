(** Threads that update while Reset() runs. *)
From Coq Require Import List ZArith Bool Lia Permutation.
From Verif.Lib Require Import Base ListX Count.
From Verif.Percentile Require Import Model Spec ProofsLog ProofsMerge ProofsFind ProofsMain.
Import ListNotations.
Open Scope Z_scope.

Lemma nth_lset_error {A} (l : list A) i j x : (i < length l)%nat -> nth_error (lset l i x) j = if (i =? j)%nat then Some x else nth_error l j.
Proof.
  revert i j. induction l as [|y l IH]; intros i j L; [cbn in L; lia|]. destruct i as [|i], j as [|j]; cbn [lset nth_error Nat.eqb]; try reflexivity.
  apply IH. cbn in L. lia.
Qed.

Lemma with_iv_holds n l l' g i v t : holds n l g -> (i < 32)%nat -> Forall fine l' -> t = len l' ->
  sampled n (filter (belongs i) l') v -> (forall j, j <> i -> filter (belongs j) l' = filter (belongs j) l) -> holds n l' (with_iv i v t g).
Proof.
  intros (F & L & T & H) I32 F' E S O. split; [exact F'|]. cbn [with_iv ivs total]. rewrite lset_length. split; [exact L|]. split; [exact E|].
  intros j w J. rewrite nth_lset_error in J by lia. destruct (Nat.eqb_spec i j) as [<-|N]; [injection J as <-; exact S|]. rewrite O by congruence. apply H. exact J.
Qed.

Lemma filter_none {A} (f : A -> bool) l : (forall x, In x l -> f x = false) -> filter f l = [].
Proof. induction l as [|x l IH]; intros H; [reflexivity|]. cbn [filter]. rewrite (H x (or_introl eq_refl)). apply IH. intros y Y. apply H. right. exact Y. Qed.
Lemma filter_ext_in' {A} (f g : A -> bool) l : (forall x, In x l -> f x = g x) -> filter f l = filter g l.
Proof. induction l as [|x l IH]; intros H; [reflexivity|]. cbn [filter]. rewrite (H x (or_introl eq_refl)), IH; [reflexivity|]. intros y Y. apply H. right. exact Y. Qed.
Lemma filter_filter {A} (f g : A -> bool) l : filter f (filter g l) = filter (fun x => g x && f x) l.
Proof. induction l as [|x l IH]; [reflexivity|]. cbn [filter]. destruct (g x); cbn [filter andb]; [destruct (f x); rewrite IH; reflexivity|exact IH]. Qed.

Lemma one_interval x i : fine x -> index_of x = Ok i -> forall j, belongs j x = (j =? i)%nat.
Proof. intros (L & O) E j. destruct (index_spec x L) as (_ & B). destruct (B O) as (k & E' & _ & H). rewrite E in E'. injection E' as <-. apply H. Qed.
Lemma fine_index x : fine x -> exists i, index_of x = Ok i /\ (i < 32)%nat.
Proof. intros (L & O). destruct (index_spec x L) as (_ & B). destruct (B O) as (k & E & H & _). eauto. Qed.
Lemma belongs_one x i j : fine x -> belongs i x = true -> belongs j x = (j =? i)%nat.
Proof. intros F B. destruct (fine_index x F) as (k & E & _). rewrite (one_interval x k F E) in *. apply Nat.eqb_eq in B. subst k. reflexivity. Qed.

Definition pc_ok (p : ppc) : Prop :=
  match p with PIdle => True | PFull x i => fine x /\ index_of x = Ok i | PMerged x i => fine x /\ index_of x = Ok i end.
Definition th_ok (h : thread) : Prop :=
  holds 30 (seen h) (loc h) /\ (forall i, len (filter (belongs i) (seen h)) <= 30) /\ pc_ok (at_pc h).
Definition pend (h : thread) : Z := match at_pc h with PIdle => 0 | PFull _ _ => 31 | PMerged _ _ => 1 end.
Definition weight (h : thread) : Z := len (seen h) + pend h.
Definition zweight (s : st) : Z :=
  len (gglob s) + match tak s with Some r => len (gacc r) | None => 0 end + zsum weight (ths s).
Definition inv (s : st) : Prop :=
  Forall th_ok (ths s) /\ holds 254 (gglob s) (glob s) /\
  match tak s with Some r => holds 254 (gacc r) (acc r) | None => True end.

Lemma zsum_nonneg l : 0 <= zsum weight l.
Proof. induction l as [|h l IH]; cbn [zsum]; [lia|]. assert (0 <= weight h) by (unfold weight, pend; pose proof (len_pos (seen h)); destruct (at_pc h); lia). lia. Qed.
Lemma zsum_set l i h h' : nth_error l i = Some h -> zsum weight (lset l i h') = zsum weight l - weight h + weight h'.
Proof.
  intros H. assert (L : (i < length l)%nat) by (apply nth_error_Some; congruence). pose proof (zsum_lset weight l i h' h L) as Q.
  rewrite (nth_error_nth l i h H) in Q. lia.
Qed.
Lemma zsum_at l i h : nth_error l i = Some h -> len (seen h) + pend h <= zsum weight l.
Proof.
  revert i. induction l as [|u l IH]; intros [|i] H; cbn [nth_error zsum] in *; try discriminate.
  - injection H as ->. pose proof (zsum_nonneg l) as Q. change (len (seen h) + pend h) with (weight h). lia.
  - specialize (IH i H). assert (0 <= weight u) by (unfold weight, pend; pose proof (len_pos (seen u)); destruct (at_pc u); lia). lia.
Qed.
Lemma forall_set {A} (P : A -> Prop) l i x : Forall P l -> P x -> Forall P (lset l i x).
Proof. intros F X. revert i. induction F as [|y l H F IH]; intros [|i]; cbn [lset]; constructor; auto. Qed.

Lemma add_to_ok x i h : holds 30 (seen h) (loc h) -> (forall j, len (filter (belongs j) (seen h)) <= 30) -> fine x -> index_of x = Ok i ->
  len (filter (belongs i) (seen h)) < 30 -> th_ok (add_to x i h).
Proof.
  intros H C FX IX L. pose proof (one_interval x i FX IX) as BX. destruct (fine_index x FX) as (i' & IX' & I32). rewrite IX in IX'. injection IX' as <-.
  assert (FL : forall j, filter (belongs j) (seen h ++ [x]) = filter (belongs j) (seen h) ++ (if (j =? i)%nat then [x] else [])).
  { intros j. rewrite filter_app. cbn [filter]. rewrite BX. reflexivity. }
  unfold add_to, th_ok. cbn [loc seen at_pc pc_ok]. split; [|split; [|exact I]].
  - eapply with_iv_holds; [exact H|exact I32|apply Forall_app; split; [apply H|constructor; [exact FX|constructor]]| | |].
    + destruct H as (_ & _ & -> & _). rewrite len_app. reflexivity.
    + rewrite FL, Nat.eqb_refl. apply add32_spec; [apply holds_at; assumption|exact L|lia].
    + intros j N. rewrite FL. destruct (Nat.eqb_spec j i); [contradiction|]. apply app_nil_r.
  - intros j. rewrite FL, len_app. destruct (Nat.eqb_spec j i) as [->|]; [change (len [x]) with 1; lia|]. specialize (C j). change (len (@nil Z)) with 0. lia.
Qed.

Lemma size_sampled n l v : sampled n l v -> size v = Z.min (len l) n.
Proof. intros (_ & B & _). exact B. Qed.

(** A step of a run with few calls. *)
Lemma step_ok a s r : inv s -> step a s = Some r -> (forall t x, a = PCall t x -> fine x) -> zweight s + 31 < 2 ^ 32 ->
  exists s' o, r = Ok (s', o) /\ inv s' /\ zweight s' + match o with Some (_, m) => len m | None => 0 end <= zweight s + 31 * len (called [a]) /\
    match o with Some (g, m) => holds 254 m g | None => True end.
Proof.
  intros (IT & IG & IR) H FC W. unfold zweight in *. pose proof (zsum_nonneg (ths s)) as ZN. pose proof (len_pos (gglob s)) as GN.
  destruct a as [|t x|t o| |o|]; cbn [step called map concat app] in *; try change (len (@nil Z)) with 0.
  - destruct (tak s) eqn:T; [discriminate|]. injection H as <-. eexists _, _. split; [reflexivity|]. split; [|split; [|exact I]].
    + unfold inv. cbn [ths gglob glob tak]. split; [|split; [exact IG|exact I]]. apply Forall_app. split; [exact IT|]. constructor; [|constructor]. split; [apply holds_empty; lia|]. split; [|exact I].
      intros i. cbn. lia.
    + cbn [ths gglob tak]. assert (Z0 : forall l h, zsum weight (l ++ [h]) = zsum weight l + weight h) by (intros l h; induction l as [|u l IH]; cbn [app zsum]; lia).
      rewrite Z0. unfold weight at 2. cbn. lia.
  - destruct (nth_error (ths s) t) as [h|] eqn:NH; [|discriminate]. assert (HO : th_ok h) by (rewrite Forall_forall in IT; apply IT; eapply nth_error_In; exact NH).
    destruct HO as (HH & HC & HP). destruct (at_pc h) eqn:PC; try discriminate. injection H as <-. specialize (FC t x eq_refl).
    destruct (fine_index x FC) as (i & IX & I32). rewrite IX. cbn [bind]. change (len [x]) with 1.
    pose proof (holds_at 30 _ _ i HH I32) as SA. rewrite (size_sampled _ _ _ SA). pose proof (HC i) as HCi. rewrite Z.min_l by exact HCi.
    destruct (Z.eqb_spec (len (filter (belongs i) (seen h))) 30) as [E|E].
    + eexists _, _. split; [reflexivity|]. split; [|split; [|exact I]].
      * split; [|split; [exact IG|exact IR]]. cbn [put_th ths]. apply forall_set; [exact IT|]. split; [exact HH|]. split; [exact HC|]. split; assumption.
      * cbn [put_th ths gglob tak]. rewrite (zsum_set _ _ _ _ NH). unfold weight, pend. cbn [seen at_pc]. rewrite PC. lia.
    + eexists _, _. split; [reflexivity|]. split; [|split; [|exact I]].
      * split; [|split; [exact IG|exact IR]]. cbn [put_th ths]. apply forall_set; [exact IT|]. apply add_to_ok; try assumption. lia.
      * cbn [put_th ths gglob tak]. rewrite (zsum_set _ _ _ _ NH). unfold weight, pend. cbn [add_to seen at_pc]. rewrite PC, len_app. change (len [x]) with 1. lia.
  - destruct (nth_error (ths s) t) as [h|] eqn:NH; [|discriminate]. assert (HO : th_ok h) by (rewrite Forall_forall in IT; apply IT; eapply nth_error_In; exact NH).
    destruct HO as (HH & HC & HP). pose proof (zsum_at _ _ _ NH) as WH. unfold pend in WH. destruct (at_pc h) as [|x i|x i] eqn:PC; [discriminate|..].
    + destruct (tak s) eqn:T; [discriminate|]. injection H as <-. destruct HP as (FX & IX). destruct (fine_index x FX) as (i' & IX' & I32). rewrite IX in IX'. injection IX' as <-.
      pose proof HH as (FS & _). assert (FI : filter (of_interval i) (seen h) = filter (belongs i) (seen h)).
      { apply filter_ext_in'. intros y Y. rewrite Forall_forall in FS. apply of_interval_belongs, FS, Y. }
      pose proof (filter_len (belongs i) (seen h)) as FL1. pose proof (filter_len (belongs i) (gglob s)) as FL2.
      destruct (merge_spec 254 30 _ _ _ _ o (holds_at _ _ _ i IG I32) (holds_at _ _ _ i HH I32) (HC i)) as (w & o' & R & S); [lia|lia|]. rewrite R. cbn [bind].
      eexists _, _. split; [reflexivity|]. split; [|split; [|exact I]].
      * unfold inv. cbn [ths gglob glob tak]. split; [|split; [|exact I]].
        -- apply forall_set; [exact IT|]. split; [exact HH|]. split; [exact HC|]. split; assumption.
        -- rewrite FI. assert (FF : Forall fine (filter (belongs i) (seen h))) by (rewrite Forall_forall in *; intros y Y; apply filter_In in Y; apply FS, Y).
           eapply with_iv_holds; [exact IG|exact I32|apply Forall_app; split; [apply IG|exact FF]| | |].
           ++ destruct IG as (_ & _ & -> & _). destruct (holds_at _ _ _ i HH I32) as (-> & _). rewrite len_app. reflexivity.
           ++ rewrite filter_app, filter_filter. rewrite (filter_ext_in' (fun y => belongs i y && belongs i y) (belongs i)); [exact S|]. intros y _. apply andb_diag.
           ++ intros j N. rewrite filter_app, (filter_none (belongs j) (filter (belongs i) (seen h))); [apply app_nil_r|].
              intros y Y. pose proof Y as Y'. rewrite Forall_forall in FF. apply FF in Y. apply filter_In in Y'. destruct Y' as (_ & Y'). rewrite (belongs_one y i j Y Y'). apply Nat.eqb_neq. exact N.
      * cbn [ths gglob tak]. rewrite (zsum_set _ _ _ _ NH), len_app, FI. unfold weight, pend. cbn [seen at_pc]. rewrite PC. specialize (HC i). lia.
    + injection H as <-. destruct HP as (FX & IX). destruct (fine_index x FX) as (i' & IX' & I32). rewrite IX in IX'. injection IX' as <-.
      pose proof HH as (FS & LI & TO & HS). assert (FI : filter (fun y => negb (of_interval i y)) (seen h) = filter (fun y => negb (belongs i y)) (seen h)).
      { apply filter_ext_in'. intros y Y. rewrite Forall_forall in FS. rewrite of_interval_belongs by apply FS, Y. reflexivity. }
      rewrite FI. set (l' := filter (fun y => negb (belongs i y)) (seen h)).
      assert (SP : len (seen h) = len (filter (belongs i) (seen h)) + len l').
      { unfold l', len. clear. induction (seen h) as [|y l IH]; [reflexivity|]. cbn [filter]. destruct (belongs i y); cbn [negb length]; lia. }
      assert (FO : forall j, j <> i -> filter (belongs j) l' = filter (belongs j) (seen h)).
      { intros j N. unfold l'. rewrite filter_filter. apply filter_ext_in'. intros y Y. rewrite Forall_forall in FS. destruct (belongs i y) eqn:B; [|reflexivity].
        rewrite (belongs_one y i j (FS y Y) B). destruct (Nat.eqb_spec j i); [contradiction|reflexivity]. }
      assert (FI0 : filter (belongs i) l' = []) by (apply filter_none; intros y Y; apply filter_In in Y; destruct Y as (_ & Y); destruct (belongs i y); [discriminate|reflexivity]).
      eexists _, _. split; [reflexivity|]. split; [|split; [|exact I]].
      * split; [|split; [exact IG|exact IR]]. cbn [put_th ths]. apply forall_set; [exact IT|]. apply add_to_ok; cbn [seen loc]; try assumption.
        -- eapply with_iv_holds; [exact HH|exact I32| | | |exact FO].
           ++ rewrite Forall_forall in *. intros y Y. apply filter_In in Y. apply FS, Y.
           ++ destruct (holds_at _ _ _ i HH I32) as (-> & _). rewrite TO. lia.
           ++ rewrite FI0. apply sampled_fresh. lia.
        -- intros j. destruct (Nat.eq_dec j i) as [->|N]; [rewrite FI0; cbn; lia|]. rewrite FO by exact N. apply HC.
        -- rewrite FI0. cbn. lia.
      * cbn [put_th ths gglob tak]. rewrite (zsum_set _ _ _ _ NH). unfold weight, pend. cbn [add_to seen at_pc]. rewrite PC, len_app. change (len [x]) with 1.
        pose proof (len_pos (filter (belongs i) (seen h))). lia.
  - destruct (tak s) eqn:T; [discriminate|]. injection H as <-. eexists _, _. split; [reflexivity|]. split; [|split; [|exact I]].
    + split; [exact IT|]. cbn [gglob glob tak]. split; [apply holds_empty; lia|]. cbn [acc gacc]. exact IG.
    + cbn [ths gglob tak gacc]. change (len (@nil Z)) with 0. lia.
  - destruct (tak s) as [r'|] eqn:T; [|discriminate]. destruct (todo r') as [|t m] eqn:TD; [discriminate|]. destruct (nth_error (ths s) t) as [h|] eqn:NH; [|discriminate].
    assert (HO : th_ok h) by (rewrite Forall_forall in IT; apply IT; eapply nth_error_In; exact NH). destruct HO as (HH & HC & HP). injection H as <-.
    pose proof (zsum_at _ _ _ NH) as WH. assert (0 <= pend h) by (unfold pend; destruct (at_pc h); lia). pose proof (len_pos (gacc r')).
    destruct (merge_group_spec 254 30 (gacc r') (seen h) (acc r') (loc h) o ltac:(lia) HC ltac:(lia) IR HH) as (g & o' & R & S). rewrite R. cbn [bind].
    eexists _, _. split; [reflexivity|]. split; [|split; [|exact I]].
    + unfold inv. cbn [ths gglob glob tak acc gacc]. split; [|split; [exact IG|exact S]]. apply forall_set; [exact IT|]. split; [apply holds_empty; lia|]. split; [|exact HP]. intros i. cbn. lia.
    + cbn [ths gglob tak gacc]. rewrite (zsum_set _ _ _ _ NH), len_app. unfold weight, pend. cbn [seen at_pc]. change (len (@nil Z)) with 0. lia.
  - destruct (tak s) as [r'|] eqn:T; [|discriminate]. destruct (todo r') as [|t m] eqn:TD; [|discriminate]. injection H as <-. eexists _, _. split; [reflexivity|]. split; [|split].
    + split; [exact IT|]. split; [exact IG|exact I].
    + cbn [ths gglob tak]. pose proof (len_pos (gacc r')). lia.
    + exact IR.
Qed.

Lemma run_ok l : forall s r, inv s -> run l s = Some r -> Forall fine (called l) -> zweight s + 31 * (len (called l) + 1) < 2 ^ 32 ->
  exists s' rs, r = Ok (s', rs) /\ inv s' /\ Forall (fun x => holds 254 (snd x) (fst x)) rs /\ len (returned rs) <= zweight s + 31 * len (called l).
Proof.
  induction l as [|a l IH]; intros s r Iv H F W; cbn [run] in H.
  - injection H as <-. exists s, []. split; [reflexivity|]. split; [exact Iv|]. split; [constructor|]. change (len (returned [])) with 0. change (len (called [])) with 0.
    unfold zweight. pose proof (zsum_nonneg (ths s)). pose proof (len_pos (gglob s)). destruct (tak s) as [r|]; [pose proof (len_pos (gacc r))|]; lia.
  - destruct (step a s) as [q|] eqn:S; [|discriminate]. change (called (a :: l)) with (called ([a] ++ l)) in *. unfold called in *. rewrite map_app, concat_app in *. fold (called [a]) (called l) in *.
    apply Forall_app in F. destruct F as (F1 & F2). rewrite len_app in W. pose proof (len_pos (called [a])). pose proof (len_pos (called l)).
    destruct (step_ok a s q Iv S) as (s1 & o & -> & I1 & W1 & O).
    + intros t x ->. cbn in F1. inversion F1. assumption.
    + lia.
    + destruct (run l s1) as [r2|] eqn:R2; [|discriminate].
      assert (W2 : 0 <= match o with Some (_, m) => len m | None => 0 end) by (destruct o as [[? m]|]; [apply len_pos|lia]).
      destruct (IH s1 r2 I1 R2 F2) as (s2 & rs & -> & I2 & O2 & B2); [lia|]. injection H as <-. eexists _, _. split; [reflexivity|]. split; [exact I2|]. rewrite len_app.
      destruct o as [[g m]|].
      * split; [constructor; [exact O|exact O2]|]. change (returned ((g, m) :: rs)) with (m ++ returned rs). rewrite len_app. lia.
      * split; [exact O2|lia].
Qed.

Lemma inv_init : inv init.
Proof. split; [constructor|]. split; [apply holds_empty; lia|exact I]. Qed.

Lemma runs_fine l r : run l init = Some r -> Forall fine (called l) -> 31 * (len (called l) + 1) < 4294967296 ->
  exists s rs, r = Ok (s, rs) /\ Forall (fun x => holds 254 (snd x) (fst x)) rs /\ len (returned rs) <= 31 * len (called l).
Proof.
  intros H F W. destruct (run_ok l init r inv_init H F) as (s & rs & E & _ & O & B); [change (zweight init) with 0; change (2 ^ 32) with 4294967296; lia|]. change (zweight init) with 0 in B. eauto 6.
Qed.

(** Nothing is lost or counted twice. *)
Lemma cnt_kept_set p l i h h' : nth_error l i = Some h ->
  (cnt p (concat (map kept (lset l i h'))) + cnt p (kept h) = cnt p (concat (map kept l)) + cnt p (kept h'))%nat.
Proof.
  revert i. induction l as [|u l IH]; intros [|i] H; cbn [nth_error lset map concat] in *; try discriminate; rewrite !cnt_app.
  - injection H as ->. lia.
  - specialize (IH i H). lia.
Qed.
Lemma cnt_split (f p : Z -> bool) l : (cnt p (filter f l) + cnt p (filter (fun y => negb (f y)) l) = cnt p l)%nat.
Proof. induction l as [|x l IH]; [reflexivity|]. cbn [filter]. destruct (f x); cbn [negb cnt]; lia. Qed.

Lemma kept_mk h : kept h = match at_pc h with PMerged _ i => filter (fun y => negb (belongs i y)) (seen h) | _ => seen h end ++ match at_pc h with PIdle => [] | PFull x _ => [x] | PMerged x _ => [x] end.
Proof. reflexivity. Qed.
Ltac kept_in Q p :=
  match type of Q with context [kept ?u] => rewrite (kept_mk u) in Q end;
  match type of Q with context [kept ?u] => rewrite (kept_mk u) in Q end;
  cbn [at_pc seen add_to] in Q.

Lemma step_counts p a s s' o : inv s -> step a s = Some (Ok (s', o)) -> spares a s = true ->
  (cnt p (remaining s') + cnt p (match o with Some (_, m) => m | None => [] end) = cnt p (called [a]) + cnt p (remaining s))%nat.
Proof.
  intros (IT & IG & IR) H SP. unfold remaining. destruct a as [|t x|t r| |r|]; cbn [step called map concat app] in *; change (cnt p []) with 0%nat.
  - destruct (tak s) eqn:T; [discriminate|]. injection H as <- <-. cbn [ths gglob tak]. rewrite map_app, concat_app. cbn. rewrite !cnt_app. change (cnt p []) with 0%nat. lia.
  - destruct (nth_error (ths s) t) as [h|] eqn:NH; [|discriminate]. destruct (at_pc h) eqn:PC; try discriminate. injection H as H.
    destruct (index_of x) as [i| | |]; cbn [bind] in H; try discriminate.
    destruct (size (at_ (loc h) i) =? 30); injection H as <- <-; cbn [put_th ths gglob tak]; rewrite !cnt_app;
      match goal with |- context [lset (ths s) t ?h'] => pose proof (cnt_kept_set p (ths s) t h h' NH) as Q end;
      kept_in Q p; rewrite PC in Q; rewrite !cnt_app in Q; change (cnt p []) with 0%nat in *; lia.
  - destruct (nth_error (ths s) t) as [h|] eqn:NH; [|discriminate]. assert (HO : th_ok h) by (rewrite Forall_forall in IT; apply IT; eapply nth_error_In; exact NH).
    destruct HO as ((FS & _) & _ & HP). destruct (at_pc h) as [|x i|x i] eqn:PC; [discriminate|..].
    + destruct (tak s) eqn:T; [discriminate|]. injection H as H. destruct (merge 254 (at_ (glob s) i) (at_ (loc h) i) r) as [[w ?]| | |]; cbn [bind] in H; try discriminate.
      injection H as <- <-. cbn [ths gglob tak]. match goal with |- context [lset (ths s) t ?h'] => pose proof (cnt_kept_set p (ths s) t h h' NH) as Q end.
      kept_in Q p. rewrite PC in Q. rewrite !cnt_app in *. pose proof (cnt_split (belongs i) p (seen h)) as C.
      assert (FI : filter (of_interval i) (seen h) = filter (belongs i) (seen h)) by (apply filter_ext_in'; intros y Y; rewrite Forall_forall in FS; apply of_interval_belongs, FS, Y).
      rewrite FI. change (cnt p []) with 0%nat. lia.
    + injection H as <- <-. cbn [put_th ths gglob tak]. match goal with |- context [lset (ths s) t ?h'] => pose proof (cnt_kept_set p (ths s) t h h' NH) as Q end.
      kept_in Q p. rewrite PC in Q. rewrite !cnt_app in *.
      assert (FI : filter (fun y => negb (of_interval i y)) (seen h) = filter (fun y => negb (belongs i y)) (seen h)).
      { apply filter_ext_in'. intros y Y. rewrite Forall_forall in FS. rewrite of_interval_belongs by apply FS, Y. reflexivity. }
      rewrite FI in *. change (cnt p []) with 0%nat in *. lia.
  - destruct (tak s) eqn:T; [discriminate|]. injection H as <- <-. cbn [ths gglob tak gacc]. rewrite !cnt_app. change (cnt p []) with 0%nat. lia.
  - unfold spares in SP. destruct (tak s) as [k|] eqn:T; [|discriminate]. destruct (todo k) as [|t m] eqn:TD; [discriminate|]. destruct (nth_error (ths s) t) as [h|] eqn:NH; [|discriminate].
    injection H as H. destruct (merge_group 254 (acc k) (loc h) r) as [[g ?]| | |]; cbn [bind] in H; try discriminate. injection H as <- <-. cbn [ths gglob tak gacc].
    match goal with |- context [lset (ths s) t ?h'] => pose proof (cnt_kept_set p (ths s) t h h' NH) as Q end.
    kept_in Q p. rewrite !cnt_app in *. change (cnt p []) with 0%nat in *. destruct (at_pc h); [| |discriminate]; rewrite ?cnt_app in Q; change (cnt p []) with 0%nat in *; lia.
  - destruct (tak s) as [k|] eqn:T; [|discriminate]. destruct (todo k) as [|t m] eqn:TD; [|discriminate]. injection H as <- <-. cbn [ths gglob tak]. rewrite !cnt_app. change (cnt p []) with 0%nat. lia.
Qed.

Lemma run_counts p l : forall s s' rs, inv s -> run l s = Some (Ok (s', rs)) -> gentle l s -> Forall fine (called l) -> zweight s + 31 * (len (called l) + 1) < 2 ^ 32 ->
  (cnt p (returned rs) + cnt p (remaining s') = cnt p (called l) + cnt p (remaining s))%nat.
Proof.
  induction l as [|a l IH]; intros s s' rs Iv H G F W; cbn [run] in H.
  - injection H as <- <-. cbn. lia.
  - inversion G as [|? ? ? SP GN]; subst. destruct (step a s) as [q|] eqn:St; [|discriminate]. change (called (a :: l)) with (called ([a] ++ l)) in *. unfold called in *. rewrite map_app, concat_app in *. fold (called [a]) (called l) in *.
    apply Forall_app in F. destruct F as (F1 & F2). rewrite len_app in W. pose proof (len_pos (called [a])). pose proof (len_pos (called l)).
    destruct (step_ok a s q Iv St) as (s1 & o & -> & I1 & W1 & O).
    + intros t x ->. cbn in F1. inversion F1. assumption.
    + lia.
    + destruct (run l s1) as [[[s2 rs2]| | |]|] eqn:R2; try discriminate. injection H as <- <-.
      assert (W2 : 0 <= match o with Some (_, m) => len m | None => 0 end) by (destruct o as [[? m]|]; [apply len_pos|lia]).
      pose proof (step_counts p a s s1 o Iv St SP) as C1. specialize (IH s1 s2 rs2 I1 R2 (GN _ _ eq_refl) F2 ltac:(lia)). rewrite cnt_app.
      destruct o as [[g m]|]; [change (returned ((g, m) :: rs2)) with (m ++ returned rs2); rewrite cnt_app|change (cnt p []) with 0%nat in C1]; lia.
Qed.

Lemma cnt_permutation (l m : list Z) : (forall p, cnt p l = cnt p m) -> Permutation l m.
Proof.
  intros H. apply (Permutation_count_occ Z.eq_dec). intros x. specialize (H (fun y => if Z.eq_dec y x then true else false)).
  assert (E : forall k, cnt (fun y => if Z.eq_dec y x then true else false) k = count_occ Z.eq_dec k x).
  { clear. induction k as [|y k IH]; [reflexivity|]. cbn [cnt count_occ]. destruct (Z.eq_dec y x); cbn [b2n]; lia. }
  rewrite !E in H. exact H.
Qed.

Lemma counted_once l s rs : run l init = Some (Ok (s, rs)) -> gentle l init -> Forall fine (called l) -> 31 * (len (called l) + 1) < 4294967296 ->
  Permutation (called l) (returned rs ++ remaining s).
Proof.
  intros H G F W. apply cnt_permutation. intros p. rewrite cnt_app.
  pose proof (run_counts p l init s rs inv_init H G F) as C. change (zweight init) with 0 in C. change (2 ^ 32) with 4294967296 in C. specialize (C ltac:(lia)).
  change (cnt p (remaining init)) with 0%nat in C. lia.
Qed.

(** A percentile of what has been returned. *)
Lemma percentile_of_run l r k o : run l init = Some r -> Forall fine (called l) -> 31 * (len (called l) + 1) < 4294967296 ->
  exists s rs, r = Ok (s, rs) /\ (len rs <= 1022 -> 1 <= k <= len (returned rs) ->
    exists x, percentile k (map fst rs) o = Ok x /\ In x (returned rs) /\ forall y, kth k y (returned rs) -> forall i, belongs i y = belongs i x).
Proof.
  intros H F W. destruct (runs_fine l r H F W) as (s & rs & E & O & B). exists s, rs. split; [exact E|]. intros N K.
  assert (F2 : Forall2 (holds 254) (map snd rs) (map fst rs)) by (clear -O; induction O; cbn; constructor; auto).
  destruct (percentile_spec k (map snd rs) (map fst rs) o F2) as (x & R & IN & SI & _).
  - unfold len in *. rewrite map_length. exact N.
  - fold (returned rs). change (2 ^ 32) with 4294967296. lia.
  - exact K.
  - exists x. split; [exact R|]. split; [exact IN|exact SI].
Qed.
