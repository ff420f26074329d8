From Coq Require Import List Bool Arith Lia.
From Verif.HttpStream Require Import Model Spec Inv ProofsStep.
Import ListNotations.

Lemma inv_runs c ps fin ns re k s : fin <> Some CEof -> runs (start0 c ps fin ns re) k s -> inv fin (concat ps) ns c re s.
Proof. intros F R. eapply runs_inv; [exact F| |exact R]. apply start_inv. reflexivity. Qed.

Lemma traced c ps fin ns re k s : fin <> Some CEof -> runs (start0 c ps fin ns re) k s ->
  exists m b ns', trace fin (concat ps) ns (out s) m b ns' /\ (rp s = RDone -> ns' = []).
Proof.
  intros F R. destruct (inv_runs _ _ _ _ _ _ _ F R). destruct i_trace as (m&b&n'&T&A). exists m, b, n'. split; [exact T|].
  intro D. unfold at_ in A. rewrite D in A. exact A.
Qed.
Lemma bounded c ps fin ns re k s : fin <> Some CEof -> runs (start0 c ps fin ns re) k s -> length (content s) <= c.
Proof. intros F R. destruct (inv_runs _ _ _ _ _ _ _ F R). tauto. Qed.

(** ** What a trace says *)
Lemma bytes_app a b : bytes (a ++ b) = bytes a ++ bytes b.
Proof. induction a as [|[] a IH]; cbn; rewrite ?IH, ?app_assoc; reflexivity. Qed.
Lemma trace_bytes fin body ns rs m b ns' : trace fin body ns rs m b ns' -> bytes rs ++ b = body.
Proof.
  intro T. induction T; rewrite ?bytes_app; cbn; rewrite ?app_nil_r; auto.
  - rewrite <- app_assoc. exact IHT.
Qed.
Lemma trace_ended fin body ns rs b ns' : trace fin body ns rs Ended b ns' -> b = [] /\ fin = Some CEnd.
Proof.
  intro T. remember Ended as m eqn:E. induction T; try discriminate; auto.
Qed.
Lemma trace_sizes fin body ns rs m b ns' : trace fin body ns rs m b ns' -> length ns = length rs + length ns' /\ ns' = skipn (length rs) ns.
Proof.
  intro T. assert (G : length ns = length rs + length ns').
  { induction T; rewrite ?app_length; cbn in *; lia. }
  split; [exact G|]. clear G.
  assert (Z : forall (l : list nat) k n r, n :: r = skipn k l -> r = skipn (k + 1) l).
  { induction l as [|a l IH]; intros [|k] n r H; cbn in *; try discriminate; [injection H as _ ->; reflexivity|apply (IH k n r H)]. }
  induction T; rewrite ?app_length; cbn [length]; try (eapply Z; exact IHT); reflexivity.
Qed.
Lemma skipn_nth {A} (l r : list A) k n : n :: r = skipn k l -> nth_error l k = Some n.
Proof. revert k. induction l as [|a l IH]; intros [|k] H; cbn in *; try discriminate; [injection H as -> _; reflexivity|auto]. Qed.

(** The calls that returned data. *)
Lemma trace_nth fin body ns rs m b ns' i x : trace fin body ns rs m b ns' -> nth_error rs i = Some (Data x) ->
  exists n, nth_error ns i = Some n /\
    (length x = n \/ length x < n /\ fin = Some CEnd /\ bytes (firstn (S i) rs) = body).
Proof.
  intro T. induction T; intro X.
  - destruct i; discriminate.
  - destruct (Nat.lt_trichotomy i (length rs)) as [L|[L|L]].
    + rewrite nth_error_app1 in X by exact L. destruct (IHT X) as (k&K1&K2). exists k. split; [exact K1|]. rewrite firstn_app.
      replace (S i - length rs) with 0 by lia. rewrite app_nil_r. exact K2.
    + subst i. rewrite nth_error_app2, Nat.sub_diag in X by lia. injection X as ->. exists n. destruct (trace_sizes _ _ _ _ _ _ _ T) as [_ Z].
      split; [eapply skipn_nth; exact Z|auto].
    + assert (E : nth_error (rs ++ [Data x0]) i = None) by (apply nth_error_None; rewrite app_length; cbn; lia). congruence.
  - destruct (Nat.lt_trichotomy i (length rs)) as [L|[L|L]].
    + rewrite nth_error_app1 in X by exact L. destruct (IHT X) as (k&K1&K2). exists k. split; [exact K1|]. rewrite firstn_app.
      replace (S i - length rs) with 0 by lia. rewrite app_nil_r. exact K2.
    + subst i. rewrite nth_error_app2, Nat.sub_diag in X by lia. injection X as ->. exists n. destruct (trace_sizes _ _ _ _ _ _ _ T) as [_ Z].
      split; [eapply skipn_nth; exact Z|]. right. repeat split; auto. rewrite firstn_all2 by (rewrite app_length; cbn; lia).
      rewrite bytes_app. cbn. rewrite app_nil_r. apply (trace_bytes _ _ _ _ _ _ _ T).
    + assert (E : nth_error (rs ++ [Data x0]) i = None) by (apply nth_error_None; rewrite app_length; cbn; lia). congruence.
  - destruct (Nat.lt_ge_cases i (length rs)) as [L|L].
    + rewrite nth_error_app1 in X by exact L. destruct (IHT X) as (k&K1&K2). exists k. split; [exact K1|]. rewrite firstn_app.
      replace (S i - length rs) with 0 by lia. rewrite app_nil_r. exact K2.
    + rewrite nth_error_app2 in X by exact L. destruct (i - length rs) as [|[|]]; discriminate.
  - destruct (Nat.lt_ge_cases i (length rs)) as [L|L].
    + rewrite nth_error_app1 in X by exact L. destruct (IHT X) as (k&K1&K2). exists k. split; [exact K1|]. rewrite firstn_app.
      replace (S i - length rs) with 0 by lia. rewrite app_nil_r. exact K2.
    + rewrite nth_error_app2 in X by exact L. destruct (i - length rs) as [|[|]]; discriminate.
  - destruct (Nat.lt_ge_cases i (length rs)) as [L|L].
    + rewrite nth_error_app1 in X by exact L. destruct (IHT X) as (k&K1&K2). exists k. split; [exact K1|]. rewrite firstn_app.
      replace (S i - length rs) with 0 by lia. rewrite app_nil_r. exact K2.
    + rewrite nth_error_app2 in X by exact L. destruct (i - length rs) as [|[|]]; discriminate.
Qed.
Lemma prefix c ps fin ns re k s : fin <> Some CEof -> runs (start0 c ps fin ns re) k s -> exists rest, concat ps = bytes (out s) ++ rest.
Proof. intros F R. destruct (traced _ _ _ _ _ _ _ F R) as (m&b&n'&T&_). exists b. symmetry. eapply trace_bytes. exact T. Qed.
Lemma calls c ps fin ns re k s i x : fin <> Some CEof -> runs (start0 c ps fin ns re) k s -> nth_error (out s) i = Some (Data x) ->
  exists n, nth_error ns i = Some n /\
    (length x = n \/ length x < n /\ fin = Some CEnd /\ bytes (firstn (S i) (out s)) = concat ps).
Proof. intros F R. destruct (traced _ _ _ _ _ _ _ F R) as (m&b&n'&T&_). apply (trace_nth _ _ _ _ _ _ _ i x T). Qed.

(** End and error are told truthfully. *)
Lemma trace_told fin body ns rs m b ns' : trace fin body ns rs m b ns' ->
  (m = Ended -> bytes rs = body) /\ (In Eof rs -> fin = Some CEnd /\ bytes rs = body) /\ (In Err rs -> fin = Some CErr).
Proof.
  intro T. assert (A : m = Ended -> bytes rs = body).
  { intros ->. destruct (trace_ended _ _ _ _ _ _ T) as [-> _]. rewrite <- (trace_bytes _ _ _ _ _ _ _ T), app_nil_r. reflexivity. }
  split; [exact A|]. clear A.
  assert (E : In Eof rs -> m = Ended).
  { induction T; intro X; try (destruct X; fail); apply in_app_or in X; destruct X as [X|[X|[]]]; try discriminate; auto;
      specialize (IHT X); try congruence. destruct H; congruence. }
  split.
  - intro H. specialize (E H). subst m. destruct (trace_ended _ _ _ _ _ _ T) as [-> F]. split; [exact F|].
    rewrite <- (trace_bytes _ _ _ _ _ _ _ T), app_nil_r. reflexivity.
  - clear E. induction T; intro X; try (destruct X; fail); apply in_app_or in X; destruct X as [X|[X|[]]]; try discriminate; auto.
Qed.
Lemma told c ps fin ns re k s : fin <> Some CEof -> runs (start0 c ps fin ns re) k s ->
  (In Eof (out s) -> fin = Some CEnd /\ bytes (out s) = concat ps) /\ (In Err (out s) -> fin = Some CErr).
Proof. intros F R. destruct (traced _ _ _ _ _ _ _ F R) as (m&b&n'&T&_). apply (trace_told _ _ _ _ _ _ _ T). Qed.

(** A handler that asks for more than there is and is in time gets everything. *)
Lemma trace_going fin body ns rs m b ns' : trace fin body ns rs m b ns' -> ~ In Late rs -> m = Going -> total ns = length (bytes rs) + total ns'.
Proof.
  intro T. induction T; intros N E; try discriminate; [reflexivity| |].
  - rewrite bytes_app, app_length. cbn. rewrite app_nil_r. rewrite IHT; [cbn; lia| |reflexivity]. intro H1. apply N. apply in_or_app. auto.
  - exfalso. apply N. apply in_or_app. right. left. reflexivity.
Qed.
Lemma read_all c ps ns re k s : runs (start0 c ps (Some CEnd) ns re) k s -> rp s = RDone -> ~ In Late (out s) ->
  length (concat ps) < total ns -> bytes (out s) = concat ps.
Proof.
  intros R D N L. destruct (traced c ps (Some CEnd) ns re k s ltac:(discriminate) R) as (m&b&n'&T&Z). specialize (Z D). subst n'.
  destruct m.
  - exfalso. pose proof (trace_going _ _ _ _ _ _ _ T N eq_refl) as G. cbn in G.
    pose proof (trace_bytes _ _ _ _ _ _ _ T) as B. rewrite <- B, app_length in L. lia.
  - exact (proj1 (trace_told _ _ _ _ _ _ _ T) eq_refl).
  - exfalso. remember Broken as m eqn:E. clear -T E. induction T; discriminate.
Qed.
Lemma answered c ps fin ns re k s : fin <> Some CEof -> runs (start0 c ps fin ns re) k s -> rp s = RDone -> length (out s) = length ns.
Proof.
  intros F R D. destruct (traced _ _ _ _ _ _ _ F R) as (m&b&n'&T&Z). rewrite (Z D) in T. apply trace_sizes in T. cbn in T. lia.
Qed.

(** ** Nothing longer than the buffer is ever returned *)
Definition small (c : nat) (s : st) : Prop :=
  cap s = c /\ length (content s) <= c /\ length (pend s) <= c /\ forall x, In (Data x) (out s) -> length x <= c.
Lemma small_same c s s' : small c s -> cap s' = cap s -> content s' = content s -> (pend s' = pend s \/ pend s' = []) -> out s' = out s -> small c s'.
Proof. intros (A&B&C&D) E1 E2 E3 E4. unfold small. rewrite E1, E2, E4. repeat split; auto. destruct E3 as [-> | ->]; [exact C|cbn; lia]. Qed.
Lemma small_tell_full c s : small c s -> small c (tell_full s).
Proof. intro H. unfold tell_full. destruct (wp s); auto. Qed.
Lemma small_tell_empty c s : small c s -> small c (tell_empty s).
Proof. intro H. unfold tell_empty. destruct (rp s) eqn:R; auto. eapply small_same; [exact H|..]; auto. Qed.
Lemma small_cstep c f p s : small c s -> small c (fst (cstep f p s)).
Proof. intro H. destruct p; cbn [cstep fst]; auto; [apply small_tell_full|apply small_tell_empty]; exact H. Qed.
Lemma small_wp c s w : small c s -> small c (set_wp w s).
Proof. auto. Qed.
Lemma small_w c s s' : small c s -> wstep s = Some s' -> small c s'.
Proof.
  intros H W. unfold wstep in W. destruct (wp s) eqn:P; try discriminate.
  - destruct (pieces s); [destruct (wend s)|destruct (good (state s))]; injection W as <-; exact H.
  - destruct (Nat.ltb_spec (length (content s)) (cap s)) as [L|L]; injection W as <-; [|exact H].
    destruct H as (A&B&C&D). repeat split; auto; prj; rewrite app_length, firstn_length; lia.
  - injection W as <-. apply small_tell_empty. exact H.
  - destruct (wend s) as [f|]; [|discriminate]. pose proof (small_cstep c f c0 s H) as G. destruct (cstep f c0 s) as [s1 q].
    injection W as <-. exact G.
Qed.
Lemma small_answer c s r : small c s -> (forall x, r = Data x -> length x <= c) -> small c (answer r s).
Proof.
  intros (A&B&C&D) E. repeat split; auto; prj; [cbn; lia|]. intros x H. apply in_app_or in H. destruct H as [H|[H|[]]]; auto.
Qed.
Lemma small_r c late s s' : small c s -> rstep late s = Some s' -> small c s'.
Proof.
  intros H W. unfold rstep in W. destruct (rp s) eqn:P; try discriminate.
  - destruct (sizes s); [destruct (rend s)|destruct (b_err (state s)); [|destruct (b_eof (state s))]]; injection W as <-;
      try (eapply small_same; [exact H|..]; auto; fail); apply small_answer; try discriminate; exact H.
  - destruct (can_cut n s).
    + injection W as <-. destruct H as (A&B&C&D). repeat split; auto; unfold pend; prj; rewrite ?skipn_length, ?firstn_length; lia.
    + assert (X : small c (set_rp (RWait n) s)) by (eapply small_same; [exact H|..]; auto).
      assert (Y : small c (answer Late s)) by (apply small_answer; [exact H|discriminate]).
      destruct w; [|destruct late|]; injection W as <-; assumption.
  - destruct late; [|discriminate]. injection W as <-. eapply small_same; [exact H|..]; auto.
  - injection W as <-. apply small_tell_full. eapply small_same; [exact H|..]; auto. left. unfold pend. rewrite P. reflexivity.
  - destruct (b_err (state s)); [|destruct (length x <? n)]; injection W as <-.
    + apply small_answer; [exact H|discriminate].
    + eapply small_same; [exact H|..]; auto. left. unfold pend. rewrite P. reflexivity.
    + apply small_answer; [exact H|]. intros y E. injection E as <-. destruct H as (_&_&C&_). unfold pend in C. rewrite P in C. exact C.
  - injection W as <-. apply small_answer; [exact H|]. intros y E. injection E as <-. destruct H as (_&_&C&_). unfold pend in C. rewrite P in C. exact C.
  - destruct (rend s) as [f|]; [|discriminate]. pose proof (small_cstep c f c0 s H) as G. destruct (cstep f c0 s) as [s1 q].
    injection W as <-. eapply small_same; [exact G|..]; auto. right. unfold pend. prj. destruct q; reflexivity.
Qed.
Lemma small_runs c ps fin ns re k s : runs (start0 c ps fin ns re) k s -> small c s.
Proof.
  intro R. remember (start0 c ps fin ns re) as s0 eqn:E. induction R.
  - subst s0. repeat split; cbn; try lia.
  - destruct H; [eapply small_w|eapply small_r]; eassumption.
Qed.
Lemma at_most c ps fin ns re k s x : runs (start0 c ps fin ns re) k s -> In (Data x) (out s) -> length x <= c.
Proof. intros R H. destruct (small_runs _ _ _ _ _ _ _ R) as (_&_&_&D). auto. Qed.

(** A body that is too long is never reported as such. *)
Lemma never_too_large c ps fin ns re k s len r : runs (start0 c ps fin ns re) k s -> In r (out s) -> len <= c -> append_to_request len c r <> TooLarge.
Proof.
  intros R H L. unfold append_to_request. destruct (Nat.ltb_spec c len); [lia|]. destruct r; try discriminate.
  apply (at_most _ _ _ _ _ _ _ _ R) in H. destruct (Nat.ltb_spec (length x) (S c)); [discriminate|lia].
Qed.
Lemma too_long c ps fin re k s : fin <> Some CEof -> runs (start0 c ps fin [S c] re) k s -> c < length (concat ps) ->
  out s = [] \/ out s = [Late] \/ out s = [Err].
Proof.
  intros F R L. destruct (traced _ _ _ _ _ _ _ F R) as (m&b&n'&T&_). pose proof (trace_sizes _ _ _ _ _ _ _ T) as [Z _]. cbn in Z.
  destruct (out s) as [|r [|r2 l]] eqn:O; [auto| |cbn in Z; lia]. destruct r; auto.
  - exfalso. assert (I1 : In (Data x) (out s)) by (rewrite O; left; reflexivity).
    pose proof (at_most _ _ _ _ _ _ _ _ R I1) as A. destruct (trace_nth _ _ _ _ _ _ _ 0 x T eq_refl) as (n&N1&N2).
    injection N1 as <-. destruct N2 as [N2|(_&_&N2)]; [lia|]. cbn in N2. rewrite app_nil_r in N2. rewrite <- N2 in L. lia.
  - exfalso. destruct (trace_told _ _ _ _ _ _ _ T) as (_&X&_). destruct X as [_ X]; [left; reflexivity|]. cbn in X. rewrite <- X in L. cbn in L. lia.
Qed.

(** ** Where nobody can go on *)
Lemma ends c ps fin ns re k s : fin <> Some CEof -> runs (start0 c ps fin ns re) k s -> quiet s ->
  returned s /\ (rp s = RDone \/ exists n, rp s = RWait n /\ fin = None /\ length (content s) < n) \/
  (exists l, wp s = WWait l /\ l <> []) /\ length (content s) = c /\ (rp s = RDone \/ exists n, rp s = RWait n /\ c < n).
Proof.
  intros F R (Qw & Qr). destruct (inv_runs _ _ _ _ _ _ _ F R). unfold wstep in Qw. unfold rstep in Qr. destruct i_fin as [F1 F2].
  assert (Rd : rp s = RDone \/ exists n, rp s = RWait n).
  { destruct (rp s) eqn:P; try discriminate; eauto.
    - destruct (sizes s); [destruct (rend s)|destruct (b_err (state s)); [|destruct (b_eof (state s))]]; discriminate.
    - destruct (can_cut n s); [discriminate|]. destruct w; discriminate.
    - destruct (b_err (state s)); [|destruct (length x <? n)]; discriminate.
    - destruct (rend s); [destruct (cstep _ _ _)|]; congruence. }
  destruct (wp s) eqn:P; try discriminate.
  - destruct (pieces s); [destruct (wend s)|destruct (good (state s))]; discriminate.
  - destruct (length (content s) <? cap s); discriminate.
  - right. split; [exists l; auto|]. destruct Rd as [Rd|(n&Rd)]; rewrite Rd in *.
    + destruct i_full as [X|[]]. auto.
    + destruct i_full as [X|[]]. split; [exact X|]. right. exists n. split; [reflexivity|]. destruct i_empty as [[Y _]|[]]. lia.
  - destruct i_w as [_ X]. rewrite F1 in Qw. destruct fin as [f|]; [|congruence]. destruct (cstep f c0 s); discriminate.
  - left. split; [left; exact P|]. destruct Rd as [Rd|(n&Rd)]; [auto|]. right. exists n. split; [exact Rd|]. rewrite Rd in *.
    destruct i_empty as [[Y [Z|[Z|Z]]]|[]]; try discriminate. split; [|exact Y].
    unfold closing in i_open. rewrite Rd in i_open. destruct (i_open eq_refl) as (_&_&A3&_). unfold ph in A3. rewrite P, F1 in A3.
    destruct fin; [|reflexivity]. rewrite Z in A3. discriminate.
  - left. split; [right; exact P|]. destruct Rd as [Rd|(n&Rd)]; [auto|]. exfalso. unfold closing in i_open. rewrite Rd in i_open.
    destruct (i_open eq_refl) as (_&_&_&_&A5&_). congruence.
Qed.
Lemma reader_returns c ps fin ns re k s : fin <> Some CEof -> fin <> None -> Forall (fun n => n <= c) ns ->
  runs (start0 c ps fin ns re) k s -> quiet s -> rp s = RDone.
Proof.
  intros F G L R Q. destruct (ends _ _ _ _ _ _ _ F R Q) as [[_ [D|(n&_&N&_)]]|[_ [_ [D|(n&D&N)]]]]; auto; [congruence|].
  exfalso. destruct (inv_runs _ _ _ _ _ _ _ F R). destruct i_trace as (m&b&n'&T&A). unfold at_ in A. rewrite D in A. destruct A as (-> & _).
  apply trace_sizes in T. destruct T as [_ T]. symmetry in T. assert (I1 : In n ns).
  { rewrite <- (firstn_skipn (length (out s)) ns), T. apply in_or_app. right. left. reflexivity. }
  rewrite Forall_forall in L. apply L in I1. lia.
Qed.
