From Coq Require Import List Bool Arith Lia.
From Verif.HttpStream Require Import Model Spec Inv.
Import ListNotations.

Ltac prj := cbn [content cap stop state pieces wend wp sizes rend rp out set_buf set_stop set_state set_pieces set_wp
  set_sizes set_rp answer b_end b_eof b_err with_bit] in *.
Ltac unf := unfold ph, rest_w, pend, closing, at_ in *.

Section S.
Variables (fin : option close) (body ns : list nat) (c : nat) (re : option close).
Hypothesis Fin : fin <> Some CEof.
Notation IV := (inv fin body ns c re).

Lemma start_inv ps : body = concat ps -> IV (start0 c ps fin ns re).
Proof.
  intro B. constructor; unfold start0; unf; prj; cbn; auto; try lia.
  - intros _. repeat split; try reflexivity; discriminate.
  - exists Going, body, ns. split; [constructor|]. auto.
Qed.

(** Steps of the writing fiber that change nothing but its own place, what is
    left of its pieces and perhaps what is in the buffer. *)
Lemma w_move s s' :
  IV s -> ph s = 0 -> ph s' = 0 -> cap s' = cap s -> wend s' = wend s -> rend s' = rend s -> stop s' = stop s -> state s' = state s ->
  sizes s' = sizes s -> rp s' = rp s -> out s' = out s -> length (content s') <= c ->
  match wp s' with WApp l | WWait l => l <> [] | WClose _ => pieces s' = [] /\ fin <> None | WDone => pieces s' = [] | _ => True end ->
  (closing s = false -> wp s' <> WRefused /\ match wp s' with WClose (CStore b) => b = none | _ => True end) ->
  (closing s = false -> content s' ++ rest_w s' = content s ++ rest_w s) ->
  match wp s' with WWait _ => length (content s') = c \/ match rp s with RTell _ _ => True | _ => False end | _ => True end ->
  match rp s with
  | RWait n => length (content s') < n /\ stop s = false \/ match wp s' with WTell _ => True | _ => False end
  | _ => True end ->
  IV s'.
Proof.
  intros [] P0 P1 E1 E2 E3 E4 E5 E6 E7 E8 L W O R F G. constructor.
  - rewrite E1. tauto.
  - rewrite E2, E3. exact i_fin.
  - exact W.
  - rewrite E7. exact i_rc.
  - unfold closing in *. rewrite E7, E5, E4, P1. rewrite P0 in i_open. intro Q. specialize (i_open Q). specialize (O Q). tauto.
  - destruct i_trace as (m & b & n' & T & A). exists m, b, n'. rewrite E8. split; [exact T|].
    unfold at_, closing in *. rewrite E7, E6, E5, E2, P1. rewrite P0 in *. destruct (rp s) as [|n w|n|n x|n x|bs x|q|];
      try exact A; try specialize (R eq_refl).
    + destruct A as [A1 A2]. split; [exact A1|]. destruct m; auto. destruct A2 as [A2 A3]. split; [exact A2|congruence].
    + destruct A as (A1&A2&A3&A4). repeat split; auto. congruence.
    + destruct A as (A1&A2&A3&A4). repeat split; auto. congruence.
    + destruct A as (A1&A2&A3&A4&A5&A6). refine (conj A1 (conj A2 (conj A3 (conj _ (conj A5 _))))); [congruence|intro X; destruct (A6 X); discriminate].
    + destruct A as (A1&A2&A3&A4&A5&A6). refine (conj A1 (conj A2 (conj A3 (conj _ (conj A5 _))))); [congruence|intro X; destruct (A6 X); discriminate].
  - rewrite E7. exact F.
  - rewrite E7. rewrite E4. destruct (rp s); try exact I. destruct G as [[G1 G2]|G]; auto.
Qed.
(** While the writing fiber has not stored its bit, the state is good unless the
    reading fiber closes. *)
Lemma calm_state s : IV s -> closing s = false -> ph s = 0 -> state s = none.
Proof.
  intros [] Q P. destruct (i_open Q) as (A1&A2&_&A4&_). rewrite P in *. cbn in A1, A2. destruct (state s) as [x y z]. prj. subst x z.
  destruct y; [|reflexivity]. destruct (A4 eq_refl). discriminate.
Qed.
Lemma wait_open s n : rp s = RWait n -> closing s = false.
Proof. unfold closing. intros ->. reflexivity. Qed.
Lemma wait_empty s n : IV s -> rp s = RWait n -> ph s = 0 -> match wp s with WTell _ => False | _ => True end -> length (content s) < n /\ stop s = false.
Proof.
  intros [] R P W. rewrite R in i_empty. destruct (i_open (wait_open s n R)) as (_&_&A3&_). rewrite P in A3.
  destruct i_empty as [[X _]|X]; [auto|]. destruct (wp s); tauto.
Qed.
Lemma w_next s s' : IV s -> wp s = WNext -> wstep s = Some s' -> IV s'.
Proof.
  intros V P H. unfold wstep in H. rewrite P in H.
  assert (P0 : ph s = 0) by (unfold ph; rewrite P; reflexivity).
  assert (Em : match rp s with RWait n => length (content s) < n /\ stop s = false \/ False | _ => True end).
  { destruct (rp s) eqn:R; try exact I. left. apply (wait_empty s n V R P0). rewrite P. exact I. }
  assert (Cap : length (content s) <= c) by (destruct V; destruct i_cap; lia).
  pose proof (i_fin _ _ _ _ _ _ V) as [Fi _].
  destruct (pieces s) as [|l rr] eqn:Pi.
  - destruct (wend s) as [f|] eqn:F; injection H as <-.
    + apply (w_move s); auto; prj; try exact I; try (unfold rest_w; prj; rewrite P; reflexivity).
      * split; [exact Pi|congruence].
      * intros _. split; [discriminate|exact I].
    + apply (w_move s); auto; unfold ph; prj; try exact I; try (unfold rest_w; prj; rewrite P; reflexivity).
      all: try (rewrite F; reflexivity). intros _. split; [discriminate|exact I].
  - destruct (good (state s)) eqn:G; injection H as <-.
    + destruct l as [|a l]; apply (w_move s); auto; prj; try exact I; try discriminate; try (intros _; split; [discriminate|exact I]).
      * intros _. unfold rest_w. prj. rewrite P, Pi. reflexivity.
      * intros _. unfold rest_w. prj. rewrite P, Pi. reflexivity.
    + apply (w_move s); auto; prj; try exact I.
      * intro Q. rewrite (calm_state s V Q P0) in G. discriminate.
      * intro Q. rewrite (calm_state s V Q P0) in G. discriminate.
Qed.
Lemma w_app s s' l : IV s -> wp s = WApp l -> wstep s = Some s' -> IV s'.
Proof.
  intros V P H. unfold wstep in H. rewrite P in H.
  assert (P0 : ph s = 0) by (unfold ph; rewrite P; reflexivity).
  pose proof (i_cap _ _ _ _ _ _ V) as [Cp Cap]. pose proof (i_w _ _ _ _ _ _ V) as N. rewrite P in N.
  destruct (Nat.ltb_spec (length (content s)) (cap s)) as [L|L]; injection H as <-.
  - apply (w_move s); auto; prj; try exact I.
    + rewrite app_length, firstn_length. lia.
    + intros _. split; [discriminate|exact I].
    + intros _. unfold rest_w. prj. rewrite P, <- !app_assoc. f_equal. rewrite app_assoc, firstn_skipn. reflexivity.
    + destruct (rp s); auto; try exact I.
  - apply (w_move s); auto; prj; try exact I.
    + intros _. split; [discriminate|exact I].
    + intros _. unfold rest_w. prj. rewrite P. reflexivity.
    + left. lia.
    + destruct (rp s) eqn:R; try exact I. left. apply (wait_empty s n V R P0). rewrite P. exact I.
Qed.
(** Waking the reading fiber. *)
Lemma wake_reader s n : IV s -> rp s = RWait n -> match wp s with WWait _ => False | _ => True end -> IV (set_rp (RCut n Told) s).
Proof.
  intros [] R W. constructor; prj; auto.
  - unfold closing in *. prj. rewrite R in i_open. exact i_open.
  - unfold at_ in *. prj. rewrite R in i_trace. exact i_trace.
  - destruct (wp s); tauto.
Qed.
Lemma w_tell s s' l : IV s -> wp s = WTell l -> wstep s = Some s' -> IV s'.
Proof.
  intros V P H. unfold wstep in H. rewrite P in H. injection H as <-. unfold tell_empty. prj.
  assert (P0 : ph s = 0) by (unfold ph; rewrite P; reflexivity).
  pose proof (i_cap _ _ _ _ _ _ V) as [Cp Cap].
  destruct (rp s) eqn:R.
  3:{ change (IV (set_wp (match l with [] => WNext | _ :: _ => WApp l end) (set_rp (RCut n Told) s))).
      assert (V1 : IV (set_rp (RCut n Told) s)) by (apply wake_reader; [exact V|exact R|rewrite P; exact I]).
      apply (w_move (set_rp (RCut n Told) s)); auto; unfold ph in *; prj; try exact I; try (rewrite P; reflexivity); destruct l; auto; try discriminate.
      - intros _. split; [discriminate|exact I].
      - intros _. split; [discriminate|exact I].
      - intros _. unfold rest_w. prj. rewrite P. reflexivity.
      - intros _. unfold rest_w. prj. rewrite P. reflexivity. }
  all: apply (w_move s); auto; unfold ph in *; prj; try exact I; try (rewrite R; exact I); destruct l; auto; try discriminate;
    try (intros _; split; [discriminate|exact I]); intros _; unfold rest_w; prj; rewrite P; reflexivity.
Qed.
Lemma w_close s s' q : IV s -> wp s = WClose q -> wstep s = Some s' -> IV s'.
Proof.
  intros V P H. unfold wstep in H. rewrite P in H.
  pose proof (i_cap _ _ _ _ _ _ V) as [Cp Cap]. pose proof (i_w _ _ _ _ _ _ V) as N. rewrite P in N.
  pose proof (i_fin _ _ _ _ _ _ V) as [Fi Re]. destruct (wend s) as [f|] eqn:F; [|discriminate].
  destruct N as [Pi Nf]. destruct q as [|b| | |]; cbn [cstep] in H; injection H as <-.
  - assert (P0 : ph s = 0) by (unfold ph; rewrite P; reflexivity).
    apply (w_move s); auto; prj; try exact I; try (split; assumption).
    + intro Q. split; [discriminate|]. apply calm_state; assumption.
    + intros _. unfold rest_w. prj. rewrite P. reflexivity.
    + destruct (rp s) eqn:R; try exact I. left. apply (wait_empty s n V R P0). rewrite P. exact I.
  - assert (P0 : ph s = 0) by (unfold ph; rewrite P; reflexivity).
    assert (Ns : closing s = false -> state s = none) by (intro Q; apply calm_state; assumption).
    destruct V. rewrite P in *. rewrite P0 in *. unfold closing in *. constructor; prj; auto.
    + unfold closing, ph. prj. intro Q. destruct (i_open Q) as (A1&A2&A3&A4&A5&A6). subst b. rewrite <- Fi.
      unfold none. destruct f; prj; cbn; repeat split; auto; try discriminate. congruence.
    + destruct i_trace as (m&bb&n'&T&A). exists m, bb, n'. split; [exact T|]. unfold at_ in *. unfold ph, rest_w in *. prj. rewrite P, ?F in *.
      assert (Eo : closing s = false -> b_eof (with_bit f b) = false).
      { intro Q. destruct (i_open Q) as (_&_&_&_&_&A6). subst b. destruct f; [reflexivity| |reflexivity]. congruence. }
      unfold closing in Eo.
      destruct (rp s) as [|n w|n|n x|n x|bs x|q|]; try exact A; try specialize (Eo eq_refl); try specialize (Ns eq_refl).
      * destruct A as [A1 A2]. split; [exact A1|]. rewrite Ns in A2. destruct m; [destruct A2; auto|discriminate|discriminate].
      * tauto.
      * tauto.
      * destruct A as (A1&A2&A3&A4&A5&A6). refine (conj A1 (conj A2 (conj _ (conj A4 (conj A5 _))))); [assumption|intro X; destruct (A6 X); discriminate].
      * destruct A as (A1&A2&A3&A4&A5&A6). refine (conj A1 (conj A2 (conj _ (conj A4 (conj A5 _))))); [assumption|intro X; destruct (A6 X); discriminate].
      * destruct A as (_&_&_&A4&_). discriminate.
    + destruct (rp s); auto. destruct i_empty as [[X [Y|[Y|Y]]]|[]]; try discriminate. auto.
  - destruct V. rewrite P in *. assert (P1 : ph s = 1) by (unfold ph; rewrite P; reflexivity). rewrite P1 in *. unfold closing in *. constructor; prj; auto.
    + unfold closing, ph. prj. intro Q. destruct (i_open Q) as (A1&A2&A3&A4&A5&A6). repeat split; auto; try discriminate.
      destruct (A4 H); discriminate.
    + destruct i_trace as (m&bb&n'&T&A). exists m, bb, n'. split; [exact T|]. unfold at_ in *. unfold ph, rest_w in *. prj. rewrite P, ?F in *.
      destruct (rp s) as [|n w|n|n x|n x|bs x|q|]; auto.
      * destruct A as (A1&A2&A3&A4&A5&A6). refine (conj A1 (conj A2 (conj _ (conj A4 (conj A5 _))))); [assumption|intro X; destruct (A6 X); discriminate].
      * destruct A as (A1&A2&A3&A4&A5&A6). refine (conj A1 (conj A2 (conj _ (conj A4 (conj A5 _))))); [assumption|intro X; destruct (A6 X); discriminate].
      * destruct A as (_&_&_&A4&_). discriminate.
    + destruct (rp s); auto. destruct i_empty as [[X [Y|[Y|Y]]]|[]]; try discriminate. auto.
  - assert (T : tell_full s = s) by (unfold tell_full; rewrite P; reflexivity). rewrite T.
    destruct V. rewrite P in *. constructor; prj; auto.
    + unfold closing, ph in *. prj. rewrite P in *. intro Q. destruct (i_open Q) as (A1&A2&A3&A4&A5&A6). repeat split; auto; try discriminate; apply A4; assumption.
    + unfold at_, ph, rest_w in *. prj. rewrite P in *. exact i_trace.
    + destruct (rp s); auto. destruct i_empty as [[X [Y|[Y|Y]]]|[]]; try discriminate; auto.
  - assert (V1 : IV (tell_empty s)).
    { unfold tell_empty. destruct (rp s) eqn:R; auto. apply wake_reader; auto. rewrite P. exact I. }
    assert (R1 : match rp (tell_empty s) with RWait _ => False | _ => True end).
    { unfold tell_empty. destruct (rp s) eqn:R; prj; try rewrite R; exact I. }
    assert (P1 : wp (tell_empty s) = WClose CEmpty) by (unfold tell_empty; destruct (rp s); prj; exact P).
    assert (F1 : wend (tell_empty s) = Some f) by (unfold tell_empty; destruct (rp s); prj; exact F).
    revert V1 R1 P1 F1. generalize (tell_empty s). clear -Fi. intros t V1 R1 P1 F1. destruct V1. rewrite P1 in *.
    constructor; prj; auto.
    + tauto.
    + unfold closing, ph in *. prj. rewrite P1, ?F1 in *. intro Q. destruct (i_open Q) as (A1&A2&A3&A4&A5&A6).
      repeat split; auto; try discriminate; apply A4; assumption.
    + unfold at_, ph, rest_w in *. prj. rewrite P1, ?F1 in *. exact i_trace.
    + destruct (rp t); tauto.
Qed.
Lemma w_inv s s' : IV s -> wstep s = Some s' -> IV s'.
Proof.
  intros V H. destruct (wp s) eqn:P; try (unfold wstep in H; rewrite P in H; discriminate).
  - eapply w_next; eassumption.
  - eapply w_app; eassumption.
  - eapply w_tell; eassumption.
  - eapply w_close; eassumption.
Qed.

(** ** The reading fiber *)
Lemma r_answer s r : IV s -> closing s = false -> match rp s with RTell _ _ => False | _ => True end ->
  (exists m b ns', trace fin body ns (out s ++ [r]) m b ns' /\ at_ (answer r s) m b ns') -> IV (answer r s).
Proof.
  intros [] Q N T. constructor; prj; try assumption; try exact I.
  - unfold closing, ph in *. prj. intros _. apply (i_open Q).
  - destruct (wp s); auto. destruct i_full as [X|X]; [auto|]. destruct (rp s); tauto.
Qed.
Lemma r_next s s' late : IV s -> rp s = RNext -> rstep late s = Some s' -> IV s'.
Proof.
  intros V R H. unfold rstep in H. rewrite R in H.
  assert (Q : closing s = false) by (unfold closing; rewrite R; reflexivity).
  pose proof (i_fin _ _ _ _ _ _ V) as [Fi Re].
  destruct (sizes s) as [|n rr] eqn:Z.
  - destruct (rend s) as [f|] eqn:F; injection H as <-; destruct V; rewrite R in *; constructor; prj; try assumption; try exact I.
    all: try (split; congruence). all: try congruence.
    all: try (unfold at_ in *; prj; rewrite R in i_trace; destruct i_trace as (m&b&n'&T&[E _]); exists m, b, n'; rewrite Z in E; auto; fail).
    all: unfold closing; prj; discriminate.
  - pose proof (i_open _ _ _ _ _ _ V Q) as (A1&A2&A3&A4&A5&A6). pose proof (i_trace _ _ _ _ _ _ V) as (m&b&n'&T&A).
    unfold at_ in A. rewrite R, Z in A. destruct A as [-> A].
    destruct (b_err (state s)) eqn:E.
    + injection H as <-. symmetry in A2. apply andb_prop in A2. destruct A2 as [A2 A2'].
      assert (Fe : fin = Some CErr) by (destruct fin as [[]|]; try discriminate; reflexivity).
      destruct V. constructor; prj; try assumption; try exact I.
      * unfold closing, ph in *. prj. intros _. rewrite E. rewrite A2, Fe. cbn. specialize (i_open Q). rewrite Fe in i_open.
        destruct i_open as (B1&B2&B3&B4&B5&B6). repeat split; auto; try (apply B4; assumption). rewrite B1. cbn. rewrite andb_false_r. reflexivity.
      * exists Broken, b, rr. split; [eapply t_err; [exact T| |exact Fe]|unfold at_; prj; auto].
        destruct m; auto. destruct (A4 A) as [_ X]. rewrite Fe in X. discriminate.
      * destruct (wp s); auto. destruct i_full as [X|X]; [auto|]. rewrite R in X. destruct X.
    + destruct (b_eof (state s)) eqn:B; injection H as <-; destruct V; constructor; prj; try assumption; try exact I.
      * unfold closing, ph in *. prj. intros _. rewrite E, B. specialize (i_open Q). rewrite E, B in i_open. exact i_open.
      * destruct m; [destruct A; discriminate| |discriminate].
        exists Ended, b, rr. split; [eapply t_eof; exact T|unfold at_; prj; auto].
      * destruct (wp s); auto. destruct i_full as [X|X]; [auto|]. rewrite R in X. destruct X.
      * unfold closing, ph in *. prj. intros _. apply (i_open Q).
      * destruct m; [|congruence|congruence]. exists Going, b, (n :: rr). split; [exact T|]. unfold at_, rest_w in *. prj. tauto.
      * destruct (wp s); auto. destruct i_full as [X|X]; [auto|]. rewrite R in X. destruct X.
Qed.
Lemma r_cut s s' late n w : IV s -> rp s = RCut n w -> rstep late s = Some s' -> IV s'.
Proof.
  intros V R H. unfold rstep in H. rewrite R in H.
  assert (Q : closing s = false) by (unfold closing; rewrite R; reflexivity).
  pose proof (i_fin _ _ _ _ _ _ V) as [Fi Re]. pose proof (i_cap _ _ _ _ _ _ V) as [Cp Cap].
  pose proof (i_open _ _ _ _ _ _ V Q) as (A1&A2&A3&A4&A5&A6). pose proof (i_trace _ _ _ _ _ _ V) as (m&b&n'&T&A).
  unfold at_ in A. rewrite R in A. destruct A as (-> & -> & Eo & ->).
  destruct (can_cut n s) eqn:C.
  - injection H as <-. set (k := Nat.min (length (content s)) n). destruct V. constructor; prj; try assumption; try exact I.
    + split; [assumption|]. rewrite skipn_length. lia.
    + unfold closing, ph in *. prj. intros _. auto 10.
    + exists Going, (content s ++ rest_w s), (n :: sizes s). split; [exact T|]. unfold at_, rest_w, ph in *. prj.
      refine (conj eq_refl (conj eq_refl (conj Eo (conj _ (conj _ _))))).
      * rewrite (app_assoc (firstn _ _)), firstn_skipn. reflexivity.
      * rewrite firstn_length. lia.
      * rewrite firstn_length. intro L. unfold can_cut in C. apply orb_prop in C. destruct C as [C|C]; [apply Nat.leb_le in C; lia|].
        rewrite C in A3. symmetry in A3. apply Nat.leb_le in A3. split; [|apply skipn_all2; lia].
        destruct (wp s) as [| | | |[]| |]; try lia. destruct (wend s); lia.
    + destruct (wp s); auto.
  - assert (Wait : IV (set_rp (RWait n) s)).
    { unfold can_cut in C. apply orb_false_elim in C. destruct C as [C1 C2]. apply Nat.leb_gt in C1. destruct V. constructor; prj; try assumption; try exact I.
      - unfold closing, ph in *. prj. intros _. auto 10.
      - exists Going, (content s ++ rest_w s), (n :: sizes s). split; [exact T|]. unfold at_, rest_w in *. prj. auto.
      - destruct (wp s); auto. destruct i_full as [X|X]; [auto|]. rewrite R in X. destruct X.
      - left. split; [exact C1|auto]. }
    assert (Lt : IV (answer Late s)).
    { apply r_answer; auto; [rewrite R; exact I|]. exists Going, (content s ++ rest_w s), (sizes s). split.
      - eapply t_late; [exact T|]. unfold can_cut in C. apply orb_false_elim in C. destruct C as [C1 _]. apply Nat.leb_gt in C1. lia.
      - unfold at_, rest_w in *. prj. auto. }
    destruct w; [|destruct late|]; injection H as <-; assumption.
Qed.
Lemma r_wait s s' late n : IV s -> rp s = RWait n -> rstep late s = Some s' -> IV s'.
Proof.
  intros V R H. unfold rstep in H. rewrite R in H. destruct late; [|discriminate]. injection H as <-.
  destruct V. rewrite R in *. constructor; prj; try assumption; try exact I.
  - unfold closing, ph in *. prj. rewrite R in i_open. exact i_open.
  - unfold at_, rest_w in *. prj. rewrite R in i_trace. exact i_trace.
Qed.
Lemma r_tell s s' late n x : IV s -> rp s = RTell n x -> rstep late s = Some s' -> IV s'.
Proof.
  intros V R H. unfold rstep in H. rewrite R in H. injection H as <-. unfold tell_full. prj. destruct V. rewrite R in *.
  destruct (wp s) eqn:P; constructor; prj; rewrite ?P; auto.
  all: try (unfold closing, ph in *; prj; rewrite P, R in *; intros _; specialize (i_open eq_refl); tauto).
  all: try (unfold at_, ph, rest_w in *; prj; rewrite P, R in *; exact i_trace).
  unfold closing, ph in *. prj. rewrite P, R in *. intros _. specialize (i_open eq_refl). destruct i_open as (A1&A2&A3&A4&A5&A6).
  repeat split; auto; try discriminate; apply A4; assumption.
Qed.
Lemma r_test s s' late n x : IV s -> rp s = RTest n x -> rstep late s = Some s' -> IV s'.
Proof.
  intros V R H. unfold rstep in H. rewrite R in H.
  assert (Q : closing s = false) by (unfold closing; rewrite R; reflexivity).
  pose proof (i_fin _ _ _ _ _ _ V) as [Fi Re].
  pose proof (i_open _ _ _ _ _ _ V Q) as (A1&A2&A3&A4&A5&A6). pose proof (i_trace _ _ _ _ _ _ V) as (m&b&n'&T&A).
  unfold at_ in A. rewrite R in A. destruct A as (-> & -> & Eo & -> & Le & Short).
  destruct (b_err (state s)) eqn:E.
  - injection H as <-. symmetry in A2. apply andb_prop in A2. destruct A2 as [A2 A2'].
    assert (Fe : fin = Some CErr) by (destruct fin as [[]|]; try discriminate; reflexivity).
    apply r_answer; auto; [rewrite R; exact I|]. eexists Broken, _, (sizes s). split; [eapply t_err; [exact T|auto|exact Fe]|].
    unfold at_. prj. auto.
  - destruct (Nat.ltb_spec (length x) n) as [L|L]; injection H as <-.
    + destruct (Short L) as [P2 Ce].
      assert (Rw : rest_w s = []).
      { unfold rest_w, ph in *. pose proof (i_w _ _ _ _ _ _ V) as W. destruct (wp s) as [| | | |[]| |]; try discriminate;
          [destruct W as [W _]|destruct W as [W _]|]; rewrite W; reflexivity. }
      assert (Fe : is_end fin = true).
      { rewrite P2 in A2. unfold ph in P2. pose proof (i_w _ _ _ _ _ _ V) as W. destruct fin as [[]|]; cbn in *; try discriminate; try reflexivity; [congruence|].
        rewrite Fi in P2. destruct (wp s) as [| | | |[]| |]; try discriminate; destruct W; congruence. }
      destruct V. constructor; prj; try assumption; try exact I.
      * unfold closing, ph in *. prj. intros _. rewrite E. auto 10.
      * exists Going, x, (n :: sizes s). split; [rewrite Ce, Rw, app_nil_r in T; exact T|].
        unfold at_, ph in *. prj. repeat split; auto. rewrite Fi. exact Fe. exists n. auto.
      * destruct (wp s); auto. destruct i_full as [X|X]; [auto|]. rewrite R in X. destruct X.
    + apply r_answer; auto; [rewrite R; exact I|]. exists Going, (content s ++ rest_w s), (sizes s). split; [eapply t_data; [exact T|lia]|].
      unfold at_, rest_w in *. prj. auto.
Qed.
Lemma r_or s s' late bs x : IV s -> rp s = ROr bs x -> rstep late s = Some s' -> IV s'.
Proof.
  intros V R H. unfold rstep in H. rewrite R in H. injection H as <-.
  assert (Q : closing s = false) by (unfold closing; rewrite R; reflexivity).
  pose proof (i_fin _ _ _ _ _ _ V) as [Fi Re].
  pose proof (i_open _ _ _ _ _ _ V Q) as (A1&A2&A3&A4&A5&A6). pose proof (i_trace _ _ _ _ _ _ V) as (m&b&n'&T&A).
  unfold at_ in A. rewrite R in A. destruct A as (-> & Eo & -> & P2 & -> & Fe & n & -> & L). rewrite Fi in Fe.
  destruct V. constructor; prj; try assumption; try exact I.
  - unfold closing, ph in *. prj. intros _. rewrite A1, A2. repeat split; auto.
  - exists Ended, [], (sizes s). split; [|unfold at_; prj; auto]. eapply t_last; [exact T|exact L|].
    destruct fin as [[]|]; try discriminate. reflexivity.
  - destruct (wp s); auto. destruct i_full as [X|X]; [auto|]. rewrite R in X. destruct X.
Qed.
Lemma closing_inv s s' : IV s -> closing s = true -> closing s' = true -> cap s' = cap s -> content s' = content s -> wend s' = wend s -> rend s' = rend s ->
  pieces s' = pieces s -> out s' = out s -> (wp s' = wp s \/ exists l, wp s = WWait l /\ wp s' = WApp l) ->
  match rp s' with RClose _ => rend s <> None | _ => True end -> IV s'.
Proof.
  intros [] Q Q' E1 E2 E3 E4 E5 E6 W R. unfold closing in *. destruct i_fin as [F1 F2].
  constructor; auto.
  - rewrite E1, E2. exact i_cap.
  - rewrite E3, E4. auto.
  - rewrite E5. destruct W as [-> |(l&W1&W2)]; [exact i_w|]. rewrite W2. rewrite W1 in i_w. exact i_w.
  - rewrite <- F2. exact R.
  - unfold closing. rewrite Q'. discriminate.
  - destruct i_trace as (m&b&n'&T&A). exists m, b, n'. rewrite E6. split; [exact T|]. unfold at_ in *. destruct (rp s); try discriminate; destruct (rp s'); try discriminate; exact A.
  - destruct W as [-> |(l&W1&W2)]; [|rewrite W2; exact I]. destruct (wp s); auto. rewrite E2. destruct i_full as [X|X]; [auto|].
    destruct (rp s); try discriminate; destruct X.
  - destruct (rp s'); try discriminate; exact I.
Qed.
Lemma r_close s s' late q : IV s -> rp s = RClose q -> rstep late s = Some s' -> IV s'.
Proof.
  intros V R H. unfold rstep in H. rewrite R in H. pose proof (i_fin _ _ _ _ _ _ V) as [Fi Re].
  destruct (rend s) as [f|] eqn:F; [|discriminate].
  assert (Q : closing s = true) by (unfold closing; rewrite R; reflexivity).
  destruct q as [|b| | |]; cbn [cstep] in H; injection H as <-.
  - apply (closing_inv s); prj; auto; congruence.
  - apply (closing_inv s); prj; auto; congruence.
  - apply (closing_inv s); prj; auto; congruence.
  - unfold tell_full. destruct (wp s) eqn:P; apply (closing_inv s); prj; auto; try congruence. right. eauto.
  - unfold tell_empty. rewrite R. apply (closing_inv s); prj; auto.
Qed.
Lemma r_inv s s' late : IV s -> rstep late s = Some s' -> IV s'.
Proof.
  intros V H. destruct (rp s) eqn:R; [eapply r_next|eapply r_cut|eapply r_wait|eapply r_tell|eapply r_test|eapply r_or|eapply r_close|]; try eassumption.
  unfold rstep in H. rewrite R in H. discriminate.
Qed.
Lemma runs_inv k s s' : IV s -> runs s k s' -> IV s'.
Proof. intros V R. induction R; [exact V|]. destruct H; [eapply w_inv|eapply r_inv]; eassumption. Qed.
End S.
