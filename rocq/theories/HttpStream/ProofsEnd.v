From Coq Require Import List Bool Arith Lia.
From Verif.HttpStream Require Import Model Spec Inv ProofsStep ProofsMain.
Import ListNotations.

(** ** Every run ends *)
Definition cm (p : cpc) : nat := match p with CLoad => 8 | CStore _ => 7 | CStop => 6 | CFull => 5 | CEmpty => 3 end.
Definition wm (p : wpc) : nat :=
  match p with WNext => 9 | WApp l => 16 * length l + 2 | WWait l => 16 * length l + 1 | WTell l => 16 * length l + 11 | WClose q => cm q | WDone | WRefused => 0 end.
Definition rm (p : rpc) : nat :=
  match p with
  | RNext => 9 | RCut _ Timer => 15 | RCut _ _ => 17 | RWait _ => 16 | RTell _ _ => 13 | RTest _ _ => 11 | ROr _ _ => 10
  | RClose q => cm q | RDone => 0
  end.
Definition mu (s : st) : nat := 16 * length (concat (pieces s)) + 8 * length (pieces s) + wm (wp s) + 16 * length (sizes s) + rm (rp s).

Lemma mu_tell_full s : mu (tell_full s) <= S (mu s).
Proof. unfold tell_full. destruct (wp s) eqn:P; unfold mu; prj; rewrite ?P; cbn [wm]; lia. Qed.
Lemma mu_tell_empty s : mu (tell_empty s) <= S (mu s).
Proof. unfold tell_empty. destruct (rp s) eqn:P; unfold mu; prj; rewrite ?P; cbn [rm]; lia. Qed.
Lemma mu_w s s' : (match wp s with WApp l => l <> [] | _ => True end) -> wstep s = Some s' -> mu s' < mu s.
Proof.
  intros N W. unfold wstep in W. destruct (wp s) eqn:P; try discriminate.
  - destruct (pieces s) as [|l r] eqn:E; [destruct (wend s)|destruct (good (state s))]; injection W as <-; unfold mu; prj; rewrite ?P, ?E;
      cbn [wm cm length concat]; try lia. destruct l; cbn [wm]; rewrite ?app_length; cbn [length app]; lia.
  - assert (L0 : 1 <= length l) by (destruct l; [congruence|cbn; lia]).
    destruct (Nat.ltb_spec (length (content s)) (cap s)) as [L|L]; injection W as <-; unfold mu; prj; rewrite P; cbn [wm]; [|lia].
    rewrite skipn_length. lia.
  - injection W as <-. match goal with |- mu (tell_empty ?t) < _ => pose proof (mu_tell_empty t) as M; assert (mu t + 2 <= mu s); [|lia] end.
    unfold mu. prj. rewrite P. destruct l; cbn [wm length]; lia.
  - destruct (wend s) as [f|]; [|discriminate]. destruct c as [|b| | |]; cbn [cstep] in W; injection W as <-.
    + unfold mu. prj. rewrite P. cbn [wm cm]. lia.
    + unfold mu. prj. rewrite P. cbn [wm cm]. lia.
    + unfold mu. prj. rewrite P. cbn [wm cm]. lia.
    + unfold tell_full. rewrite P. unfold mu. prj. rewrite P. cbn [wm cm]. lia.
    + unfold tell_empty. destruct (rp s) eqn:R; unfold mu; prj; rewrite P, ?R; cbn [wm cm rm]; lia.
Qed.
Lemma mu_r late s s' : rstep late s = Some s' -> mu s' < mu s.
Proof.
  intro W. unfold rstep in W. destruct (rp s) eqn:P; try discriminate.
  - destruct (sizes s) eqn:E; [destruct (rend s)|destruct (b_err (state s)); [|destruct (b_eof (state s))]]; injection W as <-; unfold mu; prj; rewrite P, E;
      cbn [rm cm length]; lia.
  - destruct (can_cut n s); [|destruct w; [|destruct late|]]; injection W as <-; unfold mu; prj; rewrite P; try destruct w; cbn [rm]; lia.
  - destruct late; [|discriminate]. injection W as <-. unfold mu. prj. rewrite P. cbn [rm]. lia.
  - injection W as <-. match goal with |- mu (tell_full ?t) < _ => pose proof (mu_tell_full t) as M; assert (mu t + 2 <= mu s); [|lia] end.
    unfold mu. prj. rewrite P. cbn [rm]. lia.
  - destruct (b_err (state s)); [|destruct (length x <? n)]; injection W as <-; unfold mu; prj; rewrite P; cbn [rm]; lia.
  - injection W as <-. unfold mu. prj. rewrite P. cbn [rm]. lia.
  - destruct (rend s) as [f|]; [|discriminate]. destruct c as [|b| | |]; cbn [cstep] in W; injection W as <-.
    + unfold mu. prj. rewrite P. cbn [rm cm]. lia.
    + unfold mu. prj. rewrite P. cbn [rm cm]. lia.
    + unfold mu. prj. rewrite P. cbn [rm cm]. lia.
    + unfold tell_full. destruct (wp s) eqn:R; unfold mu; prj; rewrite P, ?R; cbn [wm cm rm]; lia.
    + unfold tell_empty. rewrite P. unfold mu. prj. rewrite P. cbn [rm cm]. lia.
Qed.
Lemma steps_left c ps fin ns re k s : fin <> Some CEof -> runs (start0 c ps fin ns re) k s -> k + mu s <= bound ps ns.
Proof.
  intros F R. induction R.
  - unfold mu, bound, start0. prj. cbn [wm rm]. lia.
  - assert (V := inv_runs _ _ _ _ _ _ _ F R). assert (mu s2 < mu s1); [|lia]. destruct H; [|eapply mu_r; exact H].
    apply mu_w; [|exact H]. destruct V. destruct (wp s1); auto.
Qed.
Lemma finite c ps fin ns re k s : fin <> Some CEof -> runs (start0 c ps fin ns re) k s -> k <= bound ps ns.
Proof. intros F R. pose proof (steps_left _ _ _ _ _ _ _ F R). lia. Qed.

(** ** The writing fiber returns when the body is read *)
Definition held (s : st) : nat := length (bytes (out s)) + length (pend s) + length (content s) + length (rest_w s).
Lemma held_tell_full s : held (tell_full s) = held s.
Proof. unfold tell_full. destruct (wp s) eqn:P; [reflexivity|reflexivity| |reflexivity..]. unfold held, pend, rest_w. prj. rewrite P. reflexivity. Qed.
Lemma held_tell_empty s : held (tell_empty s) = held s.
Proof. unfold tell_empty. destruct (rp s) eqn:P; try reflexivity. unfold held, pend, rest_w. prj. rewrite P. reflexivity. Qed.
Lemma held_cstep f p s : held (fst (cstep f p s)) = held s.
Proof. destruct p; cbn [cstep fst]; try reflexivity; [apply held_tell_full|apply held_tell_empty]. Qed.
Lemma held_w s s' : wstep s = Some s' -> held s' <= held s.
Proof.
  intro W. unfold wstep in W. destruct (wp s) eqn:P; try discriminate.
  - destruct (pieces s) as [|l r] eqn:E; [destruct (wend s)|destruct (good (state s))]; injection W as <-; unfold held, rest_w, pend; prj; rewrite ?P, ?E;
      cbn [length concat app]; try lia. destruct l; cbn [app concat]; rewrite ?app_length; cbn [length]; rewrite ?app_length; lia.
  - destruct (Nat.ltb_spec (length (content s)) (cap s)) as [L|L]; injection W as <-; unfold held, rest_w, pend; prj; rewrite P; [|lia].
    rewrite !app_length, firstn_length, skipn_length. lia.
  - injection W as <-. rewrite held_tell_empty. unfold held, rest_w, pend. prj. rewrite P. destruct l; lia.
  - destruct (wend s) as [f|]; [|discriminate]. pose proof (held_cstep f c s) as K. assert (P1 : rest_w (fst (cstep f c s)) = concat (pieces (fst (cstep f c s)))).
    { destruct c; cbn [cstep fst]; unfold tell_full, tell_empty, rest_w; prj; rewrite ?P; prj; rewrite ?P; try reflexivity.
      destruct (rp s); prj; rewrite ?P; reflexivity. }
    destruct (cstep f c s) as [s1 q]. cbn [fst] in *. injection W as <-. rewrite <- K. unfold held. rewrite P1. destruct q; unfold rest_w, pend; prj; cbn [app]; lia.
Qed.
Lemma held_r late s s' : rstep late s = Some s' -> held s' <= held s.
Proof.
  intro W. unfold rstep in W. destruct (rp s) eqn:P; try discriminate.
  - destruct (sizes s) eqn:E; [destruct (rend s)|destruct (b_err (state s)); [|destruct (b_eof (state s))]]; injection W as <-; unfold held, rest_w, pend; prj;
      rewrite P, ?bytes_app; cbn [bytes]; rewrite ?app_nil_r; cbn [length]; lia.
  - destruct (can_cut n s); [|destruct w; [|destruct late|]]; injection W as <-; unfold held, rest_w, pend; prj; rewrite P, ?bytes_app; cbn [bytes];
      rewrite ?app_nil_r, ?firstn_length, ?skipn_length; cbn [length]; lia.
  - destruct late; [|discriminate]. injection W as <-. unfold held, rest_w, pend. prj. rewrite P. cbn [length]. lia.
  - injection W as <-. rewrite held_tell_full. unfold held, rest_w, pend. prj. rewrite P. lia.
  - destruct (b_err (state s)); [|destruct (length x <? n)]; injection W as <-; unfold held, rest_w, pend; prj; rewrite P, ?bytes_app; cbn [bytes];
      rewrite ?app_nil_r, ?app_length; cbn [length]; lia.
  - injection W as <-. unfold held, rest_w, pend. prj. rewrite P, bytes_app. cbn [bytes]. rewrite ?app_nil_r, ?app_length. cbn [length]. lia.
  - destruct (rend s) as [f|]; [|discriminate]. pose proof (held_cstep f c s) as K. destruct (cstep f c s) as [s1 q]. cbn [fst] in *. injection W as <-.
    rewrite <- K. unfold held. destruct q; unfold rest_w, pend; prj; cbn [length]; lia.
Qed.
Lemma held_runs c ps fin ns re k s : runs (start0 c ps fin ns re) k s -> held s <= length (concat ps).
Proof.
  intro R. induction R; [unfold held; cbn; lia|]. destruct H; [apply held_w in H|apply held_r in H]; lia.
Qed.
Lemma writer_returns c ps ns re k s : Forall (fun n => n <= c) ns -> length (concat ps) < total ns -> runs (start0 c ps (Some CEnd) ns re) k s -> quiet s ->
  ~ In Late (out s) -> bytes (out s) = concat ps /\ returned s.
Proof.
  intros L T R Q N. assert (D : rp s = RDone) by (eapply reader_returns; eauto; discriminate).
  assert (B : bytes (out s) = concat ps) by (eapply read_all; eauto). split; [exact B|].
  destruct (ends c ps (Some CEnd) ns re k s ltac:(discriminate) R Q) as [[H _]|[(l & P & Z) _]]; [exact H|]. exfalso.
  apply held_runs in R. unfold held, rest_w in R. rewrite P, B, app_length in R. destruct l; [congruence|]. cbn [length] in R. lia.
Qed.

(** ** Runs *)
Inductive act := W | R (late : bool).
Fixpoint go (l : list act) (s : st) : option st :=
  match l with
  | [] => Some s
  | W :: r => match wstep s with Some s1 => go r s1 | None => None end
  | R late :: r => match rstep late s with Some s1 => go r s1 | None => None end
  end.
Lemma runs_go l : forall s0 k s s', runs s0 k s -> go l s = Some s' -> exists k', runs s0 k' s'.
Proof.
  induction l as [|[|late] l IH]; cbn; intros s0 k s s' H G.
  - injection G as <-. exists k. exact H.
  - destruct (wstep s) eqn:E; [|discriminate]. eapply IH; [|exact G]. eapply runs_S; [exact H|]. apply step_w. exact E.
  - destruct (rstep late s) eqn:E; [|discriminate]. eapply IH; [|exact G]. eapply runs_S; [exact H|]. eapply step_r. exact E.
Qed.

(** The handler returns without having read a body that does not fit. *)
Lemma abandoned : exists k s, runs (start0 2 [[1; 2; 3]] (Some CEnd) [] (Some CEof)) k s /\ rp s = RDone /\ stop s = true /\ wp s = WWait [3] /\
  forall s', ~ step s s'.
Proof.
  destruct (go [W; W; W; W; R false; R false; R false; R false; R false; W; R false] (start0 2 [[1; 2; 3]] (Some CEnd) [] (Some CEof))) as [s|] eqn:E;
    [|vm_compute in E; discriminate].
  destruct (runs_go _ _ _ _ _ (runs_0 _) E) as (k & K). exists k, s. split; [exact K|]. vm_compute in E. injection E as <-.
  repeat split. intros s' H. destruct H; [discriminate|]. destruct late; discriminate.
Qed.
(** AppendToRequest() for a chunked body of one byte more than the limit. *)
Lemma reported_late : exists k s, runs (start0 2 [[1; 2; 3]] (Some CEnd) [3] (Some CErr)) k s /\ out s = [Late] /\ rp s = RDone /\ wp s = WWait [3] /\
  forall s', ~ step s s'.
Proof.
  destruct (go [W; W; W; W; R false; R false; R true; R true; R false; R false; R false; R false; R false; W; R false]
    (start0 2 [[1; 2; 3]] (Some CEnd) [3] (Some CErr))) as [s|] eqn:E; [|vm_compute in E; discriminate].
  destruct (runs_go _ _ _ _ _ (runs_0 _) E) as (k & K). exists k, s. split; [exact K|]. vm_compute in E. injection E as <-.
  repeat split. intros s' H. destruct H; [discriminate|]. destruct late; discriminate.
Qed.
Lemma case_ok : exists k s, runs (start0 2 [[1; 2; 3]; []; [4]] (Some CEnd) [2; 1; 2; 5] (Some CEof)) k s /\
  out s = [Data [1; 2]; Data [3]; Data [4]; Eof] /\ rp s = RDone /\ wp s = WDone.
Proof.
  destruct (go [R false; R false; W; W; W; W; R false; R false; R false; W; W; W; W; R false; R false; R false; R false; R false; R false; W; W; W; W; W; W; W;
    R false; R false; R false; R false; R false; R false; R false; R false; R false; R false; R false; W]
    (start0 2 [[1; 2; 3]; []; [4]] (Some CEnd) [2; 1; 2; 5] (Some CEof))) as [s|] eqn:E; [|vm_compute in E; discriminate].
  destruct (runs_go _ _ _ _ _ (runs_0 _) E) as (k & K). exists k, s. split; [exact K|]. vm_compute in E. injection E as <-. repeat split.
Qed.
Lemma broken_ok : exists k s, runs (start0 4 [[1; 2; 3]] (Some CErr) [2; 2; 1] None) k s /\ out s = [Data [1; 2]; Err; Err] /\ rp s = RDone.
Proof.
  destruct (go [W; W; W; R false; R false; R false; R false; R false; R false; W; W; W; W; W; W; R false; R false; R false; R false; R false]
    (start0 4 [[1; 2; 3]] (Some CErr) [2; 2; 1] None)) as [s|] eqn:E; [|vm_compute in E; discriminate].
  destruct (runs_go _ _ _ _ _ (runs_0 _) E) as (k & K). exists k, s. split; [exact K|]. vm_compute in E. injection E as <-. repeat split.
Qed.
