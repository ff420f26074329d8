(** What follows. *)
From Coq Require Import Bool Arith List Lia.
From Verif Require Import Backup.Model Backup.Proofs Backup.ProofsStep.
Import ListNotations.

Theorem success s : reach LateFails s -> cp s = CRet Okay ->
  exists w, msg s = Some w /\ idx s = Some w /\ rep s w = true.
Proof.
  intros R E. destruct (reach_inv s R) as (_ & C & W). unfold caller_ok in C. rewrite E in C. destruct C as (_ & F & Q & _).
  destruct (won s) as [w|].
  - exists w. unfold some_won in W. destruct W as (_ & W2 & _ & _ & W5). rewrite F in W5.
    destruct (pc s w); try contradiction; try (destruct W5 as (_ & X & _); discriminate X); try (destruct W5 as (X & _); discriminate X).
    tauto.
  - unfold none_won, is_err in W. rewrite F, <- Q in W. destruct W as (_ & _ & _ & _ & _ & [[X _]|(_ & _ & _ & X & _)]); [discriminate|contradiction].
Qed.

Theorem failure s c : reach LateFails s -> cp s = CRet c -> c <> Okay ->
  rep s false = false /\ rep s true = false /\ pc s false = HDone /\ pc s true = HDone /\ msg s = None /\ idx s = None.
Proof.
  intros R E N. destruct (reach_inv s R) as (_ & C & W). unfold caller_ok in C. rewrite E in C. destruct C as (_ & F & Q & _).
  destruct (won s) as [w|].
  - unfold some_won in W. destruct W as (_ & W2 & _ & _ & W5). rewrite F in W5.
    destruct (pc s w); try contradiction; try (destruct W5 as (_ & X & _); discriminate X); try (destruct W5 as (X & _); discriminate X).
    destruct W5 as (_ & _ & X & _). congruence.
  - unfold none_won in W. rewrite F in W. destruct W as (_ & W2 & W3 & W4 & _ & [[X _]|(_ & A & B & _ & D)]); [discriminate|].
    cbn. tauto.
Qed.

Theorem frame_safe s : reach LateFails s -> bad s = false.
Proof. intros R. apply (reach_inv s R). Qed.

Theorem after_return s a s' c : reach LateFails s -> cp s = CRet c -> exec LateFails s a = Some s' ->
  cp s' = CRet c /\ ret s' = c /\ idx s' = idx s /\ msg s' = msg s.
Proof.
  intros R E H. destruct (reach_inv s R) as (_ & C & W). unfold caller_ok in C. rewrite E in C. destruct C as (_ & F & Q & _).
  assert (HF : forall r, match pc s r with HWon | HSet _ => False | _ => True end).
  { intros r. destruct (won s) as [w|].
    - unfold some_won in W. destruct W as (_ & _ & W3 & _ & W5). rewrite F in W5. destruct r, w; cbn in *;
        (destruct (p0 s) eqn:?; destruct (p1 s) eqn:?; cbn in *; try exact Logic.I; intuition discriminate).
    - unfold none_won in W. rewrite F in W. destruct W as (_ & _ & _ & _ & _ & [[X _]|(_ & A & B & _)]); [discriminate|].
      destruct r; cbn; rewrite ?A, ?B; exact Logic.I. }
  destruct a as [t|r|r d|r]; cbn in H.
  - unfold cstep in H. rewrite E in H. discriminate.
  - unfold reply in H. destruct (pc s r); try discriminate H. injection H as <-. cbn. auto.
  - unfold fail in H. destruct (pc s r); try discriminate H. destruct d; try discriminate H; injection H as <-; cbn; auto.
  - unfold hstep in H. specialize (HF r). destruct (pc s r); try discriminate H; try contradiction; injection H as <-; cbn; auto.
Qed.

Theorem not_stuck s : reach LateFails s -> returned s = false ->
  (exists s', cstep s true = Some s') \/ (exists r, pc s r = HOut \/ exists s', hstep s r = Some s').
Proof.
  intros R N. destruct (reach_inv s R) as (_ & C & W). unfold returned in N. unfold caller_ok in C. unfold cstep.
  destruct (cp s) eqn:E; try discriminate N; try (left; eexists; reflexivity).
  - left. destruct (ret s); eexists; reflexivity.
  - left. destruct (fin s); [destruct (ret s)|]; eexists; reflexivity.
  - destruct (fin s) eqn:F; [left; eexists; reflexivity|]. right.
    assert (D : forall r, pc s r = HOut \/ (exists s', hstep s r = Some s') \/ pc s r = HDone).
    { intros r. assert (pc s r <> HNone) by (destruct r; cbn; tauto). unfold hstep.
      destruct (pc s r); try contradiction; try (right; left; eexists; reflexivity); tauto. }
    destruct (D false) as [D0|[D0|D0]]; [exists false; tauto|exists false; tauto|].
    destruct (D true) as [D1|[D1|D1]]; [exists true; tauto|exists true; tauto|]. exfalso. cbn in D0, D1.
    destruct (won s) as [w|].
    + unfold some_won in W. destruct W as (_ & _ & _ & _ & W5). destruct w; cbn in W5; rewrite ?D0, ?D1 in W5; destruct W5; congruence.
    + unfold none_won in W. rewrite D0, D1 in W. cbn in W. destruct W as (_ & _ & _ & _ & W5 & [[_ [X|(X & _)]]|(X & _)]); [lia|tauto|congruence].
Qed.

Theorem test_never_skips s : reach LateFails s -> cp s = CTest0 -> ret s <> ConnectErr.
Proof.
  intros R E. destruct (reach_inv s R) as (_ & C & W). unfold caller_ok in C. rewrite E in C. destruct C as [_ C].
  destruct (won s) as [w|].
  - unfold some_won in W. destruct W as (_ & _ & _ & _ & W5). destruct (pc s w); try contradiction; intuition congruence.
  - unfold none_won in W. rewrite C in W. cbn in W. destruct W as (_ & _ & _ & _ & _ & [[_ [X|(X & _)]]|X]).
    + destruct X as (_ & _ & _ & -> & _). discriminate.
    + destruct X as [[_ []]|[X _]]. discriminate.
    + destruct X as (_ & _ & X & _). discriminate.
Qed.

(** Every run ends: what is left to do shrinks. *)
Definition todo_h (p : hpc) : nat :=
  match p with HNone => 7 | HOut => 6 | HWon => 5 | HCb _ => 4 | HCount _ => 3 | HSet _ => 2 | HFin => 1 | HDone => 0 end.
Definition todo_c (p : cpc) : nat :=
  match p with CIssue0 => 5 | CTest0 => 4 | CWait0 => 3 | CIssue1 => 2 | CWait1 => 1 | CRet _ => 0 end.
Definition todo (s : st) : nat := todo_h (p0 s) + todo_h (p1 s) + todo_c (cp s).

Lemma step_shrinks s a s' p : reach p s -> caller_ok s -> exec p s a = Some s' -> todo s' < todo s.
Proof.
  intros _ C H. destruct a as [t|r|r d|r]; cbn in H.
  - unfold cstep in H. unfold caller_ok in C. unfold todo. destruct (cp s) eqn:E.
    + injection H as <-. cbn. destruct C as [-> ->]. cbn. lia.
    + destruct (ret s); injection H as <-; cbn; lia.
    + destruct (fin s); [destruct (ret s)|destruct t; [|discriminate]]; injection H as <-; cbn; lia.
    + injection H as <-. cbn. destruct C as [_ ->]. cbn. lia.
    + destruct (fin s); [|discriminate]. injection H as <-; cbn; lia.
    + discriminate.
  - unfold reply in H. destruct (pc s r) eqn:P; try discriminate H. injection H as <-.
    unfold todo. destruct r; cbn in *; rewrite P; destruct (got s); cbn; lia.
  - unfold fail in H. destruct (pc s r) eqn:P; try discriminate H.
    destruct d; try discriminate H; injection H as <-; unfold todo; destruct r; cbn in *; rewrite P; cbn; lia.
  - unfold hstep in H. destruct (pc s r) eqn:P; try discriminate H; injection H as <-; unfold todo; destruct r; cbn in *; rewrite P;
      try (destruct (fin s), c; cbn; lia); try (destruct (failed s =? 1); cbn; lia); cbn; lia.
Qed.

Lemma run_reach p l : forall s s', reach p s -> run p s l = Some s' -> reach p s'.
Proof.
  induction l as [|a r IH]; cbn; intros s s' R H; [injection H as <-; exact R|].
  destruct (exec p s a) as [s1|] eqn:E; [|discriminate]. eapply IH; [|exact H]. eapply reach_step; eassumption.
Qed.

Theorem runs_end l s : run LateFails init l = Some s -> length l <= 19.
Proof.
  assert (G : forall l s0 s, reach LateFails s0 -> run LateFails s0 l = Some s -> length l + todo s <= todo s0).
  { clear l s. induction l as [|a l IH]; cbn; intros s0 s R H; [injection H as <-; lia|].
    destruct (exec LateFails s0 a) as [s1|] eqn:E; [|discriminate].
    assert (D := step_shrinks s0 a s1 LateFails R (proj1 (proj2 (reach_inv s0 R))) E).
    specialize (IH s1 s (reach_step _ _ _ _ R E) H). lia. }
  intros H. specialize (G l init s (reach_init _) H). change (todo init) with 19 in G. lia.
Qed.

(** The first request failed at once, and the caller still waits. *)
Theorem waits_for_nothing : exists s, reach LateFails s /\ cp s = CWait0 /\ pc s false = HDone /\ rep s false = false /\
  cstep s false = None.
Proof.
  destruct (run LateFails init [AC false; AFail false ConnectErr; AH false; AH false; AC false]) as [s|] eqn:E;
    [|vm_compute in E; discriminate].
  exists s. split; [eapply run_reach; [apply reach_init|exact E]|]. vm_compute in E. injection E as <-. repeat split.
Qed.

(** And if the delay is 0, nothing ever ends its wait. *)
Theorem waits_for_ever : exists s, reach LateFails s /\ cp s = CWait0 /\ fin s = false /\
  forall a, a <> AC true -> exec LateFails s a = None.
Proof.
  destruct (run LateFails init [AC false; AFail false ConnectErr; AH false; AH false; AC false]) as [s|] eqn:E;
    [|vm_compute in E; discriminate].
  exists s. split; [eapply run_reach; [apply reach_init|exact E]|]. vm_compute in E. injection E as <-. repeat split.
  intros [[]|[]|[] c|[]] N; try reflexivity. contradiction.
Qed.

Definition both_out : list action := [AC false; AC false; AC true; AC false].

Theorem late_no_message : exists s, reach LateSucceeds s /\ cp s = CRet Okay /\ msg s = None.
Proof.
  destruct (run LateSucceeds init (both_out ++ [AReply false; AReply true; AH true; AH true; AH true; AC false])) as [s|] eqn:E;
    [|vm_compute in E; discriminate].
  exists s. split; [eapply run_reach; [apply reach_init|exact E]|]. vm_compute in E. injection E as <-. repeat split.
Qed.

Theorem late_bad_frame : exists s, reach LateSucceeds s /\ bad s = true.
Proof.
  destruct (run LateSucceeds init (both_out ++ [AReply false; AReply true; AH true; AH true; AH true; AC false; AH false])) as [s|] eqn:E;
    [|vm_compute in E; discriminate].
  exists s. split; [eapply run_reach; [apply reach_init|exact E]|]. vm_compute in E. injection E as <-. reflexivity.
Qed.

Theorem late_wrong_node : exists s, reach LateSucceeds s /\ cp s = CRet Okay /\ msg s = Some false /\ idx s = Some true.
Proof.
  destruct (run LateSucceeds init (both_out ++ [AReply false; AReply true; AH true; AH false; AH true; AH true; AC false])) as [s|] eqn:E;
    [|vm_compute in E; discriminate].
  exists s. split; [eapply run_reach; [apply reach_init|exact E]|]. vm_compute in E. injection E as <-. repeat split.
Qed.
