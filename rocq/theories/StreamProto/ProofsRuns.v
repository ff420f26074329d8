From Coq Require Import List Arith Lia Bool.
From Verif.Lib Require Import Base.
From Verif.StreamProto Require Import Model Spec Proofs ProofsPolite.
Import ListNotations.

(** Everything that goes on by itself comes to an end. *)
Definition life (e : ep) : nat := if e_dead e then 0 else 10.
Definition size (w : world) : nat :=
  6 * length (e_sq (cl w)) + 3 * length (e_sq (sv w)) +
  5 * (length (e_sent (cl w)) - e_taken (sv w)) + 4 * length (e_rq (sv w)) +
  2 * (length (e_sent (sv w)) - e_taken (cl w)) + length (e_rq (cl w)) + life (cl w) + life (sv w).

Definition gain (e e' : ep) (k : nat) : Prop :=
  exists l, e_sent e' = e_sent e ++ l /\
  (l = [] /\ life e' <= life e \/ length l <= k /\ life e' <= life e \/ length l <= 1 /\ life e' = 0).

Lemma recv_gain_c f e : let e' := settle (client_handle f e) in e_dead e = false ->
  e_sq e' = e_sq e /\ e_rq e' = e_rq e /\ e_taken e' = e_taken e /\ gain e e' 0.
Proof.
  cbn zeta. intros D. unfold client_handle, bad_state, on_error, on_finish.
  destruct f; repeat (match goal with |- context [if ?x then _ else _] => destruct x | |- context [match ?x with _ => _ end] => destruct x end; cbn);
  (split; [reflexivity|split; [reflexivity|split; [reflexivity|]]]; unfold gain, life; cbn; rewrite D;
   first [exists []; rewrite app_nil_r; split; [reflexivity|left; split; [reflexivity|lia]]
         |eexists; split; [reflexivity|right; right; cbn; split; [lia|reflexivity]]]).
Qed.

Lemma recv_gain_s f e : let e' := settle (server_handle f e) in e_dead e = false ->
  length (e_sq e') <= 1 + length (e_sq e) /\ e_rq e' = e_rq e /\ e_taken e' = e_taken e /\ gain e e' 0.
Proof.
  cbn zeta. intros D. unfold server_handle, bad_state, on_error, on_finish, push_send.
  destruct f; repeat (match goal with |- context [if ?x then _ else _] => destruct x | |- context [match ?x with _ => _ end] => destruct x end; cbn);
  (split; [try rewrite app_length; cbn; lia|split; [reflexivity|split; [reflexivity|]]]; unfold gain, life; cbn; rewrite D;
   first [exists []; rewrite app_nil_r; split; [reflexivity|left; split; [reflexivity|lia]]
         |eexists; split; [reflexivity|right; right; cbn; split; [lia|reflexivity]]]).
Qed.

Lemma send_gain_c m e : let e' := settle (client_send m e) in e_dead e = false ->
  e_sq e' = e_sq e /\ e_rq e' = e_rq e /\ e_taken e' = e_taken e /\ gain e e' 1.
Proof.
  cbn zeta. intros D. unfold client_send, bad_state, on_error.
  destruct m; repeat (match goal with |- context [if ?x then _ else _] => destruct x end; cbn);
  (split; [reflexivity|split; [reflexivity|split; [reflexivity|]]]; unfold gain, life; cbn; rewrite D;
   eexists; split; [reflexivity|right; cbn; lia]).
Qed.

Lemma send_gain_s b m e : let e' := settle (server_send b m e) in e_dead e = false ->
  e_sq e' = e_sq e /\ e_rq e' = e_rq e /\ e_taken e' = e_taken e /\ gain e e' 1.
Proof.
  cbn zeta. intros D. unfold server_send, bad_state, on_error.
  destruct m; repeat (match goal with |- context [if ?x then _ else _] => destruct x end; cbn);
  (split; [reflexivity|split; [reflexivity|split; [reflexivity|]]]; unfold gain, life; cbn; rewrite D;
   eexists; split; [reflexivity|right; cbn; lia]).
Qed.

Lemma life_at e : e_dead e = false -> life e = 10.
Proof. unfold life. intros ->. reflexivity. Qed.

Lemma own_size b w w' : own_step b w w' -> size w' < size w.
Proof.
  intros [e H|e H|e H|e H|e H|found e K H]; unfold size; cbn [cl sv].
  - unfold deliver in H. destruct (nth_error (e_sent (sv w)) (e_taken (cl w))) as [f|] eqn:N; [|discriminate]. injection H as <-.
    assert (e_taken (cl w) < length (e_sent (sv w))) by (apply nth_error_Some; congruence).
    unfold push_recv. destruct (e_term _); cbn; unfold life; cbn; try rewrite app_length; cbn; lia.
  - unfold deliver in H. destruct (nth_error (e_sent (cl w)) (e_taken (sv w))) as [f|] eqn:N; [|discriminate]. injection H as <-.
    assert (e_taken (sv w) < length (e_sent (cl w))) by (apply nth_error_Some; congruence).
    unfold push_recv. destruct (e_term _); cbn; unfold life; cbn; try rewrite app_length; cbn; lia.
  - destruct (recv_cases _ _ _ H) as (f & r & Q & D & ->).
    set (e0 := set_seen _ _). destruct (recv_gain_c f e0 D) as (A & B & C & l & S & G).
    rewrite A, B, C, S, app_length, Q. assert (L : life e0 = 10) by (apply life_at, D). rewrite L in G. rewrite (life_at _ D). cbn.
    destruct G as [(-> & G)|[G|G]]; cbn; lia.
  - destruct (send_cases _ _ _ H) as (m & r & Q & D & ->).
    set (e0 := set_sq _ _). destruct (send_gain_c m e0 D) as (A & B & C & l & S & G).
    rewrite A, B, C, S, app_length, Q. assert (L : life e0 = 10) by (apply life_at, D). rewrite L in G. rewrite (life_at _ D). cbn.
    destruct G as [(-> & G)|[G|G]]; cbn; lia.
  - destruct (recv_cases _ _ _ H) as (f & r & Q & D & ->).
    set (e0 := set_seen _ _). destruct (recv_gain_s f e0 D) as (A & B & C & l & S & G).
    rewrite B, C, S, app_length, Q. assert (L : life e0 = 10) by (apply life_at, D). rewrite L in G. rewrite (life_at _ D). cbn in A |- *.
    destruct G as [(-> & G)|[G|G]]; cbn; lia.
  - destruct (send_cases _ _ _ H) as (m & r & Q & D & ->).
    set (e0 := set_sq _ _). destruct (send_gain_s found m e0 D) as (A & B & C & l & S & G).
    rewrite A, B, C, S, app_length, Q. assert (L : life e0 = 10) by (apply life_at, D). rewrite L in G. rewrite (life_at _ D). cbn.
    destruct G as [(-> & G)|[G|G]]; cbn; lia.
Qed.

Lemma own_ends b w : Acc (fun x y => own_step b y x) w.
Proof.
  remember (size w) as n. revert w Heqn. induction n as [n IH] using lt_wf_ind. intros w ->. constructor. intros y H.
  apply (IH (size y)); [eapply own_size; exact H|reflexivity].
Qed.

(** What does not fit the state *)
Lemma refuse_recv (server : bool) e e' f r : e_rq e = f :: r -> next_recv (if server then server_handle else client_handle) e = Some e' ->
  ~ In (e_st e) (expected server f) -> gave_up e e'.
Proof.
  intros Q H N. unfold next_recv in H. rewrite Q in H. destruct (e_dead e); [discriminate|]. injection H as <-.
  destruct server, f; cbn in N |- *; destruct (e_st e); cbn; try (destruct N; tauto);
    unfold bad_state, on_error; cbn; destruct (e_simple e) eqn:U; cbn; unfold gave_up; cbn; repeat split; auto; intros X; destruct (X U).
Qed.
Lemma refuse_send (server found : bool) e e' m r : e_sq e = m :: r -> next_send (if server then server_send found else client_send) e = Some e' ->
  ~ In (e_st e) (permitted server m) -> gave_up e e'.
Proof.
  intros Q H N. unfold next_send in H. rewrite Q in H. destruct (e_dead e); [discriminate|]. injection H as <-.
  destruct server, m; cbn in N |- *; destruct (e_st e); cbn; try (destruct N; tauto);
    unfold bad_state, on_error; cbn; destruct (e_simple e) eqn:U; cbn; unfold gave_up; cbn; repeat split; auto; intros X; destruct (X U).
Qed.

(** What fits the state: nothing is reset. *)
Lemma accept_recv (server : bool) e e' f r : e_rq e = f :: r -> next_recv (if server then server_handle else client_handle) e = Some e' ->
  In (e_st e) (expected server f) -> e_sent e' = e_sent e /\
  (f = FReset -> e_st e <> Closed -> e_st e' = Closed /\ e_simple e' = Error /\ (e_simple e <> Error -> e_ok e' = false) /\ e_dead e' = true) /\
  (e_st e = Closed -> e_st e' = Closed /\ e_simple e' = e_simple e /\ e_ok e' = e_ok e /\ e_got e' = e_got e /\ e_eof e' = e_eof e /\ e_dead e' = false).
Proof.
  intros Q H N. unfold next_recv in H. rewrite Q in H. destruct (e_dead e) eqn:D; [discriminate|]. injection H as <-.
  destruct server, f as [b|n|c|]; cbn in N |- *; destruct (e_st e) eqn:T; cbn; try (exfalso; intuition congruence);
    try destruct b; try destruct c; unfold on_error, on_finish, push_send; cbn; destruct (e_simple e) eqn:U; cbn; try destruct (e_term e); cbn;
    repeat split; intros; cbn; congruence.
Qed.
Lemma accept_send (server found : bool) e e' m r : e_sq e = m :: r -> next_send (if server then server_send found else client_send) e = Some e' ->
  In (e_st e) (permitted server m) ->
  e_sent e' = e_sent e ++ [match m with MInit => FInit (if server then found else true) | MData n => FData n | MClose c => FClose c | MReset => FReset end] /\
  e_dead e' = (if server then match m with MInit => negb found | _ => false end else false) /\
  e_ok e' = e_ok e /\ e_got e' = e_got e /\ e_eof e' = e_eof e.
Proof.
  intros Q H N. unfold next_send in H. rewrite Q in H. destruct (e_dead e) eqn:D; [discriminate|]. injection H as <-.
  destruct server, m; cbn in N |- *; destruct (e_st e) eqn:T; cbn; try (exfalso; intuition congruence);
    try destruct found; cbn; auto.
Qed.

(** A run in which all goes well, and two in which it does not *)
Ltac go R c := eapply reach_step in R; [|c]; cbv in R.
Ltac own c := eapply W_own, c; cbv; reflexivity.
Ltac hello R :=
  go R ltac:(own W_send_c); go R ltac:(own W_deliver_s); go R ltac:(own W_recv_s);
  go R ltac:(eapply W_own, (W_send_s _ _ true); [reflexivity|cbv; reflexivity]); go R ltac:(own W_deliver_c); go R ltac:(own W_recv_c).
Ltac say R c := go R ltac:(c; cbv; auto; discriminate).

Lemma good_run : exists w, reach true w /\ e_got (sv w) = [1; 2] /\ e_got (cl w) = [7] /\ e_eof (cl w) = true /\ e_eof (sv w) = true /\
  e_st (cl w) = Closed /\ e_st (sv w) = Closed /\ e_ok (cl w) = true.
Proof.
  pose proof (reach_new true) as R. cbv in R. hello R.
  go R ltac:(apply (W_write_c _ _ 1); cbv; [discriminate|reflexivity]).
  go R ltac:(apply (W_write_s _ _ 7); cbv; [discriminate|reflexivity]).
  go R ltac:(apply (W_write_c _ _ 2); cbv; [discriminate|reflexivity]).
  go R ltac:(apply W_done_c; cbv; [discriminate|reflexivity]).
  do 3 go R ltac:(own W_send_c). do 3 go R ltac:(own W_deliver_s). do 3 go R ltac:(own W_recv_s).
  go R ltac:(apply (W_close_s _ _ COk); cbv; [discriminate|repeat split; discriminate]).
  go R ltac:(eapply W_own, (W_send_s _ _ true); [reflexivity|cbv; reflexivity]).
  go R ltac:(eapply W_own, (W_send_s _ _ true); [reflexivity|cbv; reflexivity]).
  do 2 go R ltac:(own W_deliver_c). do 2 go R ltac:(own W_recv_c).
  eexists. split; [exact R|]. repeat split.
Qed.

(** The server is done before the client is. *)
Lemma finish_lost : exists w w', reach false w /\ own_step false w w' /\
  e_acc (cl w) = [MInit; MClose COk] /\ e_acc (sv w) = [MInit; MClose COk] /\ e_sent (sv w) = [FInit true; FClose COk] /\ ~ In FReset (e_sent (cl w)) /\
  e_simple (cl w) = Finished /\ e_ok (cl w) = true /\ e_eof (cl w) = true /\
  e_simple (cl w') = Error /\ e_ok (cl w') = false /\ In FReset (e_sent (cl w')).
Proof.
  pose proof (reach_new false) as R. cbv in R. hello R.
  go R ltac:(apply (W_close_s _ _ COk); cbv; [discriminate|intros; discriminate]).
  go R ltac:(eapply W_own, (W_send_s _ _ true); [reflexivity|cbv; reflexivity]).
  go R ltac:(own W_deliver_c).
  go R ltac:(apply W_done_c; cbv; [discriminate|intros; discriminate]).
  go R ltac:(own W_recv_c).
  eexists _, _. split; [exact R|]. split; [eapply W_send_c; cbv; reflexivity|]. cbv. repeat split; auto.
  intros [H|[]]; discriminate.
Qed.

Lemma write_lost : exists w n, reach false w /\ fine (cl w) /\ fine (sv w) /\ has_close (e_acc (cl w)) = false /\
  fst (write n (cl w)) = true /\ e_acc (snd (write n (cl w))) = e_acc (cl w).
Proof.
  pose proof (reach_new false) as R. cbv in R. hello R.
  go R ltac:(apply (W_close_s _ _ COk); cbv; [discriminate|intros; discriminate]).
  go R ltac:(eapply W_own, (W_send_s _ _ true); [reflexivity|cbv; reflexivity]).
  go R ltac:(own W_deliver_c).
  go R ltac:(own W_recv_c).
  eexists _, 5. split; [exact R|]. cbv. repeat split; auto; try discriminate; intros H; repeat destruct H as [H|H]; try discriminate; destruct H.
Qed.

Lemma effect_recv (server : bool) e e' f r : e_rq e = f :: r -> next_recv (if server then server_handle else client_handle) e = Some e' ->
  In (e_st e) (expected server f) -> e_st e <> Closed -> e_simple e <> Finished -> e_simple e <> Error ->
  match f with
  | FInit found =>
    if server then e_st e' = Init /\ (e_term e = false -> e_sq e' = e_sq e ++ [MInit])
    else if found then e_st e' = Open /\ e_simple e' = Ready else e_st e' = Closed /\ e_simple e' = Error /\ e_ok e' = false /\ e_term e' = true
  | FData n => e_got e' = e_got e ++ [n] /\ e_st e' = e_st e /\ e_simple e' = e_simple e /\ e_ok e' = e_ok e
  | FClose c =>
    if server then e_st e' = RemoteClosed /\ e_simple e' = Finished /\ e_eof e' = true /\ (e_ok e' = true <-> c = COk) /\ e_term e' = e_term e
    else e_st e' = Closed /\ e_simple e' = (match c with CFw => Error | _ => Finished end) /\ (c <> CFw -> e_eof e' = true) /\ (e_ok e' = true <-> c = COk) /\
      e_term e' = true
  | FReset => e_st e' = Closed /\ e_simple e' = Error /\ e_ok e' = false /\ e_term e' = true
  end.
Proof.
  intros Q H N N1 N2 N3. unfold next_recv in H. rewrite Q in H. destruct (e_dead e) eqn:D; [discriminate|]. injection H as <-.
  destruct server, f as [b|n|c|]; cbn in N |- *; destruct (e_st e) eqn:T; cbn; try (exfalso; intuition congruence);
    try destruct b; try destruct c; unfold on_error, on_finish, push_send; cbn; destruct (e_simple e) eqn:U; cbn; try destruct (e_term e) eqn:V; cbn;
    try congruence; repeat split; intros; cbn; congruence.
Qed.

Lemma pushes e : e_term e = false ->
  (forall n, e_ok e = true -> fst (write n e) = true /\ e_acc (snd (write n e)) = e_acc e ++ [MData n]) /\
  (e_simple e <> Error -> fst (write_done e) = e_ok e /\ e_acc (snd (write_done e)) = e_acc e ++ [MClose COk]) /\
  (forall c, e_acc (close c e) = e_acc e ++ [MClose c]) /\
  e_acc (reset e) = e_acc e ++ [MReset].
Proof.
  intros T. unfold write, write_done, close, reset, push_send. rewrite T. repeat split; cbn; auto.
  - rewrite H. reflexivity.
  - rewrite H. reflexivity.
  - destruct (e_simple e); cbn; congruence.
  - destruct (e_simple e); cbn; congruence.
Qed.
Lemma pushes_not e : e_term e = true -> (forall n, snd (write n e) = e) /\ snd (write_done e) = e /\ (forall c, close c e = e) /\ reset e = e.
Proof.
  intros T. unfold write, write_done, close, reset, push_send. rewrite T. repeat split.
  - intros n. destruct (negb (e_ok e)); reflexivity.
  - destruct (simple_eqb (e_simple e) Error); reflexivity.
Qed.
