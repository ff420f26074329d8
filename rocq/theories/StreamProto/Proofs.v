From Coq Require Import List Arith Lia Bool.
From Verif.Lib Require Import Base.
From Verif.StreamProto Require Import Model Spec.
Import ListNotations.

(** Frames *)
Fixpoint fdatas (l : list frame) : list nat :=
  match l with [] => [] | FData n :: l => n :: fdatas l | _ :: l => fdatas l end.
Fixpoint fbefore (l : list frame) : list nat :=
  match l with [] => [] | FData n :: l => n :: fbefore l | FClose _ :: _ => [] | _ :: l => fbefore l end.
Fixpoint fclose (l : list frame) : bool :=
  match l with [] => false | FClose _ :: _ => true | _ :: l => fclose l end.

Lemma fdatas_app a b : fdatas (a ++ b) = fdatas a ++ fdatas b.
Proof. induction a as [|[] a IH]; simpl; congruence. Qed.
Lemma fclose_app a b : fclose (a ++ b) = fclose a || fclose b.
Proof. induction a as [|[] a IH]; simpl; congruence. Qed.
Lemma fbefore_app a b : fbefore (a ++ b) = if fclose a then fbefore a else fdatas a ++ fbefore b.
Proof. induction a as [|[] a IH]; simpl; try congruence. rewrite IH. destruct (fclose a); reflexivity. Qed.
Lemma written_app a b : written (a ++ b) = written a ++ written b.
Proof. induction a as [|[] a IH]; simpl; congruence. Qed.
Lemma has_close_app a b : has_close (a ++ b) = has_close a || has_close b.
Proof. induction a as [|[] a IH]; simpl; congruence. Qed.
Lemma before_close_app a b : before_close (a ++ b) = if has_close a then before_close a else written a ++ before_close b.
Proof. induction a as [|[] a IH]; simpl; try congruence. rewrite IH. destruct (has_close a); reflexivity. Qed.

Lemma beginning_refl {A} (a : list A) : beginning a a.
Proof. exists []. rewrite app_nil_r. reflexivity. Qed.
Lemma beginning_trans {A} (a b c : list A) : beginning a b -> beginning b c -> beginning a c.
Proof. intros (x & ->) (y & ->). exists (x ++ y). rewrite app_assoc. reflexivity. Qed.
Lemma beginning_app {A} (a b c : list A) : beginning a b -> beginning a (b ++ c).
Proof. intros (x & ->). exists (x ++ c). rewrite app_assoc. reflexivity. Qed.
Lemma beginning_nil {A} (a : list A) : beginning [] a.
Proof. exists a. reflexivity. Qed.

(** What an end sends *)
Definition early (s : state) : bool := match s with Closed | LocalClosed => false | _ => true end.
Definition sends (done : list smsg) (e : ep) : Prop :=
  beginning (fdatas (e_sent e)) (written done) /\
  (fclose (e_sent e) = true -> has_close done = true /\ fbefore (e_sent e) = before_close done) /\
  (early (e_st e) = true -> written done = fdatas (e_sent e) /\ has_close done = false /\ fclose (e_sent e) = false).
Definition sinv (e : ep) : Prop := exists done, e_acc e = done ++ e_sq e /\ sends done e.

(** What an end receives *)
Definition listens (s : state) : bool := match s with Closed | RemoteClosed => false | _ => true end.
Definition rinv (e : ep) : Prop :=
  beginning (e_got e) (fdatas (e_seen e)) /\
  (e_eof e = true -> fclose (e_seen e) = true /\ e_got e = fbefore (e_seen e)) /\
  (e_simple e = Finished -> e_eof e = true) /\
  (e_dead e = false -> listens (e_st e) = true -> e_got e = fdatas (e_seen e) /\ fclose (e_seen e) = false /\ e_eof e = false) /\
  (e_dead e = true -> e_term e = true).

(** What is on its way *)
Definition ginv (other e : ep) : Prop :=
  beginning (e_seen e ++ e_rq e) (e_sent other) /\ e_taken e <= length (e_sent other) /\
  (e_term e = false -> e_seen e ++ e_rq e = firstn (e_taken e) (e_sent other)).

Lemma sends_more m done e e' : sends done e -> early (e_st e') = false ->
  e_sent e' = e_sent e \/ e_sent e' = e_sent e ++ [FReset] -> sends (done ++ [m]) e'.
Proof.
  intros (A & B & C) N S.
  assert (D : fdatas (e_sent e') = fdatas (e_sent e) /\ fclose (e_sent e') = fclose (e_sent e) /\
              (fclose (e_sent e) = true -> fbefore (e_sent e') = fbefore (e_sent e))).
  { destruct S as [-> | ->]; [auto|]. rewrite fdatas_app, fclose_app, fbefore_app. cbn. rewrite app_nil_r, orb_false_r.
    split; [reflexivity|]. split; [reflexivity|]. intros ->. reflexivity. }
  destruct D as (D1 & D2 & D3). unfold sends. rewrite D1, D2, N. repeat split; try discriminate.
  - rewrite written_app. apply beginning_app. exact A.
  - destruct (B H) as [B1 _]. rewrite has_close_app, B1. reflexivity.
  - destruct (B H) as [B1 B2]. rewrite before_close_app, B1, (D3 H). exact B2.
Qed.

Lemma sends_same done e e' : sends done e -> (early (e_st e') = true -> early (e_st e) = true) ->
  e_sent e' = e_sent e \/ (early (e_st e') = false /\ e_sent e' = e_sent e ++ [FReset]) -> sends done e'.
Proof.
  intros (A & B & C) N [S|[N' S]]; unfold sends; rewrite S.
  - repeat split; auto; try (apply B; assumption); apply C; auto.
  - rewrite N', fdatas_app, fclose_app, fbefore_app. cbn. rewrite app_nil_r, orb_false_r. split; [exact A|]. split; [|discriminate].
    intros F. rewrite F. apply B, F.
Qed.

(** Receiving leaves the sending side alone. *)
Lemma acc_push m e : sinv e -> sinv (push_send m e).
Proof.
  intros (d & E & S). unfold push_send. destruct (e_term e); [exists d; auto|].
  exists d. cbn. rewrite E, app_assoc. split; [reflexivity|exact S].
Qed.

Lemma sinv_on e e' : sinv e -> e_acc e' = e_acc e -> e_sq e' = e_sq e -> (early (e_st e') = true -> early (e_st e) = true) ->
  e_sent e' = e_sent e \/ (early (e_st e') = false /\ e_sent e' = e_sent e ++ [FReset]) -> sinv e'.
Proof. intros (d & E & S) E1 E2 N K. exists d. rewrite E1, E2. split; [exact E|]. apply (sends_same d e); assumption. Qed.

Lemma on_error_same e : e_acc (on_error e) = e_acc e /\ e_sq (on_error e) = e_sq e /\ e_st (on_error e) = e_st e /\ e_sent (on_error e) = e_sent e /\
  e_got (on_error e) = e_got e /\ e_eof (on_error e) = e_eof e /\ e_seen (on_error e) = e_seen e /\ e_dead (on_error e) = e_dead e /\
  e_term (on_error e) = e_term e /\ e_simple (on_error e) = Error /\ e_rq (on_error e) = e_rq e /\ e_taken (on_error e) = e_taken e.
Proof. unfold on_error. destruct (e_simple e) eqn:E; cbn; repeat split; auto. Qed.

Lemma on_finish_same c e : e_acc (on_finish c e) = e_acc e /\ e_sq (on_finish c e) = e_sq e /\ e_st (on_finish c e) = e_st e /\
  e_sent (on_finish c e) = e_sent e /\ e_got (on_finish c e) = e_got e /\ e_seen (on_finish c e) = e_seen e /\ e_dead (on_finish c e) = e_dead e /\
  e_term (on_finish c e) = e_term e /\ e_rq (on_finish c e) = e_rq e /\ e_taken (on_finish c e) = e_taken e.
Proof. unfold on_finish. destruct (e_simple e) eqn:E; cbn; repeat split; auto. Qed.

Lemma bad_sinv e : sinv e -> sinv (settle (bad_state e)).
Proof.
  intros S. unfold bad_state, settle. destruct (on_error_same (send_reset e)) as (E1 & E2 & E3 & E4 & _).
  apply (sinv_on e); cbn; rewrite ?E1, ?E2, ?E3, ?E4; auto; discriminate.
Qed.

Lemma bad_sends m d e : sends d e -> sends (d ++ [m]) (settle (bad_state e)).
Proof.
  intros S. unfold bad_state, settle. destruct (on_error_same (send_reset e)) as (E1 & E2 & E3 & E4 & _).
  apply (sends_more m d e); cbn; rewrite ?E3, ?E4; auto.
Qed.

Lemma err_sinv e : sinv e -> sinv (settle (on_error (set_st Closed e), false)).
Proof.
  intros S. unfold settle. destruct (on_error_same (set_st Closed e)) as (E1 & E2 & E3 & E4 & _).
  apply (sinv_on e); cbn; rewrite ?E1, ?E2, ?E3, ?E4; auto; discriminate.
Qed.

Lemma client_handle_sinv f e : sinv e -> sinv (settle (client_handle f e)).
Proof.
  intros S. destruct f as [found|n|c|]; cbn [client_handle].
  - destruct (e_st e) eqn:T; cbn; try apply bad_sinv, S.
    destruct found; cbn; [apply (sinv_on e); cbn; rewrite ?T; auto|apply err_sinv, S].
  - destruct (e_st e) eqn:T; cbn; try apply bad_sinv, S; exact S.
  - destruct (e_st e) eqn:T; cbn; try apply bad_sinv, S; try exact S;
    (destruct c; [| |apply err_sinv, S]; cbn;
     match goal with |- context [on_finish ?c ?x] => destruct (on_finish_same c x) as (E1 & E2 & E3 & E4 & _) end;
     apply (sinv_on e); cbn; rewrite ?E1, ?E2, ?E3, ?E4; auto; discriminate).
  - destruct (e_st e) eqn:T; cbn; try exact S; apply err_sinv, S.
Qed.

Lemma server_handle_sinv f e : sinv e -> sinv (settle (server_handle f e)).
Proof.
  intros S. destruct f as [found|n|c|]; cbn [server_handle].
  - destruct (e_st e) eqn:T; cbn; try apply bad_sinv, S. apply acc_push. apply (sinv_on e); cbn; rewrite ?T; auto.
  - destruct (e_st e) eqn:T; cbn; try apply bad_sinv, S; exact S.
  - destruct (e_st e) eqn:T; cbn; try apply bad_sinv, S; try exact S.
    match goal with |- context [on_finish ?c ?x] => destruct (on_finish_same c x) as (E1 & E2 & E3 & E4 & _) end.
    apply (sinv_on e); cbn; rewrite ?E1, ?E2, ?E3, ?E4, ?T; auto.
  - destruct (e_st e) eqn:T; cbn; try exact S; apply err_sinv, S.
Qed.

(** A message out of the queue *)
Lemma send_data_sends n d e e' : sends d e -> early (e_st e) = true -> e_sent e' = e_sent e ++ [FData n] -> e_st e' = e_st e ->
  sends (d ++ [MData n]) e'.
Proof.
  intros (A & B & C) Ea Se St. destruct (C Ea) as (C1 & C2 & C3). unfold sends. rewrite Se, St, written_app, has_close_app, fdatas_app, fclose_app.
  cbn. rewrite C1, C2, C3. cbn. repeat split; try discriminate. apply beginning_refl.
Qed.

Lemma send_close_sends c d e e' : sends d e -> early (e_st e) = true -> e_sent e' = e_sent e ++ [FClose c] -> early (e_st e') = false ->
  sends (d ++ [MClose c]) e'.
Proof.
  intros (A & B & C) Ea Se St. destruct (C Ea) as (C1 & C2 & C3).
  unfold sends. rewrite Se, St, written_app, has_close_app, fdatas_app, fclose_app, fbefore_app, before_close_app.
  cbn. rewrite C1, C2, C3, !app_nil_r. cbn. repeat split; try discriminate. apply beginning_refl.
Qed.

Lemma send_init_sends b d e e' : sends d e -> early (e_st e) = true -> e_sent e' = e_sent e ++ [FInit b] ->
  sends (d ++ [MInit]) e'.
Proof.
  intros (A & B & C) Ea Se. destruct (C Ea) as (C1 & C2 & C3).
  unfold sends. rewrite Se, written_app, has_close_app, fdatas_app, fclose_app.
  cbn. rewrite C1, C2, C3, !app_nil_r. cbn. repeat split; try discriminate. apply beginning_refl.
Qed.

Lemma client_send_sends m d e : sends d e -> sends (d ++ [m]) (settle (client_send m e)).
Proof.
  intros S. destruct m as [|n|c|]; cbn [client_send]; destruct (e_st e) eqn:T; cbn; try apply bad_sends, S.
  - eapply send_init_sends; [exact S|rewrite T; reflexivity|reflexivity].
  - eapply send_data_sends; [exact S|rewrite T; reflexivity|reflexivity|reflexivity].
  - eapply send_close_sends; [exact S|rewrite T; reflexivity|reflexivity|reflexivity].
  - eapply sends_more; [exact S|reflexivity|right; reflexivity].
Qed.

Lemma server_send_sends b m d e : sends d e -> sends (d ++ [m]) (settle (server_send b m e)).
Proof.
  intros S. destruct m as [|n|c|]; cbn [server_send]; destruct (e_st e) eqn:T; cbn; try apply bad_sends, S.
  - destruct b; cbn; (eapply send_init_sends; [exact S|rewrite T; reflexivity|reflexivity]).
  - eapply send_data_sends; [exact S|rewrite T; reflexivity|reflexivity|reflexivity].
  - eapply send_data_sends; [exact S|rewrite T; reflexivity|reflexivity|reflexivity].
  - eapply send_close_sends; [exact S|rewrite T; reflexivity|reflexivity|reflexivity].
  - eapply send_close_sends; [exact S|rewrite T; reflexivity|reflexivity|reflexivity].
  - eapply sends_more; [exact S|reflexivity|right; reflexivity].
  - eapply sends_more; [exact S|reflexivity|right; reflexivity].
Qed.

(** What the handlers leave alone *)
Lemma bad_same e : let e' := settle (bad_state e) in e_acc e' = e_acc e /\ e_sq e' = e_sq e /\ e_rq e' = e_rq e /\ e_seen e' = e_seen e /\
  e_taken e' = e_taken e /\ e_got e' = e_got e /\ e_eof e' = e_eof e /\ e_simple e' = Error /\ e_st e' = Closed /\ e_dead e' = true /\ e_term e' = true /\
  e_sent e' = e_sent e ++ [FReset].
Proof.
  cbn. destruct (on_error_same (send_reset e)) as (E1 & E2 & E3 & E4 & E5 & E6 & E7 & E8 & E9 & E10 & E11 & E12).
  rewrite E1, E2, E3, E4, E5, E6, E7, E10, E11, E12. cbn. repeat split.
Qed.

Lemma err_same e : let e' := settle (on_error (set_st Closed e), false) in e_acc e' = e_acc e /\ e_sq e' = e_sq e /\ e_rq e' = e_rq e /\
  e_seen e' = e_seen e /\ e_taken e' = e_taken e /\ e_got e' = e_got e /\ e_eof e' = e_eof e /\ e_simple e' = Error /\ e_st e' = Closed /\
  e_dead e' = true /\ e_term e' = true /\ e_sent e' = e_sent e.
Proof.
  cbn. destruct (on_error_same (set_st Closed e)) as (E1 & E2 & E3 & E4 & E5 & E6 & E7 & E8 & E9 & E10 & E11 & E12).
  rewrite E1, E2, E3, E4, E5, E6, E7, E10, E11, E12. cbn. repeat split.
Qed.

Lemma rinv_dead e e' : beginning (e_got e) (fdatas (e_seen e)) -> (e_eof e = true -> fclose (e_seen e) = true /\ e_got e = fbefore (e_seen e)) ->
  e_seen e' = e_seen e -> e_got e' = e_got e -> e_eof e' = e_eof e -> e_simple e' = Error -> e_dead e' = true -> e_term e' = true -> rinv e'.
Proof.
  intros A B E1 E2 E3 E4 E5 E6. unfold rinv. rewrite E1, E2, E3, E4, E5, E6. repeat split; auto; try discriminate; apply B; assumption.
Qed.

(** A frame that was seen: what is known before it is handled *)
Definition pre (f : frame) (e : ep) : Prop :=
  exists seen, e_seen e = seen ++ [f] /\ rinv (set_seen seen e) /\ e_dead e = false.

Lemma pre_weak f e : pre f e -> beginning (e_got e) (fdatas (e_seen e)) /\ (e_eof e = true -> fclose (e_seen e) = true /\ e_got e = fbefore (e_seen e)).
Proof.
  intros (s & E & (A & B & _) & _). cbn in *. rewrite E, fdatas_app, fclose_app, fbefore_app. split; [apply beginning_app, A|].
  intros F. destruct (B F) as [B1 B2]. rewrite B1. auto.
Qed.

Lemma bad_rinv f e : pre f e -> rinv (settle (bad_state e)).
Proof.
  intros P. destruct (pre_weak f e P) as [A B]. destruct (bad_same e) as (E1 & E2 & E3 & E4 & E5 & E6 & E7 & E8 & E9 & E10 & E11 & E12).
  apply (rinv_dead e); assumption.
Qed.

Lemma err_rinv f e : pre f e -> rinv (settle (on_error (set_st Closed e), false)).
Proof.
  intros P. destruct (pre_weak f e P) as [A B]. destruct (err_same e) as (E1 & E2 & E3 & E4 & E5 & E6 & E7 & E8 & E9 & E10 & E11 & E12).
  apply (rinv_dead e); assumption.
Qed.

Lemma closed_rinv f e : pre f e -> e_st e = Closed -> rinv e.
Proof.
  intros P T. destruct (pre_weak f e P) as [A B]. destruct P as (s & E & (_ & _ & C & D & F) & G). cbn in *.
  split; [exact A|]. split; [exact B|]. split; [exact C|]. split; [|exact F]. rewrite T. discriminate.
Qed.

Lemma init_rinv b e e' : pre (FInit b) e -> listens (e_st e) = true -> e_seen e' = e_seen e -> e_got e' = e_got e -> e_eof e' = e_eof e ->
  e_simple e' = Ready \/ e_simple e' = e_simple e -> e_dead e' = e_dead e -> e_term e' = e_term e -> rinv e'.
Proof.
  intros P L E1 E2 E3 E4 E5 E6. destruct (pre_weak _ e P) as [A B]. destruct P as (s & E & (_ & _ & C & D & F) & G). cbn in *.
  destruct (D G L) as (D1 & D2 & D3).
  unfold rinv. rewrite E1, E2, E3, E5, E6. split; [exact A|]. split; [exact B|]. split; [|split; [|exact F]].
  - destruct E4 as [E4|E4]; rewrite E4; [discriminate|exact C].
  - intros _ _. rewrite E, fdatas_app, fclose_app, D1, D2, D3. cbn. rewrite app_nil_r. auto.
Qed.

Lemma data_rinv n e : pre (FData n) e -> listens (e_st e) = true -> rinv (on_data n e).
Proof.
  intros (s & E & (A & B & C & D & F) & G) L. cbn in *. destruct (D G L) as (D1 & D2 & D3).
  unfold rinv. cbn. rewrite E, fdatas_app, fclose_app, D1, D2, D3. cbn. rewrite D3 in C. repeat split; auto; try discriminate. apply beginning_refl.
Qed.

Lemma finish_rinv c e e' : pre (FClose c) e -> listens (e_st e) = true -> e_seen e' = e_seen e -> e_got e' = e_got e -> e_eof e' = true ->
  e_dead e' = e_dead e -> listens (e_st e') = false -> rinv e'.
Proof.
  intros (s & E & (A & B & C & D & F) & G) L E1 E2 E3 E5 N. cbn in *. destruct (D G L) as (D1 & D2 & D3).
  unfold rinv. rewrite E1, E2, E3, E5, G, N, E, fdatas_app, fclose_app, fbefore_app, D1, D2. cbn. rewrite app_nil_r.
  repeat split; auto; try discriminate. apply beginning_refl.
Qed.

Lemma not_finished f e : pre f e -> listens (e_st e) = true -> e_simple e <> Finished.
Proof. intros (s & E & (A & B & C & D & F) & G) L K. cbn in *. destruct (D G L) as (_ & _ & D3). rewrite (C K) in D3. discriminate. Qed.

Lemma on_finish_eof c e : e_simple e <> Finished -> e_eof (on_finish c e) = true.
Proof. unfold on_finish. destruct (e_simple e); cbn; congruence. Qed.

Lemma client_handle_rinv f e : pre f e -> rinv (settle (client_handle f e)).
Proof.
  intros P. destruct f as [found|n|c|]; cbn [client_handle].
  - destruct (e_st e) eqn:T; cbn; try apply (bad_rinv _ _ P).
    destruct found; cbn; [|apply (err_rinv _ _ P)]. apply (init_rinv _ e _ P); auto. rewrite T. reflexivity.
  - destruct (e_st e) eqn:T; cbn; try apply (bad_rinv _ _ P); apply data_rinv; try exact P; rewrite T; reflexivity.
  - destruct (e_st e) eqn:T; cbn; try apply (bad_rinv _ _ P); try (apply (closed_rinv _ _ P T));
    (destruct c; [| |apply (err_rinv _ _ P)]; cbn;
     match goal with |- context [on_finish ?c ?x] =>
       destruct (on_finish_same c x) as (E1 & E2 & E3 & E4 & E5 & E6 & E7 & E8 & E9 & E10); pose proof (on_finish_eof c x) as E11 end;
     apply (finish_rinv _ e _ P); cbn; rewrite ?E3, ?E5, ?E6, ?E7, ?T; auto;
     apply E11; cbn; apply (not_finished _ _ P); rewrite T; reflexivity).
  - destruct (e_st e) eqn:T; cbn; try apply (closed_rinv _ _ P T); apply (err_rinv _ _ P).
Qed.

Lemma server_handle_rinv f e : pre f e -> rinv (settle (server_handle f e)).
Proof.
  intros P. destruct f as [found|n|c|]; cbn [server_handle].
  - destruct (e_st e) eqn:T; cbn; try apply (bad_rinv _ _ P).
    unfold push_send. cbn. destruct (e_term e) eqn:U; apply (init_rinv _ e _ P); auto; rewrite T; reflexivity.
  - destruct (e_st e) eqn:T; cbn; try apply (bad_rinv _ _ P); apply data_rinv; try exact P; rewrite T; reflexivity.
  - destruct (e_st e) eqn:T; cbn; try apply (bad_rinv _ _ P); try (apply (closed_rinv _ _ P T)).
    match goal with |- context [on_finish ?c ?x] =>
       destruct (on_finish_same c x) as (E1 & E2 & E3 & E4 & E5 & E6 & E7 & E8 & E9 & E10); pose proof (on_finish_eof c x) as E11 end.
    apply (finish_rinv _ e _ P); cbn; rewrite ?E3, ?E5, ?E6, ?E7, ?T; auto.
    apply E11; cbn; apply (not_finished _ _ P); rewrite T; reflexivity.
  - destruct (e_st e) eqn:T; cbn; try apply (closed_rinv _ _ P T); apply (err_rinv _ _ P).
Qed.

(** Sending and receiving *)
Lemma rinv_on e e' : rinv e -> e_seen e' = e_seen e -> e_got e' = e_got e -> e_eof e' = e_eof e ->
  e_simple e' = e_simple e \/ e_simple e' = Ready \/ e_simple e' = Error ->
  (listens (e_st e') = true -> listens (e_st e) = true) -> (e_dead e' = e_dead e \/ e_dead e' = true /\ e_term e' = true) ->
  (e_term e = true -> e_term e' = true) -> rinv e'.
Proof.
  intros (A & B & C & D & F) E1 E2 E3 E4 L E5 E6. unfold rinv. rewrite E1, E2, E3. split; [exact A|]. split; [exact B|].
  split; [destruct E4 as [E4|[E4|E4]]; rewrite E4; try discriminate; exact C|].
  destruct E5 as [E5|[E5 E5']]; rewrite E5; split; auto. discriminate.
Qed.

Lemma client_send_rinv m e : rinv e -> rinv (settle (client_send m e)).
Proof.
  intros R. destruct (bad_same e) as (E1 & E2 & E3 & E4 & E5 & E6 & E7 & E8 & E9 & E10 & E11 & E12).
  assert (Bd : rinv (settle (bad_state e))) by (apply (rinv_on e); auto; rewrite E9; discriminate).
  destruct m; cbn [client_send]; destruct (e_st e) eqn:T; cbn; try exact Bd; apply (rinv_on e); cbn; rewrite ?T; auto.
Qed.

Lemma server_send_rinv b m e : rinv e -> rinv (settle (server_send b m e)).
Proof.
  intros R. destruct (bad_same e) as (E1 & E2 & E3 & E4 & E5 & E6 & E7 & E8 & E9 & E10 & E11 & E12).
  assert (Bd : rinv (settle (bad_state e))) by (apply (rinv_on e); auto; rewrite E9; discriminate).
  destruct m; cbn [server_send]; destruct (e_st e) eqn:T; cbn; try exact Bd; try destruct b; cbn; apply (rinv_on e); cbn; rewrite ?T; auto.
Qed.

Lemma sent_handle_c f e : let e' := settle (client_handle f e) in
  beginning (e_sent e) (e_sent e') /\ e_seen e' = e_seen e /\ e_rq e' = e_rq e /\ e_taken e' = e_taken e /\ (e_term e = true -> e_term e' = true).
Proof.
  assert (Bd : let e' := settle (bad_state e) in
     beginning (e_sent e) (e_sent e') /\ e_seen e' = e_seen e /\ e_rq e' = e_rq e /\ e_taken e' = e_taken e /\ (e_term e = true -> e_term e' = true)).
  { destruct (bad_same e) as (E1 & E2 & E3 & E4 & E5 & E6 & E7 & E8 & E9 & E10 & E11 & E12). cbn zeta. rewrite E12, E4, E3, E5, E11.
    repeat split. apply beginning_app, beginning_refl. }
  assert (Er : let e' := settle (on_error (set_st Closed e), false) in
     beginning (e_sent e) (e_sent e') /\ e_seen e' = e_seen e /\ e_rq e' = e_rq e /\ e_taken e' = e_taken e /\ (e_term e = true -> e_term e' = true)).
  { destruct (err_same e) as (E1 & E2 & E3 & E4 & E5 & E6 & E7 & E8 & E9 & E10 & E11 & E12). cbn zeta. rewrite E12, E4, E3, E5, E11.
    repeat split. apply beginning_refl. }
  assert (Id : beginning (e_sent e) (e_sent e)) by apply beginning_refl.
  cbn zeta in *. destruct f as [found|n|c|]; cbn [client_handle].
  - destruct (e_st e); cbn; try exact Bd. destruct found; cbn; [auto 8|exact Er].
  - destruct (e_st e); cbn; try exact Bd; auto 8.
  - destruct (e_st e); cbn; try exact Bd; auto 8; (destruct c; [| |exact Er]; cbn;
     match goal with |- context [on_finish ?c ?x] =>
       destruct (on_finish_same c x) as (E1 & E2 & E3 & E4 & E5 & E6 & E7 & E8 & E9 & E10) end; rewrite E4, E6, E9, E10; cbn; auto 8).
  - destruct (e_st e); cbn; try exact Er; auto 8.
Qed.

Lemma sent_handle_s f e : let e' := settle (server_handle f e) in
  beginning (e_sent e) (e_sent e') /\ e_seen e' = e_seen e /\ e_rq e' = e_rq e /\ e_taken e' = e_taken e /\ (e_term e = true -> e_term e' = true).
Proof.
  assert (Bd : let e' := settle (bad_state e) in
     beginning (e_sent e) (e_sent e') /\ e_seen e' = e_seen e /\ e_rq e' = e_rq e /\ e_taken e' = e_taken e /\ (e_term e = true -> e_term e' = true)).
  { destruct (bad_same e) as (E1 & E2 & E3 & E4 & E5 & E6 & E7 & E8 & E9 & E10 & E11 & E12). cbn zeta. rewrite E12, E4, E3, E5, E11.
    repeat split. apply beginning_app, beginning_refl. }
  assert (Er : let e' := settle (on_error (set_st Closed e), false) in
     beginning (e_sent e) (e_sent e') /\ e_seen e' = e_seen e /\ e_rq e' = e_rq e /\ e_taken e' = e_taken e /\ (e_term e = true -> e_term e' = true)).
  { destruct (err_same e) as (E1 & E2 & E3 & E4 & E5 & E6 & E7 & E8 & E9 & E10 & E11 & E12). cbn zeta. rewrite E12, E4, E3, E5, E11.
    repeat split. apply beginning_refl. }
  assert (Id : beginning (e_sent e) (e_sent e)) by apply beginning_refl.
  cbn zeta in *. destruct f as [found|n|c|]; cbn [server_handle].
  - destruct (e_st e); cbn; try exact Bd. unfold push_send. cbn. destruct (e_term e) eqn:U; cbn; rewrite ?U; auto 8.
  - destruct (e_st e); cbn; try exact Bd; auto 8.
  - destruct (e_st e); cbn; try exact Bd; auto 8.
     match goal with |- context [on_finish ?c ?x] =>
       destruct (on_finish_same c x) as (E1 & E2 & E3 & E4 & E5 & E6 & E7 & E8 & E9 & E10) end. rewrite E4, E6, E8, E9, E10; cbn; auto 8.
  - destruct (e_st e); cbn; try exact Er; auto 8.
Qed.

Lemma sent_send_c m e : let e' := settle (client_send m e) in
  beginning (e_sent e) (e_sent e') /\ e_seen e' = e_seen e /\ e_rq e' = e_rq e /\ e_taken e' = e_taken e /\ (e_term e = true -> e_term e' = true) /\
  e_acc e' = e_acc e /\ e_sq e' = e_sq e.
Proof.
  assert (Bd : let e' := settle (bad_state e) in
     beginning (e_sent e) (e_sent e') /\ e_seen e' = e_seen e /\ e_rq e' = e_rq e /\ e_taken e' = e_taken e /\ (e_term e = true -> e_term e' = true) /\
     e_acc e' = e_acc e /\ e_sq e' = e_sq e).
  { destruct (bad_same e) as (E1 & E2 & E3 & E4 & E5 & E6 & E7 & E8 & E9 & E10 & E11 & E12). cbn zeta. rewrite E12, E4, E3, E5, E11, E1, E2.
    repeat split. apply beginning_app, beginning_refl. }
  assert (Id : forall x, beginning (e_sent e) (e_sent e ++ x)) by (intros; apply beginning_app, beginning_refl).
  cbn zeta in *. destruct m; cbn [client_send]; destruct (e_st e); cbn; try exact Bd; auto 10.
Qed.

Lemma sent_send_s b m e : let e' := settle (server_send b m e) in
  beginning (e_sent e) (e_sent e') /\ e_seen e' = e_seen e /\ e_rq e' = e_rq e /\ e_taken e' = e_taken e /\ (e_term e = true -> e_term e' = true) /\
  e_acc e' = e_acc e /\ e_sq e' = e_sq e.
Proof.
  assert (Bd : let e' := settle (bad_state e) in
     beginning (e_sent e) (e_sent e') /\ e_seen e' = e_seen e /\ e_rq e' = e_rq e /\ e_taken e' = e_taken e /\ (e_term e = true -> e_term e' = true) /\
     e_acc e' = e_acc e /\ e_sq e' = e_sq e).
  { destruct (bad_same e) as (E1 & E2 & E3 & E4 & E5 & E6 & E7 & E8 & E9 & E10 & E11 & E12). cbn zeta. rewrite E12, E4, E3, E5, E11, E1, E2.
    repeat split. apply beginning_app, beginning_refl. }
  assert (Id : forall x, beginning (e_sent e) (e_sent e ++ x)) by (intros; apply beginning_app, beginning_refl).
  cbn zeta in *. destruct m; cbn [server_send]; destruct (e_st e); cbn; try exact Bd; try destruct b; cbn; auto 10.
Qed.

(** The connection *)
Lemma ginv_other o o' e : ginv o e -> beginning (e_sent o) (e_sent o') -> ginv o' e.
Proof.
  intros (A & B & C) (x & E). unfold ginv. rewrite E. split; [apply beginning_app, A|]. split; [rewrite app_length; lia|].
  intros T. rewrite (C T), firstn_app. replace (e_taken e - length (e_sent o)) with 0 by lia. rewrite app_nil_r. reflexivity.
Qed.

Lemma ginv_self o e e' : ginv o e -> e_seen e' ++ e_rq e' = e_seen e ++ e_rq e -> e_taken e' = e_taken e -> (e_term e = true -> e_term e' = true) -> ginv o e'.
Proof.
  intros (A & B & C) E T M. unfold ginv. rewrite E, T. repeat split; auto. intros N. apply C. destruct (e_term e); [rewrite M in N; [discriminate|reflexivity]|reflexivity].
Qed.

Lemma firstn_S {A} (l : list A) n x : nth_error l n = Some x -> firstn (S n) l = firstn n l ++ [x].
Proof.
  revert n; induction l as [|y l IH]; intros [|n] E; cbn in *; try discriminate; [congruence|]. rewrite <- (IH n E). reflexivity.
Qed.

Lemma deliver_inv o e e' : deliver o e = Some e' -> sinv e -> rinv e -> ginv o e -> sinv e' /\ rinv e' /\ ginv o e' /\ e_sent e' = e_sent e.
Proof.
  unfold deliver. destruct (nth_error (e_sent o) (e_taken e)) as [f|] eqn:N; [|discriminate]. intros [= <-] Si R (A & B & C).
  assert (L : S (e_taken e) <= length (e_sent o)) by (apply nth_error_Some; congruence).
  unfold push_recv. cbn. destruct (e_term e) eqn:T; cbn.
  - split; [exact Si|]. split; [exact R|]. split; [|reflexivity]. split; [exact A|]. split; [exact L|]. cbn. congruence.
  - split; [exact Si|]. split; [exact R|]. split; [|reflexivity].
    assert (K : e_seen e ++ e_rq e ++ [f] = firstn (1 + e_taken e) (e_sent o)).
    { cbn [Nat.add]. rewrite (firstn_S _ _ _ N), <- (C eq_refl), app_assoc. reflexivity. }
    split; [|split; [exact L|]]; cbn.
    + rewrite K. exists (skipn (1 + e_taken e) (e_sent o)). symmetry. apply firstn_skipn.
    + intros _. exact K.
Qed.

Definition inv (w : world) : Prop :=
  sinv (cl w) /\ sinv (sv w) /\ rinv (cl w) /\ rinv (sv w) /\ ginv (sv w) (cl w) /\ ginv (cl w) (sv w).

Lemma recv_inv h o e e' : (forall f e, sinv e -> sinv (settle (h f e))) -> (forall f e, pre f e -> rinv (settle (h f e))) ->
  (forall f e, let e' := settle (h f e) in beginning (e_sent e) (e_sent e') /\ e_seen e' = e_seen e /\ e_rq e' = e_rq e /\ e_taken e' = e_taken e /\
     (e_term e = true -> e_term e' = true)) ->
  next_recv h e = Some e' -> sinv e -> rinv e -> ginv o e -> sinv e' /\ rinv e' /\ ginv o e' /\ beginning (e_sent e) (e_sent e').
Proof.
  intros H1 H2 H3. unfold next_recv. destruct (e_dead e) eqn:D; [discriminate|]. destruct (e_rq e) as [|f r] eqn:Q; [discriminate|].
  intros [= <-] S R G. set (e0 := set_seen (e_seen e ++ [f]) (set_rq r e)).
  destruct (H3 f e0) as (A & B & C & E & F). split; [apply H1, S|]. split; [|split; [|exact A]].
  - apply H2. exists (e_seen e). split; [reflexivity|]. split; [|exact D]. exact R.
  - apply (ginv_self o e); [exact G| |exact E|exact F]. rewrite B, C. unfold e0. cbn. rewrite <- app_assoc, Q. reflexivity.
Qed.

Lemma send_inv h o e e' : (forall m d e, sends d e -> sends (d ++ [m]) (settle (h m e))) -> (forall m e, rinv e -> rinv (settle (h m e))) ->
  (forall m e, let e' := settle (h m e) in beginning (e_sent e) (e_sent e') /\ e_seen e' = e_seen e /\ e_rq e' = e_rq e /\ e_taken e' = e_taken e /\
     (e_term e = true -> e_term e' = true) /\ e_acc e' = e_acc e /\ e_sq e' = e_sq e) ->
  next_send h e = Some e' -> sinv e -> rinv e -> ginv o e -> sinv e' /\ rinv e' /\ ginv o e' /\ beginning (e_sent e) (e_sent e').
Proof.
  intros H1 H2 H3. unfold next_send. destruct (e_dead e) eqn:D; [discriminate|]. destruct (e_sq e) as [|m r] eqn:Q; [discriminate|].
  intros [= <-] (d & Ea & S) R G.
  destruct (H3 m (set_sq r e)) as (A & B & C & E & F & K & L). split; [|split; [|split; [|exact A]]].
  - exists (d ++ [m]). rewrite K, L. cbn. rewrite Ea, Q, <- app_assoc. split; [reflexivity|]. apply H1, S.
  - apply H2, R.
  - apply (ginv_self o e); [exact G|rewrite B, C; reflexivity|exact E|exact F].
Qed.

Lemma push_same m e : e_sent (push_send m e) = e_sent e /\ e_seen (push_send m e) = e_seen e /\ e_rq (push_send m e) = e_rq e /\
  e_taken (push_send m e) = e_taken e /\ e_term (push_send m e) = e_term e /\ e_ok (push_send m e) = e_ok e.
Proof. unfold push_send. destruct (e_term e) eqn:T; cbn; rewrite ?T; auto 8. Qed.

Lemma push_inv m o e : sinv e -> rinv e -> ginv o e -> sinv (push_send m e) /\ rinv (push_send m e) /\ ginv o (push_send m e) /\
  beginning (e_sent e) (e_sent (push_send m e)).
Proof.
  intros S R G. destruct (push_same m e) as (E1 & E2 & E3 & E4 & E5 & E6). split; [apply acc_push, S|]. split; [|split].
  - unfold push_send. destruct (e_term e); exact R.
  - apply (ginv_self o e); [exact G|congruence|congruence|congruence].
  - rewrite E1. apply beginning_refl.
Qed.

Lemma id_inv o e : sinv e -> rinv e -> ginv o e -> sinv e /\ rinv e /\ ginv o e /\ beginning (e_sent e) (e_sent e).
Proof. intros A B C. split; [exact A|]. split; [exact B|]. split; [exact C|]. apply beginning_refl. Qed.

Lemma inv_c w e : inv w -> sinv e /\ rinv e /\ ginv (sv w) e /\ beginning (e_sent (cl w)) (e_sent e) -> inv {| cl := e; sv := sv w |}.
Proof. intros (A & B & C & D & E & F) (G & H & I & J).
  split; [exact G|]. split; [exact B|]. split; [exact H|]. split; [exact D|]. split; [exact I|]. apply (ginv_other (cl w)); assumption.
Qed.
Lemma inv_s w e : inv w -> sinv e /\ rinv e /\ ginv (cl w) e /\ beginning (e_sent (sv w)) (e_sent e) -> inv {| cl := cl w; sv := e |}.
Proof. intros (A & B & C & D & E & F) (G & H & I & J).
  split; [exact A|]. split; [exact G|]. split; [exact C|]. split; [exact H|]. split; [|exact I]. apply (ginv_other (sv w)); assumption.
Qed.

Lemma own_inv b w w' : inv w -> own_step b w w' -> inv w'.
Proof.
  intros I St. pose proof I as (A & B & C & D & E & F).
  destruct St as [e H|e H|e H|e H|e H|found e K H].
  - apply inv_c; [exact I|]. destruct (deliver_inv _ _ _ H A C E) as (P & Q & R & S). split; [exact P|]. split; [exact Q|]. split; [exact R|]. rewrite S. apply beginning_refl.
  - apply inv_s; [exact I|]. destruct (deliver_inv _ _ _ H B D F) as (P & Q & R & S). split; [exact P|]. split; [exact Q|]. split; [exact R|]. rewrite S. apply beginning_refl.
  - apply inv_c; [exact I|].
    exact (recv_inv client_handle _ _ _ client_handle_sinv client_handle_rinv sent_handle_c H A C E).
  - apply inv_c; [exact I|].
    exact (send_inv client_send _ _ _ client_send_sends client_send_rinv sent_send_c H A C E).
  - apply inv_s; [exact I|].
    exact (recv_inv server_handle _ _ _ server_handle_sinv server_handle_rinv sent_handle_s H B D F).
  - apply inv_s; [exact I|].
    exact (send_inv (server_send found) _ _ _ (server_send_sends found) (server_send_rinv found) (sent_send_s found) H B D F).
Qed.

Lemma step_inv b w w' : inv w -> step b w w' -> inv w'.
Proof.
  intros I St. pose proof I as (A & B & C & D & E & F).
  destruct St as [w' H|n H K|H K|n H K|c H K|K|K].
  - apply (own_inv b w); assumption.
  - apply inv_c; [exact I|]. unfold write. destruct (negb (e_ok (cl w))); cbn; [apply id_inv|apply push_inv]; assumption.
  - apply inv_c; [exact I|]. unfold write_done. destruct (simple_eqb (e_simple (cl w)) Error); cbn; [apply id_inv|apply push_inv]; assumption.
  - apply inv_s; [exact I|]. unfold write. destruct (negb (e_ok (sv w))); cbn; [apply id_inv|apply push_inv]; assumption.
  - apply inv_s; [exact I|]. apply push_inv; assumption.
  - apply inv_c; [exact I|]. apply push_inv; assumption.
  - apply inv_s; [exact I|]. apply push_inv; assumption.
Qed.

Lemma new_inv : inv world_new.
Proof.
  assert (Sn : sinv ep_new).
  { exists []. split; [reflexivity|]. repeat split; cbn; auto; try discriminate. apply beginning_refl. }
  assert (Rn : rinv ep_new).
  { repeat split; cbn; auto; try discriminate. apply beginning_refl. }
  split; [apply acc_push, Sn|]. split; [exact Sn|]. split; [exact Rn|]. split; [exact Rn|].
  split; (split; [apply beginning_refl|]; split; [cbn; lia|reflexivity]).
Qed.

Lemma reach_inv b w : reach b w -> inv w.
Proof. induction 1; [apply new_inv|eapply step_inv; eassumption]. Qed.

(** What arrives *)
Lemma arrives o e : sinv o -> rinv e -> ginv o e -> beginning (e_got e) (written (e_acc o)) /\ (e_eof e = true -> e_got e = before_close (e_acc o)).
Proof.
  intros (d & Ea & A & B & C) (P & Q & _) ((x & G) & _). split.
  - apply (beginning_trans _ _ _ P). rewrite <- app_assoc in G.
    apply (beginning_trans _ (fdatas (e_sent o))).
    + rewrite G, fdatas_app. apply beginning_app, beginning_refl.
    + rewrite Ea, written_app. apply beginning_app, A.
  - intros F. destruct (Q F) as [Q1 Q2]. rewrite Q2. rewrite <- app_assoc in G.
    assert (K : fclose (e_sent o) = true) by (rewrite G, fclose_app, Q1; reflexivity).
    destruct (B K) as [B1 B2]. rewrite Ea, before_close_app, B1, <- B2, G, fbefore_app, Q1. reflexivity.
Qed.

Lemma to_server b w : reach b w ->
  beginning (e_got (sv w)) (written (e_acc (cl w))) /\ (e_eof (sv w) = true -> e_got (sv w) = before_close (e_acc (cl w))).
Proof. intros R. destruct (reach_inv b w R) as (A & B & C & D & E & F). apply arrives; assumption. Qed.

Lemma to_client b w : reach b w ->
  beginning (e_got (cl w)) (written (e_acc (sv w))) /\ (e_eof (cl w) = true -> e_got (cl w) = before_close (e_acc (sv w))).
Proof. intros R. destruct (reach_inv b w R) as (A & B & C & D & E & F). apply arrives; assumption. Qed.
