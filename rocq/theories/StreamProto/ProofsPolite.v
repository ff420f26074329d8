From Coq Require Import List Arith Lia Bool.
From Verif.Lib Require Import Base.
From Verif.StreamProto Require Import Model Spec Proofs.
Import ListNotations.

(** What is on its way to an end *)
Definition flight (o e : ep) : list frame := e_rq e ++ skipn (e_taken e) (e_sent o).

Definition is (e : ep) (st : state) (si : simple) (sq : list smsg) (te hc : bool) : Prop :=
  e_st e = st /\ e_simple e = si /\ e_sq e = sq /\ e_term e = te /\ has_close (e_acc e) = hc /\ e_dead e = false /\ ~ In FReset (e_sent e) /\
  e_eof e = simple_eqb si Finished.

Inductive phase (c s : ep) (a b : list frame) : Prop :=
| P0 : is c Idle NotReady [MInit] false false -> is s Idle NotReady [] false false -> a = [] -> b = [] -> phase c s a b
| P1 : is c Init NotReady [] false false -> is s Idle NotReady [] false false -> a = [FInit true] -> b = [] -> phase c s a b
| P2 : is c Init NotReady [] false false -> is s Init NotReady [MInit] false false -> a = [] -> b = [] -> phase c s a b
| P3 ds bs : is c Init NotReady [] false false -> is s Open Ready (map MData ds) false false -> a = [] -> b = FInit true :: map FData bs -> phase c s a b
| P4 cs ds hc aa bs : is c Open Ready (map MData cs ++ if hc : bool then [MClose COk] else []) false hc -> is s Open Ready (map MData ds) false false ->
    a = map FData aa -> b = map FData bs -> phase c s a b
| P5 ds aa bs : is c LocalClosed Ready [] false true -> is s Open Ready (map MData ds) false false ->
    a = map FData aa ++ [FClose COk] -> b = map FData bs -> phase c s a b
| P6 ds hc x bs : is c LocalClosed Ready [] false true -> is s RemoteClosed Finished (map MData ds ++ if hc : bool then [MClose x] else []) false hc ->
    x <> CFw -> a = [] -> b = map FData bs -> phase c s a b
| P7 x bs : is c LocalClosed Ready [] false true -> is s Closed Finished [] true true ->
    x <> CFw -> a = [] -> b = map FData bs ++ [FClose x] -> phase c s a b
| P8 : is c Closed Finished [] true true -> is s Closed Finished [] true true -> a = [] -> b = [] -> phase c s a b.

Definition good (w : world) : Prop := phase (cl w) (sv w) (flight (cl w) (sv w)) (flight (sv w) (cl w)) /\
  e_taken (cl w) <= length (e_sent (sv w)) /\ e_taken (sv w) <= length (e_sent (cl w)).

Lemma skipn_nth {A} (l : list A) n x : nth_error l n = Some x -> skipn n l = x :: skipn (S n) l.
Proof. revert n; induction l as [|y l IH]; intros [|n] E; cbn in *; try discriminate; [congruence|]. apply IH, E. Qed.

Lemma deliver_flight o e e' : deliver o e = Some e' -> e_term e = false ->
  flight o e' = flight o e /\ e_sent e' = e_sent e /\ e_taken e' <= length (e_sent o) /\
  forall st si sq te hc, is e st si sq te hc -> is e' st si sq te hc.
Proof.
  unfold deliver, flight. destruct (nth_error (e_sent o) (e_taken e)) as [f|] eqn:N; [|discriminate]. intros [= <-] T.
  assert (L : S (e_taken e) <= length (e_sent o)) by (apply nth_error_Some; congruence).
  unfold push_recv. cbn [e_term set_taken]. rewrite T. cbn [e_rq e_taken set_rq set_taken e_sent].
  rewrite (skipn_nth _ _ _ N), <- app_assoc. split; [reflexivity|]. split; [reflexivity|]. split; [exact L|].
  intros st si sq te hc H. exact H.
Qed.

Lemma deliver_none o e e' : deliver o e = Some e' -> flight o e = [] -> False.
Proof.
  unfold deliver, flight. destruct (nth_error (e_sent o) (e_taken e)) as [f|] eqn:N; [|discriminate]. intros _ E.
  apply app_eq_nil in E. destruct E as [_ E]. rewrite (skipn_nth _ _ _ N) in E. discriminate.
Qed.

(** A frame sent is on its way. *)
Lemma flight_sent o o' e f : e_sent o' = e_sent o ++ [f] -> e_taken e <= length (e_sent o) -> flight o' e = flight o e ++ [f].
Proof.
  intros E L. unfold flight. rewrite E, skipn_app. replace (e_taken e - length (e_sent o)) with 0 by lia. rewrite app_assoc. reflexivity.
Qed.
Lemma flight_same o o' e e' : e_sent o' = e_sent o -> e_rq e' = e_rq e -> e_taken e' = e_taken e -> flight o' e' = flight o e.
Proof. intros E F G. unfold flight. congruence. Qed.

Lemma not_reset l f : ~ In FReset l -> f <> FReset -> ~ In FReset (l ++ [f]).
Proof. intros A B C. apply in_app_or in C. destruct C as [C|[C|[]]]; auto. Qed.

(** The first frame on its way is the first one of the queue. *)
Lemma recv_cases h e e' : next_recv h e = Some e' -> exists f r, e_rq e = f :: r /\ e_dead e = false /\
  e' = settle (h f (set_seen (e_seen e ++ [f]) (set_rq r e))).
Proof.
  unfold next_recv. destruct (e_dead e); [discriminate|]. destruct (e_rq e) as [|f r]; [discriminate|]. intros [= <-]. eauto 6.
Qed.
Lemma send_cases h e e' : next_send h e = Some e' -> exists m r, e_sq e = m :: r /\ e_dead e = false /\ e' = settle (h m (set_sq r e)).
Proof.
  unfold next_send. destruct (e_dead e); [discriminate|]. destruct (e_sq e) as [|f r]; [discriminate|]. intros [= <-]. eauto 6.
Qed.

Ltac brk := repeat match goal with H : is _ _ _ _ _ _ |- _ => unfold is in H; decompose [and] H; clear H end.
Ltac isq := repeat split; cbn; auto; try congruence; try (apply not_reset; [assumption|discriminate]).

(** Deliveries *)
Lemma good_deliver_c w e : good w -> deliver (sv w) (cl w) = Some e -> good {| cl := e; sv := sv w |}.
Proof.
  intros (P & L1 & L2) H.
  assert (T : e_term (cl w) = false \/ flight (sv w) (cl w) = []) by (destruct P; brk; auto).
  destruct T as [T|T]; [|destruct (deliver_none _ _ _ H T)].
  destruct (deliver_flight _ _ _ H T) as (F & S & L & I).
  split; [|cbn; rewrite S; auto]. cbn [cl sv]. rewrite F.
  replace (flight e (sv w)) with (flight (cl w) (sv w)) by (unfold flight; rewrite S; reflexivity).
  destruct P; [eapply P0|eapply P1|eapply P2|eapply P3|eapply P4|eapply P5|eapply P6|eapply P7|eapply P8]; eauto.
Qed.

Lemma good_deliver_s w e : good w -> deliver (cl w) (sv w) = Some e -> good {| cl := cl w; sv := e |}.
Proof.
  intros (P & L1 & L2) H.
  assert (T : e_term (sv w) = false \/ flight (cl w) (sv w) = []) by (destruct P; brk; auto).
  destruct T as [T|T]; [|destruct (deliver_none _ _ _ H T)].
  destruct (deliver_flight _ _ _ H T) as (F & S & L & I).
  split; [|cbn; rewrite S; auto]. cbn [cl sv]. rewrite F.
  replace (flight e (cl w)) with (flight (sv w) (cl w)) by (unfold flight; rewrite S; reflexivity).
  destruct P; [eapply P0|eapply P1|eapply P2|eapply P3|eapply P4|eapply P5|eapply P6|eapply P7|eapply P8]; eauto.
Qed.

(** Received frames *)
Lemma flight_recv o e f r e' : e_rq e = f :: r -> e_rq e' = r -> e_taken e' = e_taken e -> flight o e = f :: flight o e'.
Proof. intros A B C. unfold flight. rewrite A, B, C. reflexivity. Qed.

Lemma good_recv_c w e : good w -> next_recv client_handle (cl w) = Some e -> good {| cl := e; sv := sv w |}.
Proof.
  intros (P & L1 & L2) H. destruct (recv_cases _ _ _ H) as (f & r & Q & D & E). clear H.
  destruct (sent_handle_c f (set_seen (e_seen (cl w) ++ [f]) (set_rq r (cl w)))) as (_ & _ & Eq & Et & _). rewrite <- E in Eq, Et. cbn in Eq, Et.
  pose proof (flight_recv (sv w) _ _ _ _ Q Eq Et) as F.
  assert (K : e_sent e = e_sent (cl w) /\ phase e (sv w) (flight (cl w) (sv w)) (flight (sv w) e)).
  { destruct P as [C S A B|C S A B|C S A B|ds bs C S A B|cs ds hc aa bs C S A B|ds aa bs C S A B|ds hc x bs C S X A B|x bs C S X A B|C S A B];
    rewrite B in F; try discriminate.
    - injection F as <- F. destruct C as (Ha & Hb & Hc & Hd & He & Hf & Hg & Hh). cbn [client_handle] in E. cbn [set_seen set_rq e_st] in E. rewrite Ha in E.
      cbn in E. subst e. split; [reflexivity|]. apply (P4 _ _ _ _ [] ds false [] bs); auto. isq.
    - destruct bs as [|n bs]; [discriminate|]. injection F as <- F. destruct C as (Ha & Hb & Hc & Hd & He & Hf & Hg & Hh). cbn [client_handle] in E.
      cbn [set_seen set_rq e_st] in E. rewrite Ha in E. cbn in E. subst e. split; [reflexivity|]. apply (P4 _ _ _ _ cs ds hc aa bs); auto. isq.
    - destruct bs as [|n bs]; [discriminate|]. injection F as <- F. destruct C as (Ha & Hb & Hc & Hd & He & Hf & Hg & Hh). cbn [client_handle] in E.
      cbn [set_seen set_rq e_st] in E. rewrite Ha in E. cbn in E. subst e. split; [reflexivity|]. apply (P5 _ _ _ _ ds aa bs); auto. isq.
    - destruct bs as [|n bs]; [discriminate|]. injection F as <- F. destruct C as (Ha & Hb & Hc & Hd & He & Hf & Hg & Hh). cbn [client_handle] in E.
      cbn [set_seen set_rq e_st] in E. rewrite Ha in E. cbn in E. subst e. split; [reflexivity|]. apply (P6 _ _ _ _ ds hc x bs); auto. isq.
    - destruct bs as [|n bs].
      + injection F as <- F. destruct C as (Ha & Hb & Hc & Hd & He & Hf & Hg & Hh). cbn [client_handle] in E.
        cbn [set_seen set_rq e_st] in E. rewrite Ha in E. cbn in E. unfold on_finish in E. cbn in E. rewrite Hb in E.
        destruct x; cbn in E; [| |congruence]; subst e; (split; [reflexivity|]; apply P8; auto; isq).
      + injection F as <- F. destruct C as (Ha & Hb & Hc & Hd & He & Hf & Hg & Hh). cbn [client_handle] in E.
        cbn [set_seen set_rq e_st] in E. rewrite Ha in E. cbn in E. subst e. split; [reflexivity|]. apply (P7 _ _ _ _ x bs); auto. isq. }
  destruct K as [K1 K2]. split; [|cbn; rewrite Et, K1; auto]. cbn [cl sv].
  replace (flight e (sv w)) with (flight (cl w) (sv w)) by (unfold flight; rewrite K1; reflexivity). exact K2.
Qed.

Lemma good_recv_s w e : good w -> next_recv server_handle (sv w) = Some e -> good {| cl := cl w; sv := e |}.
Proof.
  intros (P & L1 & L2) H. destruct (recv_cases _ _ _ H) as (f & r & Q & D & E). clear H.
  destruct (sent_handle_s f (set_seen (e_seen (sv w) ++ [f]) (set_rq r (sv w)))) as (_ & _ & Eq & Et & _). rewrite <- E in Eq, Et. cbn in Eq, Et.
  pose proof (flight_recv (cl w) _ _ _ _ Q Eq Et) as F.
  assert (K : e_sent e = e_sent (sv w) /\ phase (cl w) e (flight (cl w) e) (flight (sv w) (cl w))).
  { destruct P as [C S A B|C S A B|C S A B|ds bs C S A B|cs ds hc aa bs C S A B|ds aa bs C S A B|ds hc x bs C S X A B|x bs C S X A B|C S A B];
    rewrite A in F; try discriminate.
    - injection F as <- F. destruct S as (Ha & Hb & Hc & Hd & He & Hf & Hg & Hh). cbn [server_handle] in E. cbn [set_seen set_rq e_st] in E. rewrite Ha in E.
      cbn in E. unfold push_send in E. cbn in E. rewrite Hd in E. subst e. split; [reflexivity|]. apply P2; auto.
      repeat split; cbn; auto; [rewrite Hc; reflexivity|rewrite has_close_app, He; reflexivity].
    - destruct aa as [|n aa]; [discriminate|]. injection F as <- F. destruct S as (Ha & Hb & Hc & Hd & He & Hf & Hg & Hh). cbn [server_handle] in E.
      cbn [set_seen set_rq e_st] in E. rewrite Ha in E. cbn in E. subst e. split; [reflexivity|]. apply (P4 _ _ _ _ cs ds hc aa bs); auto. isq.
    - destruct aa as [|n aa].
      + injection F as <- F. destruct S as (Ha & Hb & Hc & Hd & He & Hf & Hg & Hh). cbn [server_handle] in E.
        cbn [set_seen set_rq e_st] in E. rewrite Ha in E. cbn in E. unfold on_finish in E. cbn in E. rewrite Hb in E. cbn in E. subst e.
        split; [reflexivity|]. apply (P6 _ _ _ _ ds false COk bs); auto; [rewrite app_nil_r; isq|discriminate].
      + injection F as <- F. destruct S as (Ha & Hb & Hc & Hd & He & Hf & Hg & Hh). cbn [server_handle] in E.
        cbn [set_seen set_rq e_st] in E. rewrite Ha in E. cbn in E. subst e. split; [reflexivity|]. apply (P5 _ _ _ _ ds aa bs); auto. isq. }
  destruct K as [K1 K2]. split; [|cbn; rewrite Et, K1; auto]. cbn [cl sv].
  replace (flight e (cl w)) with (flight (sv w) (cl w)) by (unfold flight; rewrite K1; reflexivity). exact K2.
Qed.

(** Messages sent *)
Lemma good_send_c w e : good w -> next_send client_send (cl w) = Some e -> good {| cl := e; sv := sv w |}.
Proof.
  intros (P & L1 & L2) H. destruct (send_cases _ _ _ H) as (m & r & Q & D & E). clear H.
  destruct (sent_send_c m (set_sq r (cl w))) as (_ & _ & Eq & Et & _). rewrite <- E in Eq, Et. cbn in Eq, Et.
  assert (K : exists f, e_sent e = e_sent (cl w) ++ [f] /\ phase e (sv w) (flight (cl w) (sv w) ++ [f]) (flight (sv w) (cl w))).
  { destruct P as [C S A B|C S A B|C S A B|ds bs C S A B|cs ds hc aa bs C S A B|ds aa bs C S A B|ds hc x bs C S X A B|x bs C S X A B|C S A B];
    destruct C as (Ha & Hb & Hc & Hd & He & Hf & Hg & Hh); rewrite Hc in Q; try discriminate.
    - injection Q as <- <-. cbn in E. rewrite Ha in E. cbn in E. subst e. eexists. split; [reflexivity|]. rewrite A. apply P1; auto. isq.
    - destruct cs as [|n cs].
      + destruct hc; [|discriminate]. injection Q as <- <-. cbn in E. rewrite Ha in E. cbn in E. subst e. eexists. split; [reflexivity|]. rewrite A.
        apply (P5 _ _ _ _ ds aa bs); auto. isq.
      + injection Q as <- <-. cbn in E. rewrite Ha in E. cbn in E. subst e. eexists. split; [reflexivity|]. rewrite A.
        apply (P4 _ _ _ _ cs ds hc (aa ++ [n]) bs); auto; [isq|rewrite map_app; reflexivity]. }
  destruct K as (f & K1 & K2). split; [|cbn; rewrite Et, K1, app_length; lia]. cbn [cl sv].
  rewrite (flight_sent (cl w) e (sv w) f K1 L2), (flight_same (sv w) (sv w) (cl w) e eq_refl Eq Et). exact K2.
Qed.

Lemma good_send_s w e : good w -> next_send (server_send true) (sv w) = Some e -> good {| cl := cl w; sv := e |}.
Proof.
  intros (P & L1 & L2) H. destruct (send_cases _ _ _ H) as (m & r & Q & D & E). clear H.
  destruct (sent_send_s true m (set_sq r (sv w))) as (_ & _ & Eq & Et & _). rewrite <- E in Eq, Et. cbn in Eq, Et.
  assert (K : exists f, e_sent e = e_sent (sv w) ++ [f] /\ phase (cl w) e (flight (cl w) (sv w)) (flight (sv w) (cl w) ++ [f])).
  { destruct P as [C S A B|C S A B|C S A B|ds bs C S A B|cs ds hc aa bs C S A B|ds aa bs C S A B|ds hc x bs C S X A B|x bs C S X A B|C S A B];
    destruct S as (Ha & Hb & Hc & Hd & He & Hf & Hg & Hh); rewrite Hc in Q; try discriminate.
    - injection Q as <- <-. cbn in E. rewrite Ha in E. cbn in E. subst e. eexists. split; [reflexivity|]. rewrite B.
      apply (P3 _ _ _ _ [] []); auto. isq.
    - destruct ds as [|n ds]; [discriminate|]. injection Q as <- <-. cbn in E. rewrite Ha in E. cbn in E. subst e. eexists. split; [reflexivity|].
      rewrite B. apply (P3 _ _ _ _ ds (bs ++ [n])); auto; [isq|rewrite map_app; reflexivity].
    - destruct ds as [|n ds]; [discriminate|]. injection Q as <- <-. cbn in E. rewrite Ha in E. cbn in E. subst e. eexists. split; [reflexivity|].
      rewrite B. apply (P4 _ _ _ _ cs ds hc aa (bs ++ [n])); auto; [isq|rewrite map_app; reflexivity].
    - destruct ds as [|n ds]; [discriminate|]. injection Q as <- <-. cbn in E. rewrite Ha in E. cbn in E. subst e. eexists. split; [reflexivity|].
      rewrite B. apply (P5 _ _ _ _ ds aa (bs ++ [n])); auto; [isq|rewrite map_app; reflexivity].
    - destruct ds as [|n ds].
      + destruct hc; [|discriminate]. injection Q as <- <-. cbn in E. rewrite Ha in E. cbn in E. subst e. eexists. split; [reflexivity|].
        rewrite B. apply (P7 _ _ _ _ x bs); auto. isq.
      + injection Q as <- <-. cbn in E. rewrite Ha in E. cbn in E. subst e. eexists. split; [reflexivity|].
        rewrite B. apply (P6 _ _ _ _ ds hc x (bs ++ [n])); auto; [isq|rewrite map_app; reflexivity]. }
  destruct K as (f & K1 & K2). split; [|cbn; rewrite Et, K1, app_length; lia]. cbn [cl sv].
  rewrite (flight_sent (sv w) e (cl w) f K1 L1), (flight_same (cl w) (cl w) (sv w) e eq_refl Eq Et). exact K2.
Qed.

(** The users *)
Lemma push_is m e st si sq te hc : is e st si sq te hc ->
  is (push_send m e) st si (if te then sq else sq ++ [m]) te (if te then hc else hc || match m with MClose _ => true | _ => false end).
Proof.
  unfold is. intros (A & B & C & D & E & F & G & H). unfold push_send. rewrite D. destruct te; cbn; [repeat split; auto|].
  repeat split; auto; [congruence|]. rewrite has_close_app, E. destruct m; reflexivity.
Qed.

Lemma is_hc e st si sq te hc : is e st si sq te hc -> has_close (e_acc e) = hc.
Proof. intros H. apply H. Qed.

Lemma good_same w w' : good w -> e_sent (cl w') = e_sent (cl w) -> e_sent (sv w') = e_sent (sv w) -> e_taken (cl w') = e_taken (cl w) ->
  e_taken (sv w') = e_taken (sv w) -> e_rq (cl w') = e_rq (cl w) -> e_rq (sv w') = e_rq (sv w) ->
  (phase (cl w) (sv w) (flight (cl w) (sv w)) (flight (sv w) (cl w)) -> phase (cl w') (sv w') (flight (cl w) (sv w)) (flight (sv w) (cl w))) -> good w'.
Proof.
  intros (P & L1 & L2) E1 E2 E3 E4 E5 E6 H. split; [|rewrite E1, E2, E3, E4; auto].
  rewrite (flight_same (cl w) (cl w') (sv w) (sv w')), (flight_same (sv w) (sv w') (cl w) (cl w')); auto.
Qed.

Lemma good_push_c w m : good w -> e_simple (cl w) <> NotReady -> has_close (e_acc (cl w)) = false ->
  (exists n, m = MData n) \/ m = MClose COk -> good {| cl := push_send m (cl w); sv := sv w |}.
Proof.
  intros G N C M. destruct (push_same m (cl w)) as (E1 & E2 & E3 & E4 & E5 & E6).
  apply (good_same w); auto. cbn. intros P.
  destruct P as [I S A B|I S A B|I S A B|ds bs I S A B|cs ds hc aa bs I S A B|ds aa bs I S A B|ds hc x bs I S X A B|x bs I S X A B|I S A B];
    pose proof (is_hc _ _ _ _ _ _ I) as K; rewrite K in C; try discriminate; try (destruct I as (_ & I & _); congruence).
  subst hc. pose proof (push_is m _ _ _ _ _ _ I) as J. cbn in J. rewrite app_nil_r in J. destruct M as [(n & ->)| ->]; cbn in J.
  - apply (P4 _ _ _ _ (cs ++ [n]) ds false aa bs); auto. rewrite map_app, app_nil_r. exact J.
  - apply (P4 _ _ _ _ cs ds true aa bs); auto.
Qed.

Lemma good_push_s w m : good w -> e_simple (sv w) <> NotReady -> has_close (e_acc (sv w)) = false ->
  (exists n, m = MData n) \/ e_eof (sv w) = true /\ (exists x, m = MClose x /\ x <> CFw) -> good {| cl := cl w; sv := push_send m (sv w) |}.
Proof.
  intros G N C M. destruct (push_same m (sv w)) as (E1 & E2 & E3 & E4 & E5 & E6).
  apply (good_same w); auto. cbn. intros P.
  destruct P as [S I A B|S I A B|S I A B|ds bs S I A B|cs ds hc aa bs S I A B|ds aa bs S I A B|ds hc x bs S I X A B|x bs S I X A B|S I A B];
    pose proof (is_hc _ _ _ _ _ _ I) as K; rewrite K in C; try discriminate; try (destruct I as (_ & I & _); congruence);
    pose proof (push_is m _ _ _ _ _ _ I) as J; cbn in J; (destruct M as [(n & ->)|(Eo & y & -> & Y)]; cbn in J;
      [|try (destruct I as (_ & _ & _ & _ & _ & _ & _ & I); cbn in I; congruence)]).
  - apply (P3 _ _ _ _ (ds ++ [n]) bs); auto. rewrite map_app. exact J.
  - apply (P4 _ _ _ _ cs (ds ++ [n]) hc aa bs); auto. rewrite map_app. exact J.
  - apply (P5 _ _ _ _ (ds ++ [n]) aa bs); auto. rewrite map_app. exact J.
  - subst hc. rewrite app_nil_r in J. apply (P6 _ _ _ _ (ds ++ [n]) false x bs); auto. rewrite map_app, app_nil_r. exact J.
  - subst hc. rewrite app_nil_r in J. apply (P6 _ _ _ _ ds true y bs); auto.
Qed.

Lemma step_good w w' : good w -> step true w w' -> good w'.
Proof.
  intros G St. destruct St as [w' [e H|e H|e H|e H|e H|found e K H]|n H K|H K|n H K|c H K|K|K]; try discriminate.
  - apply good_deliver_c; assumption.
  - apply good_deliver_s; assumption.
  - apply good_recv_c; assumption.
  - apply good_send_c; assumption.
  - apply good_recv_s; assumption.
  - rewrite (K eq_refl) in H. apply good_send_s; assumption.
  - unfold write. destruct (negb (e_ok (cl w))); cbn; [destruct w; exact G|apply good_push_c; eauto].
  - unfold write_done. destruct (simple_eqb (e_simple (cl w)) Error); cbn; [destruct w; exact G|apply good_push_c; eauto].
  - unfold write. destruct (negb (e_ok (sv w))); cbn; [destruct w; exact G|apply good_push_s; eauto].
  - destruct (K eq_refl) as (K1 & K2 & K3). apply good_push_s; eauto 6.
Qed.

Lemma new_good : good world_new.
Proof. split; [|cbn; lia]. apply P0; try reflexivity; repeat split; cbn; auto. Qed.

Lemma reach_good w : reach true w -> good w.
Proof. induction 1; [apply new_good|eapply step_good; eassumption]. Qed.

Lemma is_fine e st si sq te hc : is e st si sq te hc -> si <> Error -> fine e.
Proof. intros (A & B & C & D & E & F & G & H) N. split; [congruence|]. split; assumption. Qed.

Lemma polite_fine w : reach true w -> fine (cl w) /\ fine (sv w).
Proof.
  intros R. destruct (reach_good w R) as (P & _).
  destruct P; split; eapply is_fine; try eassumption; discriminate.
Qed.

(** When nothing moves any more *)
Lemma stuck_flight w : reach true w -> (forall w', ~ own_step true w w') -> flight (sv w) (cl w) = [] /\ flight (cl w) (sv w) = [] /\
  e_sq (cl w) = [] /\ e_sq (sv w) = [].
Proof.
  intros R N. destruct (polite_fine w R) as ((_ & D1 & _) & (_ & D2 & _)).
  assert (K : forall o e, deliver o e = None -> e_rq e = [] -> flight o e = []).
  { intros o e H Q. unfold flight. rewrite Q. unfold deliver in H. destruct (nth_error (e_sent o) (e_taken e)) eqn:E; [discriminate|].
    apply nth_error_None in E. apply skipn_all2. exact E. }
  assert (Q1 : e_rq (cl w) = []).
  { destruct (next_recv client_handle (cl w)) as [e|] eqn:H; [destruct (N _ (W_recv_c true w e H))|].
    unfold next_recv in H. rewrite D1 in H. destruct (e_rq (cl w)); [reflexivity|discriminate]. }
  assert (Q2 : e_rq (sv w) = []).
  { destruct (next_recv server_handle (sv w)) as [e|] eqn:H; [destruct (N _ (W_recv_s true w e H))|].
    unfold next_recv in H. rewrite D2 in H. destruct (e_rq (sv w)); [reflexivity|discriminate]. }
  repeat split.
  - apply K; [|exact Q1]. destruct (deliver (sv w) (cl w)) as [e|] eqn:H; [destruct (N _ (W_deliver_c true w e H))|reflexivity].
  - apply K; [|exact Q2]. destruct (deliver (cl w) (sv w)) as [e|] eqn:H; [destruct (N _ (W_deliver_s true w e H))|reflexivity].
  - destruct (next_send client_send (cl w)) as [e|] eqn:H; [destruct (N _ (W_send_c true w e H))|].
    unfold next_send in H. rewrite D1 in H. destruct (e_sq (cl w)); [reflexivity|discriminate].
  - destruct (next_send (server_send true) (sv w)) as [e|] eqn:H; [destruct (N _ (W_send_s true w true e (fun _ => eq_refl) H))|].
    unfold next_send in H. rewrite D2 in H. destruct (e_sq (sv w)); [reflexivity|discriminate].
Qed.

Lemma polite_end w : reach true w -> (forall w', ~ own_step true w w') ->
  e_simple (cl w) <> NotReady /\ e_simple (sv w) <> NotReady /\
  (has_close (e_acc (cl w)) = true -> e_eof (sv w) = true /\ e_got (sv w) = before_close (e_acc (cl w))) /\
  (has_close (e_acc (cl w)) = true -> has_close (e_acc (sv w)) = true ->
     e_st (cl w) = Closed /\ e_st (sv w) = Closed /\ e_eof (cl w) = true /\ e_got (cl w) = before_close (e_acc (sv w))).
Proof.
  intros R N. destruct (stuck_flight w R N) as (F1 & F2 & S1 & S2). destruct (reach_good w R) as (P & _).
  destruct (to_server true w R) as [_ T1]. destruct (to_client true w R) as [_ T2].
  destruct P as [I S A B|I S A B|I S A B|ds bs I S A B|cs ds hc aa bs I S A B|ds aa bs I S A B|ds hc x bs I S X A B|x bs I S X A B|I S A B];
    rewrite F1 in B; rewrite F2 in A; try discriminate; try (destruct aa; discriminate); try (destruct bs; discriminate);
    unfold is in I, S; destruct I as (I1 & I2 & I3 & I4 & I5 & I6 & I7 & I8); destruct S as (J1 & J2 & J3 & J4 & J5 & J6 & J7 & J8);
    rewrite I2, J2, I5, J5; try (rewrite S1 in I3; discriminate); try (rewrite S2 in J3; discriminate).
  - rewrite S1 in I3. destruct hc; [destruct cs; discriminate|]. repeat split; discriminate.
  - cbn in J8. rewrite S2 in J3. destruct hc; [destruct ds; discriminate|]. repeat split; auto; discriminate.
  - cbn in J8, I8. repeat split; auto; discriminate.
Qed.
