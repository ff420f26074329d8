From Coq Require Import List Bool Arith Lia.
From Verif.SeqLock Require Import Model Spec Proofs.
Import ListNotations.

Lemma the_inv M q v0 ps s : M <> 0 -> Nat.even M = true -> Nat.even q = true -> q < M -> sized v0 ps ->
  reach M (start q v0 ps) s -> inv M q v0 ps s.
Proof. intros A B C D E R. apply reach_inv; assumption. Qed.

Lemma exclusive M q v0 ps s i j t u : M <> 0 -> Nat.even M = true -> Nat.even q = true -> q < M -> sized v0 ps ->
  reach M (start q v0 ps) s -> nth_error (ths s) i = Some t -> nth_error (ths s) j = Some u -> writing (at_ t) -> writing (at_ u) -> i = j.
Proof.
  intros A B C D E R Hi Hj Wi Wj. pose proof (the_inv _ _ _ _ _ A B C D E R) as I. pose proof (i_own _ _ _ _ _ I _ _ Hi Wi).
  pose proof (i_own _ _ _ _ _ I _ _ Hj Wj). congruence.
Qed.
Lemma consistent M q v0 ps s i t got e e' : M <> 0 -> Nat.even M = true -> Nat.even q = true -> q < M -> sized v0 ps ->
  reach M (start q v0 ps) s -> nth_error (ths s) i = Some t -> In (got, e, e') (seen t) -> e' - e < M ->
  e = e' /\ nth_error (vers s) (e / 2) = Some got.
Proof.
  intros A B C D E R Hi. pose proof (the_inv _ _ _ _ _ A B C D E R) as I. destruct (i_th _ _ _ _ _ I _ _ Hi) as (_ & T & _). apply T.
Qed.
Lemma current M q v0 ps s i t r e got : M <> 0 -> Nat.even M = true -> Nat.even q = true -> q < M -> sized v0 ps ->
  reach M (start q v0 ps) s -> nth_error (ths s) i = Some t -> at_ t = RLoad r e got -> length got = length (mem s) -> seq s = r -> incs s - e < M ->
  got = mem s /\ forall j u, nth_error (ths s) j = Some u -> ~ storing (at_ u).
Proof.
  intros A B C D E R Hi P L Er X. pose proof (the_inv _ _ _ _ _ A B C D E R) as I. destruct (i_th _ _ _ _ _ I _ _ Hi) as (_ & _ & T).
  rewrite P in T. destruct T as (R1 & R2 & R3 & R4 & R5). rewrite (i_seq _ _ _ _ _ I), R1 in Er.
  assert (Y : e = incs s). { assert (q + e = q + incs s); [|lia]. apply (mod_close M); auto; lia. }
  split; [rewrite (R5 (eq_sym Y)), L, firstn_all; reflexivity|]. intros j u Hj S1. destruct (i_th _ _ _ _ _ I _ _ Hj) as (_ & _ & T).
  destruct (at_ u); try contradiction. destruct T as (_ & T & _). congruence.
Qed.
(** ** How often the counter is incremented *)
Definition due (t : th) : nat := 2 * length (writes (todo t)) + match at_ t with WBegin _ => 2 | WStore _ _ => 1 | _ => 0 end.
Fixpoint dues (l : list th) : nat := match l with [] => 0 | t :: r => due t + dues r end.
Lemma dues_set i t u l : nth_error l i = Some t -> dues (set_nth i u l) + due t = dues l + due u.
Proof. revert i. induction l as [|a l IH]; intros [|i] H; cbn in *; try discriminate; [injection H as ->; lia|]. apply IH in H. lia. Qed.
Definition old (s : st) : Prop := forall t g e e', In t (ths s) -> In (g, e, e') (seen t) -> e' <= incs s.
Lemma in_set {A} i (x y : A) l : In y (set_nth i x l) -> y = x \/ In y l.
Proof. revert i. induction l as [|a l IH]; intros [|i] H; cbn in *; auto; destruct H as [H|H]; auto. destruct (IH _ H); auto. Qed.
Lemma old_put s s1 i t' : old s -> ths s1 = ths s -> incs s <= incs s1 -> (forall g e e', In (g, e, e') (seen t') -> e' <= incs s1) -> old (put i t' s1).
Proof.
  intros O1 E L H t g e e' Ht Hs. cbn [put ths incs] in *. rewrite E in Ht. apply in_set in Ht. destruct Ht as [->|Ht]; [eauto|].
  specialize (O1 _ _ _ _ Ht Hs). lia.
Qed.
Lemma step_due M i s s' : old s -> step M i s = Some s' -> incs s' + dues (ths s') = incs s + dues (ths s) /\ old s'.
Proof.
  intros O1 H. unfold step in H. destruct (nth_error (ths s) i) as [t|] eqn:Ht; [|discriminate].
  assert (O2 : forall g e e', In (g, e, e') (seen t) -> e' <= incs s) by (intros; eapply O1; eauto; eapply nth_error_In; eauto).
  assert (D : forall u, dues (set_nth i u (ths s)) + due t = dues (ths s) + due u) by (intro; apply dues_set; exact Ht).
  destruct (at_ t) eqn:P.
  - destruct (todo t) as [|[v|] r] eqn:T; [discriminate|destruct (owner s); [discriminate|]|]; injection H as <-.
    + split; [|apply (old_put s); [exact O1|reflexivity|cbn; lia|intros g a b Hin; apply O2 in Hin; cbn; lia]]. cbn [put set_owner ths incs]. match goal with |- _ + dues (set_nth i ?u _) = _ => specialize (D u) end.
      unfold due in D. rewrite P, T in D. cbn [todo at_ writes length] in D. lia.
    + split; [|apply (old_put s); [exact O1|reflexivity|cbn; lia|intros g a b Hin; apply O2 in Hin; cbn; lia]]. cbn [put set_owner ths incs]. match goal with |- _ + dues (set_nth i ?u _) = _ => specialize (D u) end.
      unfold due in D. rewrite P, T in D. cbn [todo at_ writes length] in D. lia.
  - injection H as <-. split; [|apply (old_put s); [exact O1|reflexivity|cbn; lia|intros g a b Hin; apply O2 in Hin; cbn; lia]]. cbn [put incr ths incs]. match goal with |- _ + dues (set_nth i ?u _) = _ => specialize (D u) end.
    unfold due in D. rewrite P in D. cbn [go todo at_] in D. lia.
  - destruct (k <? length (mem s)); injection H as <-.
    + split; [|apply (old_put s); [exact O1|reflexivity|cbn; lia|intros g a b Hin; apply O2 in Hin; cbn; lia]]. cbn [put set_mem ths incs]. match goal with |- _ + dues (set_nth i ?u _) = _ => specialize (D u) end.
      unfold due in D. rewrite P in D. cbn [go todo at_] in D. lia.
    + split; [|apply (old_put s); [exact O1|reflexivity|cbn; lia|intros g a b Hin; apply O2 in Hin; cbn; lia]]. cbn [put log incr ths incs]. match goal with |- _ + dues (set_nth i ?u _) = _ => specialize (D u) end.
      unfold due in D. rewrite P in D. cbn [go todo at_] in D. lia.
  - injection H as <-. split; [|apply (old_put s); [exact O1|reflexivity|cbn; lia|intros g a b Hin; apply O2 in Hin; cbn; lia]]. cbn [put set_owner ths incs]. match goal with |- _ + dues (set_nth i ?u _) = _ => specialize (D u) end.
    unfold due in D. rewrite P in D. cbn [go todo at_] in D. lia.
  - destruct (Nat.odd (seq s)); injection H as <-; [auto|]. split; [|apply (old_put s); [exact O1|reflexivity|cbn; lia|intros g a b Hin; apply O2 in Hin; cbn; lia]]. cbn [put ths incs].
    match goal with |- _ + dues (set_nth i ?u _) = _ => specialize (D u) end. unfold due in D. rewrite P in D. cbn [go todo at_] in D. lia.
  - destruct (length got <? length (mem s)); [|destruct (seq s =? r)]; injection H as <-.
    + split; [|apply (old_put s); [exact O1|reflexivity|cbn; lia|intros g a b Hin; apply O2 in Hin; cbn; lia]]. cbn [put ths incs].
      match goal with |- _ + dues (set_nth i ?u _) = _ => specialize (D u) end. unfold due in D. rewrite P in D. cbn [go todo at_] in D. lia.
    + split; [|eapply old_put; eauto; cbn [seen]; intros g a b Hin; apply in_app_or in Hin; destruct Hin as [Hin|[Hin|[]]]; [eauto|injection Hin as _ _ <-; lia]].
      cbn [put ths incs]. match goal with |- _ + dues (set_nth i ?u _) = _ => specialize (D u) end. unfold due in D. rewrite P in D. cbn [go todo at_] in D. lia.
    + split; [|apply (old_put s); [exact O1|reflexivity|cbn; lia|intros g a b Hin; apply O2 in Hin; cbn; lia]]. cbn [put ths incs].
      match goal with |- _ + dues (set_nth i ?u _) = _ => specialize (D u) end. unfold due in D. rewrite P in D. cbn [go todo at_] in D. lia.
Qed.
Lemma start_due ps : dues (map (fun p => {| todo := p; at_ := Idle; seen := [] |}) ps) = 2 * length (written ps).
Proof. unfold written. induction ps as [|p ps IH]; [reflexivity|]. cbn [map dues flat_map]. rewrite IH, app_length. unfold due. cbn [todo at_]. lia. Qed.
Lemma reach_due M q v0 ps s : reach M (start q v0 ps) s -> incs s + dues (ths s) = 2 * length (written ps) /\ old s.
Proof.
  intro R. induction R.
  - split; [cbn [start incs ths]; rewrite start_due; reflexivity|]. intros t g e e' Ht Hs. cbn [start ths] in Ht. apply in_map_iff in Ht.
    destruct Ht as (p & <- & _). destruct Hs.
  - destruct IHR as [A B]. destruct (step_due _ _ _ _ B H) as [C D]. split; [lia|exact D].
Qed.
Lemma snapshot M q v0 ps s i t x : M <> 0 -> Nat.even M = true -> Nat.even q = true -> q < M -> sized v0 ps -> 2 * length (written ps) < M ->
  reach M (start q v0 ps) s -> nth_error (ths s) i = Some t -> In x (snaps t) -> x = v0 \/ In x (written ps).
Proof.
  intros A B C D E F R Hi Hx. unfold snaps in Hx. apply in_map_iff in Hx. destruct Hx as ([[g e] e'] & <- & Hs). cbn.
  destruct (reach_due _ _ _ _ _ R) as [G O1]. specialize (O1 t g e e' (nth_error_In _ _ Hi) Hs).
  destruct (consistent _ _ _ _ _ _ _ _ _ _ A B C D E R Hi Hs) as [_ N]; [lia|]. apply nth_error_In in N.
  apply (i_ver _ _ _ _ _ (the_inv _ _ _ _ _ A B C D E R)). exact N.
Qed.

(** ** Who waits for whom *)
Lemma writer_goes M s i t : nth_error (ths s) i = Some t -> writing (at_ t) -> step M i s <> None.
Proof. intros H W. unfold step. rewrite H. destruct (at_ t); try contradiction; try discriminate. destruct (k <? length (mem s)); discriminate. Qed.
Lemma reader_goes M s i t : nth_error (ths s) i = Some t -> at_ t = RBegin \/ (exists r e g, at_ t = RLoad r e g) -> step M i s <> None.
Proof.
  intros H W. unfold step. rewrite H. destruct W as [->|(r & e & g & ->)]; [destruct (Nat.odd (seq s)); discriminate|].
  destruct (length g <? length (mem s)); [discriminate|]. destruct (seq s =? r); discriminate.
Qed.
Lemma put_get i t s u : nth_error (ths s) i = Some u -> nth_error (ths (put i t s)) i = Some t.
Proof. apply set_nth_same. Qed.
Lemma loads M i e k : forall s t got, nth_error (ths s) i = Some t -> at_ t = RLoad (seq s) e got -> got = firstn (length got) (mem s) ->
  length got + k = length (mem s) ->
  exists s', alone M i (S k) s = Some s' /\ nth_error (ths s') i = Some {| todo := todo t; at_ := Idle; seen := seen t ++ [(mem s, e, incs s)] |}.
Proof.
  induction k as [|k IH]; intros s t got Ht P G L.
  - assert (Gm : got = mem s) by (rewrite G, firstn_all2 by lia; reflexivity). subst got.
    cbn [alone]. unfold step. rewrite Ht, P, Nat.ltb_irrefl, Nat.eqb_refl. eexists. split; [reflexivity|]. erewrite put_get; [reflexivity|exact Ht].
  - change (alone M i (S (S k)) s) with (match step M i s with Some s1 => alone M i (S k) s1 | None => None end). unfold step. rewrite Ht, P.
    destruct (Nat.ltb_spec (length got) (length (mem s))) as [X|X]; [|lia].
    match goal with |- exists s', alone M i (S k) (put i ?u s) = _ /\ _ =>
      destruct (IH (put i u s) u (got ++ [nth (length got) (mem s) 0])) as (s' & A & B) end.
    + eapply put_get. exact Ht.
    + reflexivity.
    + cbn [put mem]. rewrite app_length. cbn [length]. rewrite Nat.add_1_r, (firstn_snoc 0) by lia. f_equal. exact G.
    + cbn [put mem]. rewrite app_length. cbn [length]. lia.
    + exists s'. split; [exact A|]. rewrite B. reflexivity.
Qed.
Lemma undisturbed M q v0 ps s i t : M <> 0 -> Nat.even M = true -> Nat.even q = true -> q < M -> sized v0 ps ->
  reach M (start q v0 ps) s -> nth_error (ths s) i = Some t -> at_ t = RBegin -> (forall j u, nth_error (ths s) j = Some u -> ~ storing (at_ u)) ->
  Nat.even (seq s) = true ->
  exists s', alone M i (length v0 + 2) s = Some s' /\ nth_error (ths s') i = Some {| todo := todo t; at_ := Idle; seen := seen t ++ [(mem s, incs s, incs s)] |}.
Proof.
  intros A B C D E R Ht P N Ev. pose proof (the_inv _ _ _ _ _ A B C D E R) as I. rewrite Nat.add_comm. cbn [Nat.add].
  change (alone M i (S (S (length v0))) s) with (match step M i s with Some s1 => alone M i (S (length v0)) s1 | None => None end). unfold step. rewrite Ht, P.
  rewrite <- Nat.negb_even, Ev. cbn [negb].
  match goal with |- exists s', alone M i _ (put i ?u s) = _ /\ _ => destruct (loads M i (incs s) (length v0) (put i u s) u []) as (s' & X & Y) end.
  - eapply put_get. exact Ht.
  - reflexivity.
  - reflexivity.
  - cbn. symmetry. apply I.
  - exists s'. split; [exact X|]. rewrite Y. reflexivity.
Qed.

(** The counter is even whenever nobody stores. *)
Lemma owner_thread M q v0 ps s i : reach M (start q v0 ps) s -> owner s = Some i -> exists t, nth_error (ths s) i = Some t /\ writing (at_ t).
Proof.
  intro R. revert i. induction R; intros j Oj; [discriminate|]. unfold step in H. destruct (nth_error (ths s1) i) as [t|] eqn:Ht; [|discriminate].
  assert (G : forall s3 t', ths s3 = ths s1 -> owner s3 = owner s1 -> s2 = put i t' s3 -> (writing (at_ t) -> writing (at_ t')) ->
    exists t0, nth_error (ths s2) j = Some t0 /\ writing (at_ t0)).
  { intros s3 t' E1 E2 -> W. cbn [put owner ths] in *. rewrite E2 in Oj. rewrite E1. destruct (IHR _ Oj) as (u & Hu & Wu).
    destruct (Nat.eq_dec j i) as [->|Ne].
    - rewrite (set_nth_same _ _ _ _ Ht). exists t'. split; [reflexivity|]. apply W. congruence.
    - rewrite set_nth_other by exact Ne. eauto. }
  destruct (at_ t) eqn:P.
  - destruct (todo t) as [|[v|] r]; [discriminate|destruct (owner s1) eqn:Ow; [discriminate|]|].
    + injection H as <-. cbn in Oj. injection Oj as <-. exists {| todo := r; at_ := WBegin v; seen := seen t |}. split; [|exact Logic.I].
      cbn [put ths set_owner]. eapply set_nth_same. exact Ht.
    + injection H as H. eapply G; [| |symmetry; exact H|]; auto.
  - injection H as H. eapply G; [| |symmetry; exact H|]; auto.
  - destruct (k <? length (mem s1)); injection H as H; (eapply G; [| |symmetry; exact H|]; auto).
  - injection H as <-. discriminate.
  - destruct (Nat.odd (seq s1)); injection H as H; [subst s2; auto|]. eapply G; [| |symmetry; exact H|]; auto.
  - destruct (length got <? length (mem s1)); [|destruct (seq s1 =? r)]; injection H as H; (eapply G; [| |symmetry; exact H|]; auto).
Qed.
Lemma calm M q v0 ps s : M <> 0 -> Nat.even M = true -> Nat.even q = true -> q < M -> sized v0 ps ->
  reach M (start q v0 ps) s -> ((forall j u, nth_error (ths s) j = Some u -> ~ storing (at_ u)) <-> Nat.even (seq s) = true).
Proof.
  intros A B C D E R. pose proof (the_inv _ _ _ _ _ A B C D E R) as I. rewrite (parity M q A B C) by apply I. split.
  - intro N. destruct (owner s) as [i|] eqn:Ow; [|apply I; exact Ow]. destruct (owner_thread _ _ _ _ _ _ R Ow) as (t & Ht & W).
    destruct (i_th _ _ _ _ _ I _ _ Ht) as (_ & _ & T). specialize (N _ _ Ht). destruct (at_ t); try contradiction; [apply T|exact T].
  - intros Ev j u Hj S1. destruct (i_th _ _ _ _ _ I _ _ Hj) as (_ & _ & T). destruct (at_ u); try contradiction. destruct T as (_ & T & _). congruence.
Qed.
Lemma reader_done M q v0 ps s i t : M <> 0 -> Nat.even M = true -> Nat.even q = true -> q < M -> sized v0 ps ->
  reach M (start q v0 ps) s -> nth_error (ths s) i = Some t -> at_ t = RBegin -> (forall j u, nth_error (ths s) j = Some u -> ~ storing (at_ u)) ->
  exists s', alone M i (length v0 + 2) s = Some s' /\ nth_error (ths s') i = Some {| todo := todo t; at_ := Idle; seen := seen t ++ [(mem s, incs s, incs s)] |}.
Proof. intros. eapply undisturbed; eauto. apply (calm M q v0 ps s); assumption. Qed.
Lemma latest M q v0 ps s : M <> 0 -> Nat.even M = true -> Nat.even q = true -> q < M -> sized v0 ps ->
  reach M (start q v0 ps) s -> length (vers s) = S (incs s / 2) /\ (forall v, In v (vers s) -> v = v0 \/ In v (written ps)) /\
  ((forall j u, nth_error (ths s) j = Some u -> ~ storing (at_ u)) -> nth_error (vers s) (incs s / 2) = Some (mem s)).
Proof.
  intros A B C D E R. pose proof (the_inv _ _ _ _ _ A B C D E R) as I. split; [apply I|]. split; [apply I|]. intro N. apply I.
  rewrite <- (parity M q A B C) by apply I. apply (calm M q v0 ps s); assumption.
Qed.
