From Coq Require Import List Bool Arith Lia.
From Verif.SeqLock Require Import Model Spec.
Import ListNotations.

Lemma set_nth_length {A} k (x : A) l : length (set_nth k x l) = length l.
Proof. revert k. induction l as [|a l IH]; intros [|k]; cbn; auto. Qed.
Lemma set_nth_same {A} k (x : A) l y : nth_error l k = Some y -> nth_error (set_nth k x l) k = Some x.
Proof. revert k. induction l as [|a l IH]; intros [|k]; cbn; try discriminate; auto. Qed.
Lemma set_nth_other {A} k j (x : A) l : j <> k -> nth_error (set_nth k x l) j = nth_error l j.
Proof. revert k j. induction l as [|a l IH]; intros [|k] [|j] H; cbn; try congruence; auto. Qed.
Lemma set_nth_firstn {A} k (x : A) l : k < length l -> firstn (S k) (set_nth k x l) = firstn k l ++ [x].
Proof.
  revert k. induction l as [|a l IH]; intros [|k] H; cbn in *; try lia; [reflexivity|]. f_equal.
  change (match set_nth k x l with [] => [] | a0 :: l0 => a0 :: firstn k l0 end) with (firstn (S k) (set_nth k x l)). apply IH. lia.
Qed.
Lemma firstn_snoc {A} (d : A) k l : k < length l -> firstn (S k) l = firstn k l ++ [nth k l d].
Proof.
  revert k. induction l as [|a l IH]; intros [|k] H; cbn in *; try lia; [reflexivity|]. f_equal. apply (IH k). lia.
Qed.
Lemma even_mod M x : M <> 0 -> Nat.even M = true -> Nat.even (x mod M) = Nat.even x.
Proof.
  intros Z E. rewrite (Nat.div_mod x M Z) at 2. rewrite Nat.even_add, Nat.even_mul, E. cbn. destruct (Nat.even (x mod M)); reflexivity.
Qed.
Lemma mod_close M a b : M <> 0 -> a <= b -> b - a < M -> a mod M = b mod M -> a = b.
Proof.
  intros Z L C E. pose proof (Nat.div_mod a M Z) as A. pose proof (Nat.div_mod b M Z) as B. rewrite E in A.
  assert (b / M = a / M); [|nia]. destruct (Nat.lt_trichotomy (b / M) (a / M)) as [H|[H|H]]; [|exact H|]; exfalso; nia.
Qed.

Section S.
  Variables (M q : nat) (v0 : list nat) (ps : list (list op)).
  Hypotheses (M0 : M <> 0) (Me : Nat.even M = true) (qe : Nat.even q = true) (qM : q < M) (sz : sized v0 ps).

  Definition has (v : list nat) : Prop := length v = length v0 /\ In v (written ps).

  (** What holds of a thread. *)
  Definition tinv (s : st) (t : th) : Prop :=
    (forall v, In v (writes (todo t)) -> has v) /\
    (forall got e e', In (got, e, e') (seen t) -> e' - e < M -> e = e' /\ nth_error (vers s) (e / 2) = Some got) /\
    match at_ t with
    | WBegin v => has v /\ Nat.even (incs s) = true
    | WStore v k => has v /\ Nat.even (incs s) = false /\ k <= length v0 /\ firstn k (mem s) = firstn k v
    | WUnlock => Nat.even (incs s) = true
    | RLoad r e got =>
        r = (q + e) mod M /\ Nat.even e = true /\ e <= incs s /\ length got <= length v0 /\
        (incs s = e -> got = firstn (length got) (mem s))
    | _ => True
    end.
  Record inv (s : st) : Prop := {
    i_seq : seq s = (q + incs s) mod M;
    i_mem : length (mem s) = length v0;
    i_len : length (vers s) = S (incs s / 2);
    i_cur : Nat.even (incs s) = true -> nth_error (vers s) (incs s / 2) = Some (mem s);
    i_ver : forall v, In v (vers s) -> v = v0 \/ In v (written ps);
    i_own : forall i t, nth_error (ths s) i = Some t -> writing (at_ t) -> owner s = Some i;
    i_free : owner s = None -> Nat.even (incs s) = true;
    i_th : forall i t, nth_error (ths s) i = Some t -> tinv s t }.

  Lemma even_S x : Nat.even (S x) = negb (Nat.even x).
  Proof. rewrite Nat.even_succ, <- Nat.negb_even. reflexivity. Qed.
  Lemma half_S x : Nat.even x = true -> S x / 2 = x / 2.
  Proof. intro E. apply Nat.even_spec in E. destruct E as [k ->]. rewrite <- Nat.add_1_r, !(Nat.mul_comm 2 k), Nat.div_add_l, Nat.div_mul by lia. cbn. lia. Qed.
  Lemma half_SS x : Nat.even x = false -> S x / 2 = S (x / 2).
  Proof.
    intro E. assert (O1 : Nat.odd x = true) by (rewrite <- Nat.negb_even, E; reflexivity). apply Nat.odd_spec in O1. destruct O1 as [k ->].
    replace (S (2 * k + 1)) with ((k + 1) * 2) by lia. rewrite Nat.div_mul by lia. rewrite (Nat.mul_comm 2 k), Nat.div_add_l by lia. cbn. lia.
  Qed.
  Lemma seq_S s : seq s = (q + incs s) mod M -> S (seq s) mod M = (q + S (incs s)) mod M.
  Proof. intros ->. rewrite <- Nat.add_1_r, Nat.add_mod_idemp_l by exact M0. f_equal. lia. Qed.
  Lemma parity s : seq s = (q + incs s) mod M -> Nat.even (seq s) = Nat.even (incs s).
  Proof. intros ->. rewrite even_mod, Nat.even_add, qe by assumption. destruct (Nat.even (incs s)); reflexivity. Qed.

  Lemma start_inv : inv (start q v0 ps).
  Proof.
    constructor; cbn [start seq mem owner ths incs vers]; auto.
    - rewrite Nat.add_0_r, Nat.mod_small; auto.
    - intros v [<-|[]]. auto.
    - intros i t H W. apply nth_error_In in H. apply in_map_iff in H. destruct H as (p & <- & _). destruct W.
    - intros i t H. apply nth_error_In in H. apply in_map_iff in H. destruct H as (p & <- & Hp). refine (conj _ (conj _ Logic.I)); [|intros ? ? ? []].
      cbn [todo]. intros v Hv. assert (K : In v (written ps)) by (apply in_flat_map; exists p; auto). split; [|exact K].
      unfold sized in sz. rewrite Forall_forall in sz. auto.
  Qed.

  (** The other threads, when [i] is not the only one. *)
  Lemma put_inv s s1 i t t' :
    nth_error (ths s) i = Some t -> inv s -> ths s1 = ths s ->
    seq s1 = (q + incs s1) mod M -> length (mem s1) = length v0 -> length (vers s1) = S (incs s1 / 2) ->
    (Nat.even (incs s1) = true -> nth_error (vers s1) (incs s1 / 2) = Some (mem s1)) ->
    (forall v, In v (vers s1) -> v = v0 \/ In v (written ps)) ->
    (forall j u, j <> i -> nth_error (ths s) j = Some u -> writing (at_ u) -> owner s1 = Some j) -> (writing (at_ t') -> owner s1 = Some i) ->
    (owner s1 = None -> Nat.even (incs s1) = true) ->
    (forall j u, j <> i -> nth_error (ths s) j = Some u -> tinv s1 u) -> tinv s1 t' ->
    inv (put i t' s1).
  Proof.
    intros Ht I E H1 H2 H3 H4 H5 H6 H7 H8 H9 H10. constructor; cbn [put seq mem owner ths incs vers]; auto.
    - intros j u. rewrite E. destruct (Nat.eq_dec j i) as [->|N].
      + rewrite (set_nth_same _ _ _ _ Ht). intros [= <-]. exact H7.
      + rewrite set_nth_other by exact N. apply H6. exact N.
    - intros j u. rewrite E. destruct (Nat.eq_dec j i) as [->|N].
      + rewrite (set_nth_same _ _ _ _ Ht). intros [= <-]. exact H10.
      + rewrite set_nth_other by exact N. apply H9. exact N.
  Qed.
  Lemma tinv_same s s1 u : mem s1 = mem s -> incs s1 = incs s -> vers s1 = vers s -> tinv s u -> tinv s1 u.
  Proof. intros A B C. unfold tinv. rewrite A, B, C. auto. Qed.
  (** A write in progress belongs to the owner; the others are readers. *)
  Lemma tinv_write s s1 u : ~ writing (at_ u) -> (forall k x, nth_error (vers s) k = Some x -> nth_error (vers s1) k = Some x) ->
    incs s <= incs s1 -> (incs s1 = incs s -> Nat.even (incs s) = false) -> tinv s u -> tinv s1 u.
  Proof.
    intros W V L E (A & B & C). split; [exact A|]. split.
    - intros got e e' H K. destruct (B got e e' H K) as [X Y]. split; [exact X|]. apply V. exact Y.
    - destruct (at_ u); try (exfalso; apply W; exact Logic.I); auto. destruct C as (C1 & C2 & C3 & C4 & C5).
      refine (conj C1 (conj C2 (conj _ (conj C4 _)))); [lia|]. intro X. exfalso. assert (A1 : incs s1 = incs s) by lia. pose proof (E A1) as E1. rewrite <- A1, X in E1. congruence.
  Qed.

  Lemma step_inv i s s' : inv s -> step M i s = Some s' -> inv s'.
  Proof.
    intros I H. unfold step in H. destruct (nth_error (ths s) i) as [t|] eqn:Ht; [|discriminate].
    destruct (i_th _ I _ _ Ht) as (T1 & T2 & T3). pose proof (i_own _ I _ _ Ht) as Own.
    assert (Oth : writing (at_ t) -> forall j u, j <> i -> nth_error (ths s) j = Some u -> ~ writing (at_ u)).
    { intros W j u N Hj Wj. pose proof (i_own _ I _ _ Hj Wj). rewrite (Own W) in H0. congruence. }
    destruct (at_ t) eqn:P.
    - destruct (todo t) as [|[v|] r] eqn:D; [discriminate| |].
      + destruct (owner s) eqn:Ow; [discriminate|]. injection H as <-. pose proof (i_free _ I Ow) as Ev.
        eapply (put_inv s); eauto; cbn [set_owner seq mem owner ths incs vers]; try solve [destruct I; auto]; try solve [intros []]; try discriminate.
        * intros j u N Hj W. pose proof (i_own _ I _ _ Hj W). congruence.
        * intros j u _ Hj. eapply tinv_same; [..|apply (i_th _ I _ _ Hj)]; reflexivity.
        * refine (conj _ (conj T2 _)); cbn [todo at_]. { intros x Hx. apply T1. cbn. auto. }
          split; [|exact Ev]. apply T1. cbn. auto.
      + injection H as <-. eapply (put_inv s); eauto; try solve [destruct I; auto]; try solve [intros []].
        * intros j u _ Hj. apply (i_own _ I _ _ Hj).
        * intros j u _ Hj. apply (i_th _ I _ _ Hj).
        * refine (conj _ (conj T2 Logic.I)); cbn [todo]. exact T1.
    - injection H as <-. destruct T3 as [Hv Ev]. eapply (put_inv s); eauto; cbn [incr seq mem owner ths incs vers].
      + apply seq_S. apply I.
      + apply I.
      + rewrite half_S by exact Ev. apply I.
      + rewrite even_S, Ev. discriminate.
      + apply I.
      + intros j u _ Hj. apply (i_own _ I _ _ Hj).
      + rewrite (Own Logic.I). discriminate.
      + intros j u N Hj. eapply (tinv_write s); cbn [incr vers incs]; [exact (Oth Logic.I _ _ N Hj)|auto|lia|lia|apply (i_th _ I _ _ Hj)].
      + refine (conj T1 (conj T2 _)). cbn [go at_ incr incs mem]. refine (conj Hv (conj _ (conj _ eq_refl))); [rewrite even_S, Ev; reflexivity|lia].
    - destruct T3 as (Hv & Ev & Hk & Hf). destruct (Nat.ltb_spec k (length (mem s))) as [L|L]; injection H as <-.
      + eapply (put_inv s); eauto; cbn [set_mem seq mem owner ths incs vers]; try solve [destruct I; auto]; try solve [intros []].
        * rewrite set_nth_length. apply I.
        * rewrite Ev. discriminate.
        * intros j u _ Hj. apply (i_own _ I _ _ Hj).
        * intros j u N Hj. eapply (tinv_write s); cbn [set_mem vers incs]; [exact (Oth Logic.I _ _ N Hj)|auto|lia|auto|apply (i_th _ I _ _ Hj)].
        * refine (conj T1 (conj T2 _)). cbn [go at_ set_mem incs mem]. pose proof (i_mem _ I). refine (conj Hv (conj Ev (conj _ _))); [lia|].
          rewrite set_nth_firstn, (firstn_snoc 0) by (destruct Hv; lia). f_equal. exact Hf.
      + pose proof (i_mem _ I) as Lm. assert (Mv : mem s = v).
        { destruct Hv as [Lv _]. rewrite <- (firstn_all (mem s)), <- (firstn_all v), Lm, Lv. replace (length v0) with k by lia. exact Hf. }
        assert (V : forall k x, nth_error (vers s) k = Some x -> nth_error (vers s ++ [v]) k = Some x).
        { intros j x Hj. rewrite nth_error_app1; [exact Hj|]. apply nth_error_Some. congruence. }
        eapply (put_inv s); eauto; cbn [log incr seq mem owner ths incs vers].
        * apply seq_S. apply I.
        * rewrite app_length, half_SS, (i_len _ I) by exact Ev. cbn. lia.
        * intros _. rewrite half_SS by exact Ev. rewrite nth_error_app2; rewrite (i_len _ I); [|lia]. rewrite Nat.sub_diag. cbn. congruence.
        * intros x Hx. apply in_app_or in Hx. destruct Hx as [Hx|[<-|[]]]; [apply (i_ver _ I); exact Hx|right; apply Hv].
        * intros j u _ Hj. apply (i_own _ I _ _ Hj).
        * rewrite (Own Logic.I). discriminate.
        * intros j u N Hj. eapply (tinv_write s); cbn [log incr vers incs]; [exact (Oth Logic.I _ _ N Hj)|exact V|lia|lia|apply (i_th _ I _ _ Hj)].
        * refine (conj T1 (conj _ _)); cbn [go seen at_ log incr incs vers].
          { intros got e e' A B. destruct (T2 _ _ _ A B) as [X Y]. auto. }
          rewrite even_S, Ev. reflexivity.
    - injection H as <-. eapply (put_inv s); eauto; cbn [set_owner seq mem owner ths incs vers]; try solve [destruct I; auto]; try solve [intros []].
      + intros j u N Hj W. exfalso. exact (Oth Logic.I _ _ N Hj W).
      + intros j u _ Hj. eapply tinv_same; [..|apply (i_th _ I _ _ Hj)]; reflexivity.
      + refine (conj T1 (conj T2 Logic.I)).
    - rewrite <- Nat.negb_even, (parity s) in H by apply I. destruct (Nat.even (incs s)) eqn:Ev; injection H as <-; [|exact I].
      eapply (put_inv s); eauto; try solve [destruct I; auto]; try solve [intros []].
      + intros j u _ Hj. apply (i_own _ I _ _ Hj).
      + intros j u _ Hj. apply (i_th _ I _ _ Hj).
      + refine (conj T1 (conj T2 _)). cbn [go at_]. refine (conj (i_seq _ I) (conj Ev (conj _ (conj _ _)))); cbn [length]; auto; lia.
    - destruct T3 as (R1 & R2 & R3 & R4 & R5). pose proof (i_mem _ I) as Lm. destruct (Nat.ltb_spec (length got) (length (mem s))) as [L|L].
      + injection H as <-. eapply (put_inv s); eauto; try solve [destruct I; auto]; try solve [intros []].
        * intros j u _ Hj. apply (i_own _ I _ _ Hj).
        * intros j u _ Hj. apply (i_th _ I _ _ Hj).
        * refine (conj T1 (conj T2 _)). cbn [go at_]. rewrite app_length. cbn [length]. refine (conj R1 (conj R2 (conj R3 (conj _ _)))); [lia|].
          intro X. rewrite Nat.add_1_r, (firstn_snoc 0) by lia. f_equal. auto.
      + destruct (Nat.eqb_spec (seq s) r) as [Er|Er]; injection H as <-.
        * eapply (put_inv s); eauto; try solve [destruct I; auto]; try solve [intros []].
          -- intros j u _ Hj. apply (i_own _ I _ _ Hj).
          -- intros j u _ Hj. apply (i_th _ I _ _ Hj).
          -- refine (conj T1 (conj _ Logic.I)). cbn [seen]. intros g a b Hin C. apply in_app_or in Hin. destruct Hin as [Hin|[Hin|[]]]; [auto|].
             injection Hin as <- <- <-. rewrite (i_seq _ I), R1 in Er. assert (X : e = incs s).
             { assert (q + e = q + incs s); [|lia]. apply (mod_close M); auto; lia. }
             split; [exact X|]. rewrite X, (i_cur _ I) by congruence. f_equal. rewrite (R5 (eq_sym X)), firstn_all2 by lia. reflexivity.
        * eapply (put_inv s); eauto; try solve [destruct I; auto]; try solve [intros []].
          -- intros j u _ Hj. apply (i_own _ I _ _ Hj).
          -- intros j u _ Hj. apply (i_th _ I _ _ Hj).
          -- refine (conj T1 (conj T2 Logic.I)).
  Qed.
  Lemma reach_inv s : reach M (start q v0 ps) s -> inv s.
  Proof. intro R. induction R; [apply start_inv|eapply step_inv; eassumption]. Qed.
End S.
