(** Lemmas about the polling, consistent-hash and modulo-hash load balancers. *)
From Verif.Lib Require Import Base Bytes ListX Decimal.
From Verif.LoadBalance Require Import Model Spec.
From Coq Require Import Sorted Permutation String.
From Coq Require Import List.
Import ListNotations.
Local Open Scope Z_scope.

Lemma bytes_eqb_eq a b : bytes_eqb a b = true <-> a = b.
Proof. unfold bytes_eqb. destruct (list_eq_dec _ a b); split; auto; discriminate. Qed.

Lemma bytes_eqb_refl a : bytes_eqb a a = true.
Proof. apply bytes_eqb_eq. reflexivity. Qed.

(** ** info_diff *)
Lemma info_diff_false old new :
  info_diff old new = false <->
  map (fun e => (host e, port e, status e)) old = map (fun e => (host e, port e, status e)) new.
Proof.
  revert new; induction old as [|o old IH]; intros [|n new]; cbn [info_diff map]; split; intros H;
    try discriminate; auto.
  - rewrite !orb_false_iff in H. destruct H as [[[H1 H2] H3] H4].
    apply negb_false_iff in H1, H2, H3. apply bytes_eqb_eq in H1.
    apply IH in H4. rewrite H4. f_equal. f_equal; [f_equal|]; auto; lia.
  - inversion H as [[E1 E2 E3 E4]]. rewrite !orb_false_iff.
    repeat split; [rewrite bytes_eqb_refl; auto| rewrite Z.eqb_refl; auto|rewrite Z.eqb_refl; auto|].
    apply IH. auto.
Qed.

Lemma info_diff_addr old new : info_diff old new = false -> map addr old = map addr new.
Proof.
  intros H. apply info_diff_false in H.
  assert (E : forall l, map addr l = map fst (map (fun e => (host e, port e, status e)) l)).
  { intros l. rewrite map_map. apply map_ext. intros e. reflexivity. }
  rewrite !E, H. reflexivity.
Qed.

Lemma sw_diff_false old new :
  sw_diff old new = false <->
  map (fun e => (host e, port e, weight e)) old = map (fun e => (host e, port e, weight e)) new.
Proof.
  revert new; induction old as [|o old IH]; intros [|n new]; cbn [sw_diff map]; split; intros H;
    try discriminate; auto.
  - rewrite !orb_false_iff in H. destruct H as [[[H1 H2] H3] H4].
    apply negb_false_iff in H1, H2, H3. apply bytes_eqb_eq in H2.
    apply IH in H4. rewrite H4. f_equal. f_equal; [f_equal|]; auto; lia.
  - inversion H as [[E1 E2 E3 E4]]. rewrite !orb_false_iff.
    repeat split; [rewrite Z.eqb_refl; auto|rewrite bytes_eqb_refl; auto|rewrite Z.eqb_refl; auto|].
    apply IH. auto.
Qed.

Lemma sw_update_spec st eps :
  (st = None -> sw_update st eps = Some (sw_fresh eps)) /\
  (forall s, st = Some s ->
     (map (fun e => (host e, port e, weight e)) (sw_eps s) <> map (fun e => (host e, port e, weight e)) eps ->
      sw_update st eps = Some (sw_fresh eps)) /\
     (map (fun e => (host e, port e, weight e)) (sw_eps s) = map (fun e => (host e, port e, weight e)) eps ->
      sw_update st eps = Some s)).
Proof.
  split; [intros ->; reflexivity|]. intros s ->. unfold sw_update. split; intros H.
  - destruct (sw_diff (sw_eps s) eps) eqn:D; auto. apply sw_diff_false in D. contradiction.
  - apply sw_diff_false in H. rewrite H. reflexivity.
Qed.

(** ** Polling *)
Lemma pl_nexts_spec eps d idx k :
  eps <> [] -> 0 <= idx < 2 ^ 32 ->
  pl_nexts (Some (eps, idx)) k =
  (Some (eps, (idx + Z.of_nat k) mod 2 ^ 32),
   map (fun j => Some (nth (Z.to_nat (((idx + Z.of_nat j) mod 2 ^ 32) mod Z.of_nat (length eps))) eps d)) (seq 0 k)).
Proof.
  intros Hne. revert idx. induction k as [|k IH]; intros idx Hi.
  - cbn [pl_nexts seq map]. rewrite Z.add_0_r, Z.mod_small by lia. reflexivity.
  - cbn [pl_nexts]. destruct eps as [|e0 r] eqn:E; [congruence|]. cbn [pl_next].
    rewrite IH by (apply Z.mod_pos_bound; lia). f_equal.
    + rewrite Zplus_mod_idemp_l. replace (idx + 1 + Z.of_nat k) with (idx + Z.of_nat (S k)) by lia. reflexivity.
    + cbn [seq map]. f_equal.
      * change (Z.of_nat 0) with 0; rewrite Z.add_0_r, (Z.mod_small idx (2 ^ 32)) by lia. f_equal. apply nth_indep.
        assert (0 <= idx mod Z.of_nat (length (e0 :: r)) < Z.of_nat (length (e0 :: r))) by (apply Z.mod_pos_bound; cbn [length]; lia).
        lia.
      * rewrite <- (seq_shift k 0), map_map. apply map_ext. intros j. rewrite Zplus_mod_idemp_l.
        replace (idx + 1 + Z.of_nat j) with (idx + Z.of_nat (S j)) by lia. reflexivity.
Qed.

(** n consecutive integers hit every residue modulo n once. *)
Lemma residues_perm (n : nat) (a : Z) :
  (0 < n)%nat -> 0 <= a ->
  Permutation (map (fun j => Z.to_nat ((a + Z.of_nat j) mod Z.of_nat n)) (seq 0 n)) (seq 0 n).
Proof.
  intros Hn Ha. apply NoDup_Permutation_bis.
  - apply NoDup_map_in.
    + intros x y Hx Hy E. apply in_seq in Hx, Hy.
      assert (B1 := Z.mod_pos_bound (a + Z.of_nat x) (Z.of_nat n) ltac:(lia)).
      assert (B2 := Z.mod_pos_bound (a + Z.of_nat y) (Z.of_nat n) ltac:(lia)).
      assert (E' : (a + Z.of_nat x) mod Z.of_nat n = (a + Z.of_nat y) mod Z.of_nat n) by lia.
      pose proof (Z.div_mod (a + Z.of_nat x) (Z.of_nat n) ltac:(lia)).
      pose proof (Z.div_mod (a + Z.of_nat y) (Z.of_nat n) ltac:(lia)).
      assert (D : (a + Z.of_nat x) / Z.of_nat n = (a + Z.of_nat y) / Z.of_nat n) by nia.
      rewrite D, E' in *. lia.
    + apply seq_NoDup.
  - rewrite map_length. lia.
  - intros v Hv. apply in_map_iff in Hv. destruct Hv as (j & <- & Hj). apply in_seq.
    assert (B1 := Z.mod_pos_bound (a + Z.of_nat j) (Z.of_nat n) ltac:(lia)). lia.
Qed.

Lemma map_nth_seq {A} (l : list A) d : map (fun i => nth i l d) (seq 0 (length l)) = l.
Proof.
  induction l as [|x l IH]; [reflexivity|]. cbn [length seq map nth]. f_equal.
  rewrite <- (seq_shift _ 0), map_map. exact IH.
Qed.

Lemma polling_round eps idx :
  eps <> [] -> 0 <= idx < 2 ^ 32 ->
  idx + Z.of_nat (length eps) <= 2 ^ 32 \/ (Z.of_nat (length eps) | 2 ^ 32) ->
  Permutation (snd (pl_nexts (Some (eps, idx)) (length eps))) (map Some eps).
Proof.
  intros Hne Hi Hc. destruct eps as [|d r] eqn:E; [congruence|]. rewrite <- E in *.
  rewrite (pl_nexts_spec eps d) by auto. cbn [snd].
  set (n := length eps) in *. assert (Hn : (0 < n)%nat) by (subst n; rewrite E; cbn; lia).
  assert (Em : forall j, In j (seq 0 n) ->
    ((idx + Z.of_nat j) mod 2 ^ 32) mod Z.of_nat n = (idx + Z.of_nat j) mod Z.of_nat n).
  { intros j Hj. apply in_seq in Hj. destruct Hc as [Hc|Hc].
    - rewrite (Z.mod_small _ (2 ^ 32)) by lia. reflexivity.
    - destruct Hc as (q & Hq).
      rewrite (Z.div_mod (idx + Z.of_nat j) (2 ^ 32)) at 2 by lia.
      rewrite Hq at 2. replace (q * Z.of_nat n * ((idx + Z.of_nat j) / 2 ^ 32) + (idx + Z.of_nat j) mod 2 ^ 32)
        with ((idx + Z.of_nat j) mod 2 ^ 32 + (q * ((idx + Z.of_nat j) / 2 ^ 32)) * Z.of_nat n) by ring.
      rewrite Z.mod_add by lia. reflexivity. }
  rewrite (map_ext_in _ (fun j => Some (nth (Z.to_nat ((idx + Z.of_nat j) mod Z.of_nat n)) eps d)))
    by (intros j Hj; rewrite Em by auto; reflexivity).
  rewrite <- (map_map (fun j => Z.to_nat ((idx + Z.of_nat j) mod Z.of_nat n)) (fun i => Some (nth i eps d))).
  rewrite (Permutation_map _ (residues_perm n idx Hn ltac:(lia))).
  rewrite <- (map_map (fun i => nth i eps d) Some). unfold n. rewrite map_nth_seq. reflexivity.
Qed.

Lemma pl_nexts_in st k e :
  In (Some e) (snd (pl_nexts st k)) -> exists eps idx, st = Some (eps, idx) /\ In e eps.
Proof.
  revert st; induction k as [|k IH]; intros st; cbn [pl_nexts]; [intros []|].
  destruct st as [[eps idx]|]; cbn [pl_next].
  - destruct eps as [|d r] eqn:E.
    + specialize (IH (Some ([], idx))). destruct (pl_nexts (Some ([], idx)) k) as [s rs]. cbn [snd] in *.
      intros [H|H]; [discriminate|]. destruct (IH H) as (e1 & i1 & H1 & H2). inversion H1; subst. destruct H2.
    + rewrite <- E. specialize (IH (Some (eps, (idx + 1) mod 2 ^ 32))).
      destruct (pl_nexts _ k) as [s rs]. cbn [snd] in *. intros [H|H].
      * inversion H; subst e. exists eps, idx. split; auto. apply nth_In.
        assert (B := Z.mod_pos_bound idx (Z.of_nat (length eps))). rewrite E in *. cbn [length] in *. lia.
      * destruct (IH H) as (e1 & i1 & H1 & H2). inversion H1; subst. eauto.
  - specialize (IH None). destruct (pl_nexts None k) as [s rs]. cbn [snd] in *.
    intros [H|H]; [discriminate|]. destruct (IH H) as (e1 & i1 & H1 & H2). discriminate.
Qed.

(** After any update, selections agree with the latest list on host, port and status. *)
Lemma polling_latest st eps k e :
  In (Some e) (snd (pl_nexts (pl_update st eps) k)) ->
  exists e', In e' eps /\ host e' = host e /\ port e' = port e /\ status e' = status e.
Proof.
  intros H. apply pl_nexts_in in H. destruct H as (l & idx & E & Hin). unfold pl_update in E.
  assert (G : l = eps \/ info_diff l eps = false).
  { destruct st as [[old i]|]; [destruct (info_diff old eps) eqn:D|]; inversion E; subst; auto. }
  destruct G as [->|G]; [eauto|].
  apply info_diff_false in G. apply (in_map (fun e => (host e, port e, status e))) in Hin.
  rewrite G in Hin. apply in_map_iff in Hin. destruct Hin as (e' & E' & Hin'). inversion E'. eauto 6.
Qed.

Lemma pl_nexts_app st a b :
  pl_nexts st (a + b) =
  let '(s1, r1) := pl_nexts st a in let '(s2, r2) := pl_nexts s1 b in (s2, r1 ++ r2).
Proof.
  revert st; induction a as [|a IH]; intros st; cbn [Nat.add pl_nexts].
  - destruct (pl_nexts st b). reflexivity.
  - destruct (pl_next st) as [s1 r1]. rewrite IH. destruct (pl_nexts s1 a) as [s2 r2].
    destruct (pl_nexts s2 b) as [s3 r3]. reflexivity.
Qed.

(** The counter wraps: after 2^32 - 2 selections among 3 endpoints, the next three selections
    repeat an endpoint and miss another. *)
Lemma polling_wrap :
  let e n := mk_ep [Byte.x61] n 0 1 0 in
  exists k, snd (pl_nexts (fst (pl_nexts (pl_update None [e 1; e 2; e 3]) k)) 3) =
    [Some (e 3); Some (e 1); Some (e 1)].
Proof.
  intros e. exists (Z.to_nat (2 ^ 32 - 2)). unfold pl_update.
  rewrite (pl_nexts_spec [e 1; e 2; e 3] (e 1)) by (try discriminate; lia). cbn [fst].
  rewrite Z2Nat.id by lia. replace ((0 + (2 ^ 32 - 2)) mod 2 ^ 32) with (2 ^ 32 - 2) by reflexivity.
  reflexivity.
Qed.

(** A new weight or meta alone is not taken over. *)
Lemma polling_stale_weight :
  exists old new e, map addr old = map addr new /\ fst (pl_nexts (pl_update (pl_update None old) new) 1) <> None /\
    snd (pl_nexts (pl_update (pl_update None old) new) 1) = [Some e] /\ ~ In e new.
Proof.
  exists [mk_ep [Byte.x61] 1 0 1 0], [mk_ep [Byte.x61] 1 0 2 7], (mk_ep [Byte.x61] 1 0 1 0).
  repeat split; try discriminate. intros [H|[]]. discriminate.
Qed.

(** ** The hash ring *)
Definition sorted (r : ring) : Prop := StronglySorted (fun a b => fst a < fst b) r.

Lemma sorted_cons_inv a r : sorted (a :: r) -> sorted r /\ forall b, In b r -> fst a < fst b.
Proof. intros H. inversion H as [|x l S1 F1]; subst. split; auto. apply Forall_forall. auto. Qed.

Lemma sorted_cons a r : sorted r -> (forall b, In b r -> fst a < fst b) -> sorted (a :: r).
Proof. intros S1 H. constructor; auto. apply Forall_forall. auto. Qed.

Lemma ring_set_spec r k v :
  sorted r -> sorted (ring_set r k v) /\
  forall p e, In (p, e) (ring_set r k v) <-> (p = k /\ e = v) \/ (p <> k /\ In (p, e) r).
Proof.
  induction r as [|[k' e'] r IH]; intros S.
  - cbn [ring_set]. split; [apply sorted_cons; [constructor|intros b []]|].
    intros p e. cbn [In]. split; [intros [H|[]]; inversion H; auto|]. intros [[-> ->]|[_ []]]; auto.
  - apply sorted_cons_inv in S. destruct S as [S1 S2]. cbn [fst] in S2. cbn [ring_set].
    destruct (k <? k') eqn:L; [|destruct (k =? k') eqn:Q].
    + assert (L' : k < k') by lia. split.
      * apply sorted_cons; [apply sorted_cons; auto|]. intros b [<-|Hb]; cbn [fst]; auto.
        specialize (S2 b Hb). lia.
      * intros p e. cbn [In]. split.
        -- intros [H|[H|H]]; [inversion H; auto|inversion H; subst; right; split; [lia|auto]|].
           right. specialize (S2 _ H). cbn [fst] in S2. split; [lia|auto].
        -- intros [[-> ->]|[_ [H|H]]]; auto.
    + assert (k = k') by lia. subst k'. split.
      * apply sorted_cons; auto.
      * intros p e. cbn [In]. split.
        -- intros [H|H]; [inversion H; auto|]. right. specialize (S2 _ H). cbn [fst] in S2. split; [lia|auto].
        -- intros [[-> ->]|[N [H|H]]]; auto. inversion H; subst. congruence.
    + destruct (IH S1) as [I1 I2]. split.
      * apply sorted_cons; auto. intros [q f] Hb. apply I2 in Hb. cbn [fst].
        destruct Hb as [[-> ->]|[_ Hb]]; [lia|]. specialize (S2 _ Hb). exact S2.
      * intros p e. cbn [In]. rewrite I2. split.
        -- intros [H|[H|[N H]]]; [inversion H; subst; right; split; [lia|auto]|auto|auto].
        -- intros [H|[N [H|H]]]; auto.
Qed.

Lemma ring_erase_spec r k :
  sorted r -> sorted (ring_erase r k) /\ forall p e, In (p, e) (ring_erase r k) <-> In (p, e) r /\ p <> k.
Proof.
  intros S. split.
  - unfold ring_erase. induction r as [|a r IH]; [exact S|]. apply sorted_cons_inv in S. destruct S as [S1 S2].
    cbn [filter]. destruct (negb (fst a =? k)); auto. apply sorted_cons; auto.
    intros b Hb. apply filter_In in Hb. apply S2, Hb.
  - intros p e. unfold ring_erase. rewrite filter_In. cbn [fst]. split; intros [H1 H2]; split; auto; lia.
Qed.

Section Ring.
  Variable hash : list byte -> Z.
  Variable nodes : nat.
  Let pt := node_hash hash.

  Lemma erase_nodes_spec r key :
    sorted r -> sorted (erase_nodes hash nodes r key) /\
    forall p e, In (p, e) (erase_nodes hash nodes r key) <->
      In (p, e) r /\ forall i, (i < nodes)%nat -> p <> pt key i.
  Proof.
    unfold erase_nodes.
    assert (G : forall l r, sorted r ->
      sorted (fold_left (fun r i => ring_erase r (node_hash hash key i)) l r) /\
      forall p e, In (p, e) (fold_left (fun r i => ring_erase r (node_hash hash key i)) l r) <->
        In (p, e) r /\ forall i, In i l -> p <> pt key i).
    { induction l as [|j l IH]; intros r0 S; cbn [fold_left].
      - split; auto. intros p e. split; [intros H; split; auto; intros i []|tauto].
      - destruct (ring_erase_spec r0 (node_hash hash key j) S) as [S1 I1].
        destruct (IH _ S1) as [S2 I2]. split; auto. intros p e. rewrite I2, I1. cbn [In]. split.
        + intros [[H1 H2] H3]. split; auto. intros i [<-|Hi]; auto.
        + intros [H1 H2]. repeat split; auto. }
    intros S. destruct (G (seq 0 nodes) r S) as [G1 G2]. split; auto. intros p e. rewrite G2.
    split; intros [H1 H2]; split; auto; intros i Hi; apply H2; apply in_seq in Hi || apply in_seq; lia.
  Qed.

  Lemma set_nodes_spec r key v :
    sorted r -> sorted (set_nodes hash nodes r key v) /\
    forall p e, In (p, e) (set_nodes hash nodes r key v) <->
      ((exists i, (i < nodes)%nat /\ p = pt key i) /\ e = v) \/
      (In (p, e) r /\ forall i, (i < nodes)%nat -> p <> pt key i).
  Proof.
    unfold set_nodes.
    assert (G : forall l r, sorted r ->
      sorted (fold_left (fun r i => ring_set r (node_hash hash key i) v) l r) /\
      forall p e, In (p, e) (fold_left (fun r i => ring_set r (node_hash hash key i) v) l r) <->
        ((exists i, In i l /\ p = pt key i) /\ e = v) \/ (In (p, e) r /\ forall i, In i l -> p <> pt key i)).
    { induction l as [|j l IH]; intros r0 S; cbn [fold_left].
      - split; auto. intros p e. split; [intros H; right; split; auto; intros i []|].
        intros [[(i & [] & _) _]|[H _]]; auto.
      - destruct (ring_set_spec r0 (node_hash hash key j) v S) as [S1 I1].
        destruct (IH _ S1) as [S2 I2]. split; auto. intros p e. rewrite I2, I1. cbn [In].
        destruct (Z.eq_dec p (pt key j)) as [Ep|Np].
        + split.
          * intros [[(i & Hi & E) Ev]|[[[_ ->]|[N _]] _]]; [left; split; eauto|left; split; eauto|].
            contradiction N.
          * intros [[_ ->]|[_ H]]; [|exfalso; apply (H j); auto].
            destruct (in_dec Z.eq_dec p (map (pt key) l)) as [D|D].
            -- left. split; auto. apply in_map_iff in D. destruct D as (i & E & Hi). eauto.
            -- right. split; [left; auto|]. intros i Hi E. apply D. apply in_map_iff. eauto.
        + split.
          * intros [[(i & Hi & E) Ev]|[[[E _]|[_ H]] H2]]; [left; split; eauto|contradiction|].
            right. split; auto. intros i [<-|Hi]; auto.
          * intros [[(i & [<-|Hi] & E) Ev]|[H1 H2]]; [contradiction|left; split; eauto|].
            right. split; [right; auto|]. intros i Hi. auto. }
    intros S. destruct (G (seq 0 nodes) r S) as [G1 G2]. split; auto. intros p e. rewrite G2.
    split; (intros [[(i & Hi & E) Ev]|[H1 H2]];
      [left; split; auto; exists i; split; auto; apply in_seq in Hi || apply in_seq; lia|
       right; split; auto; intros i Hi; apply H2; apply in_seq in Hi || apply in_seq; lia]).
  Qed.

  Lemma ckey_in_iff k ks : ckey_in k ks = true <-> In k ks.
  Proof.
    unfold ckey_in. rewrite existsb_exists. split.
    - intros (x & H & E). apply bytes_eqb_eq in E. subst. auto.
    - intros H. exists k. split; auto. apply bytes_eqb_refl.
  Qed.

  Lemma last_with_spec eps k :
    match last_with eps k with
    | Some e => In e eps /\ ep_key e = k
    | None => ~ In k (map ep_key eps)
    end.
  Proof.
    unfold last_with. destruct (find _ (rev eps)) as [e|] eqn:F.
    - apply find_some in F. destruct F as [F1 F2]. apply in_rev in F1. apply bytes_eqb_eq in F2. auto.
    - intros H. apply in_map_iff in H. destruct H as (e & E & H). apply in_rev in H.
      apply (find_none _ _ F) in H. rewrite <- E, bytes_eqb_refl in H. discriminate.
  Qed.

  Lemma fold_erase_spec (nk : list (list byte)) os r :
    sorted r ->
    let f := fun r k => if ckey_in k nk then r else erase_nodes hash nodes r k in
    sorted (fold_left f os r) /\
    forall p e, In (p, e) (fold_left f os r) <->
      In (p, e) r /\ forall k i, In k os -> ~ In k nk -> (i < nodes)%nat -> p <> pt k i.
  Proof.
    intros S f. revert r S. induction os as [|k os IH]; intros r S; cbn [fold_left].
    - split; auto. intros p e. split; [intros H; split; auto; intros k i []|tauto].
    - assert (Hf : sorted (f r k) /\ forall p e, In (p, e) (f r k) <->
        In (p, e) r /\ forall i, ~ In k nk -> (i < nodes)%nat -> p <> pt k i).
      { unfold f. destruct (ckey_in k nk) eqn:C.
        - apply ckey_in_iff in C. split; auto. intros p e. split; [intros H; split; auto; tauto|tauto].
        - assert (~ In k nk) by (intros H; apply ckey_in_iff in H; congruence).
          destruct (erase_nodes_spec r k S) as [S1 I1]. split; auto. intros p e. rewrite I1.
          split; intros [H1 H2]; split; auto. }
      destruct Hf as [S1 I1]. destruct (IH _ S1) as [S2 I2]. split; auto.
      intros p e. rewrite I2, I1. cbn [In]. split.
      + intros [[H1 H2] H3]. split; auto. intros k' i [<-|Hk]; auto.
      + intros [H1 H2]. repeat split; auto. 
  Qed.

  Lemma fold_set_spec eps (ok : list (list byte)) ns r :
    sorted r -> (forall k, In k ns -> In k (map ep_key eps)) ->
    (forall k k' i i', In k (map ep_key eps) -> In k' (map ep_key eps) -> (i < nodes)%nat -> (i' < nodes)%nat ->
       pt k i = pt k' i' -> k = k') ->
    let f := fun r k => if ckey_in k ok then r
                        else match last_with eps k with Some e => set_nodes hash nodes r k e | None => r end in
    sorted (fold_left f ns r) /\
    forall p e, In (p, e) (fold_left f ns r) <->
      (exists k i, In k ns /\ ~ In k ok /\ (i < nodes)%nat /\ p = pt k i /\ last_with eps k = Some e) \/
      (In (p, e) r /\ forall k i, In k ns -> ~ In k ok -> (i < nodes)%nat -> p <> pt k i).
  Proof.
    intros S Hns Hinj f. revert r S. induction ns as [|k ns IH]; intros r S; cbn [fold_left].
    - split; auto. intros p e. split; [intros H; right; split; auto; intros k i []|].
      intros [(k & i & [] & _)|[H _]]; auto.
    - assert (Hk : In k (map ep_key eps)) by (apply Hns; left; auto).
      destruct (last_with eps k) as [v|] eqn:L;
        [|pose proof (last_with_spec eps k) as LS; rewrite L in LS; contradiction].
      assert (Hf : sorted (f r k) /\ forall p e, In (p, e) (f r k) <->
        (exists i, ~ In k ok /\ (i < nodes)%nat /\ p = pt k i /\ e = v) \/
        (In (p, e) r /\ forall i, ~ In k ok -> (i < nodes)%nat -> p <> pt k i)).
      { unfold f. destruct (ckey_in k ok) eqn:C.
        - apply ckey_in_iff in C. split; auto. intros p e. split; [intros H; right; split; auto; tauto|].
          intros [(i & H & _)|[H _]]; tauto.
        - assert (N : ~ In k ok) by (intros H; apply ckey_in_iff in H; congruence).
          rewrite L. destruct (set_nodes_spec r k v S) as [S1 I1]. split; auto. intros p e. rewrite I1.
          split.
          + intros [[(i & Hi & E) Ev]|[H1 H2]]; [left; eauto 6|right; split; auto].
          + intros [(i & _ & Hi & E & Ev)|[H1 H2]]; [left; split; eauto|right; split; auto]. }
      destruct Hf as [S1 I1].
      destruct (IH (fun k' H => Hns k' (or_intror H)) _ S1) as [S2 I2]. split; auto.
      intros p e. rewrite I2, I1. cbn [In]. split.
      + intros [(k' & i & H1 & H2 & H3 & H4 & H5)|[[(i & H1 & H2 & H3 & H4)|[H1 H2]] H5]].
        * left. exists k', i. auto 8.
        * left. exists k, i. subst e. auto 8.
        * right. split; auto. intros k' i [<-|Hk']; auto.
      + intros [(k' & i & [Ek|H1] & H2 & H3 & H4 & H5)|[H1 H2]].
        * subst k'. rewrite L in H5. inversion H5; subst e.
          destruct (in_dec (list_eq_dec Byte.byte_eq_dec) k ns) as [D|D].
          -- left. exists k, i. auto 8.
          -- right. split; [left; eauto 6|]. intros k' i' Hk' Hk2 Hi' E. apply D.
             assert (Ek : k = k').
             { apply (Hinj k k' i i'); auto; [apply Hns; right; auto|congruence]. }
             rewrite Ek. exact Hk'.
        * left. exists k', i. auto 8.
        * right. split; [right; split; auto|]. intros k' i Hk'. auto.
  Qed.

  (** What the table looks like for the latest list [eps]. *)
  Definition ring_ok (eps : list endpoint) (r : ring) : Prop :=
    sorted r /\
    (forall p e, In (p, e) r -> In (addr e) (map addr eps) /\ exists i, (i < nodes)%nat /\ p = pt (ep_key e) i) /\
    (forall e i, In e eps -> (i < nodes)%nat -> exists e', In (pt (ep_key e) i, e') r /\ addr e' = addr e).

  Lemma addr_key e e' : addr e = addr e' -> ep_key e = ep_key e'.
  Proof. unfold addr, ep_key. intros H. inversion H. congruence. Qed.

  Lemma ring_ok_addr eps eps' r : map addr eps = map addr eps' -> ring_ok eps r -> ring_ok eps' r.
  Proof.
    intros E (S & A & B). split; auto. split; [intros p e H; rewrite <- E; auto|].
    intros e i He Hi. apply (in_map addr) in He. rewrite <- E in He. apply in_map_iff in He.
    destruct He as (e0 & E0 & He0). destruct (B e0 i He0 Hi) as (e' & H1 & H2).
    exists e'. rewrite <- (addr_key e0 e E0), <- E0. auto.
  Qed.

  Hypothesis nodes_pos : (0 < nodes)%nat.

  Lemma update_ok old eps r os ns :
    ring_ok old r ->
    (forall k, In k os <-> In k (map ep_key old)) -> (forall k, In k ns <-> In k (map ep_key eps)) ->
    collision_free hash nodes (old ++ eps) ->
    ring_ok eps
      (fold_left (fun r k => if ckey_in k (map ep_key old) then r
                             else match last_with eps k with Some e => set_nodes hash nodes r k e | None => r end) ns
         (fold_left (fun r k => if ckey_in k (map ep_key eps) then r else erase_nodes hash nodes r k) os r)).
  Proof.
    intros (S & A & B) Hos Hns Hcf.
    assert (Hc : forall e e' i i', In e (old ++ eps) -> In e' (old ++ eps) -> (i < nodes)%nat -> (i' < nodes)%nat ->
               pt (ep_key e) i = pt (ep_key e') i' -> addr e = addr e').
    { intros e e' i i' H1 H2 H3 H4 E. apply (Hcf _ _ i i'); auto using in_map. }
    assert (Hk : forall e e', In e (old ++ eps) -> In e' (old ++ eps) -> ep_key e = ep_key e' -> addr e = addr e').
    { intros e e' H1 H2 E. apply (Hc e e' 0%nat 0%nat); auto. congruence. }
    destruct (fold_erase_spec (map ep_key eps) os r S) as [S1 I1].
    set (r1 := fold_left _ os r) in *.
    destruct (fold_set_spec eps (map ep_key old) ns r1 S1 (fun k H => proj1 (Hns k) H)) as [S2 I2].
    { intros k k' i i' H1 H2 H3 H4 E. apply in_map_iff in H1, H2.
      destruct H1 as (e & <- & He). destruct H2 as (e' & <- & He').
      apply addr_key. apply (Hc e e' i i'); auto using in_or_app. }
    set (r2 := fold_left _ ns r1) in *. split; auto. split.
    - intros p e Hin. apply I2 in Hin.
      destruct Hin as [(k & i & H1 & H2 & H3 & H4 & H5)|[H1 H2]].
      + pose proof (last_with_spec eps k) as LS. rewrite H5 in LS. destruct LS as [L1 L2].
        split; [apply in_map; auto|]. exists i. rewrite L2. auto.
      + apply I1 in H1. destruct H1 as [H1 H3]. destruct (A p e H1) as (A1 & i & A2 & A3).
        split; [|eauto]. apply in_map_iff in A1. destruct A1 as (o & Eo & Ho).
        destruct (in_dec (list_eq_dec Byte.byte_eq_dec) (ep_key o) (map ep_key eps)) as [D|D].
        * apply in_map_iff in D. destruct D as (n & En & Hn).
          rewrite <- Eo, <- (Hk n o); auto using in_or_app, in_map.
        * exfalso. apply (H3 (ep_key o) i); auto; [apply Hos, in_map; auto|].
          rewrite A3. f_equal. symmetry. apply addr_key. auto.
    - intros e i He Hi.
      assert (Hsome : exists v, last_with eps (ep_key e) = Some v /\ addr v = addr e).
      { pose proof (last_with_spec eps (ep_key e)) as LS. destruct (last_with eps (ep_key e)) as [v|].
        - exists v. split; auto. apply Hk; try apply in_or_app; try tauto.
        - exfalso. apply LS. apply in_map. auto. }
      destruct Hsome as (v & Lv & Av).
      destruct (in_dec (list_eq_dec Byte.byte_eq_dec) (ep_key e) (map ep_key old)) as [D|D].
      + apply in_map_iff in D. destruct D as (o & Eo & Ho).
        destruct (B o i Ho Hi) as (e' & H1 & H2).
        exists e'. split.
        * apply I2. right. rewrite <- Eo. split.
          -- apply I1. split; auto. intros k j Hk1 Hk2 Hj E. apply Hos in Hk1.
             apply in_map_iff in Hk1. destruct Hk1 as (o' & <- & Ho').
             apply Hk2. rewrite <- (addr_key o o'); [rewrite Eo; apply in_map; auto|].
             apply (Hc o o' i j); auto using in_or_app.
          -- intros k j Hk1 Hk2 Hj E. apply Hns in Hk1. apply in_map_iff in Hk1.
             destruct Hk1 as (n & <- & Hn). apply Hk2.
             rewrite <- (addr_key o n); [apply in_map; auto|]. apply (Hc o n i j); auto using in_or_app.
        * rewrite H2. apply Hk; auto using in_or_app.
      + exists v. split; auto. apply I2. left. exists (ep_key e), i.
        repeat split; auto. apply Hns, in_map; auto.
  Qed.

  Lemma ring_ok_nil : ring_ok [] [].
  Proof. split; [constructor|]. split; [intros p e []|intros e i []]. Qed.

  Lemma collision_free_incl l l' : incl l l' -> collision_free hash nodes l' -> collision_free hash nodes l.
  Proof. intros I H a a' i i' Ha Ha'. apply H; apply (incl_map addr I); auto. Qed.

  Lemma reach_ok eps hist st :
    ch_reach hash nodes eps hist st -> collision_free hash nodes (concat hist) ->
    exists l r, st = Some (l, r) /\ map addr l = map addr eps /\ ring_ok eps r /\ incl eps (concat hist).
  Proof.
    induction 1 as [eps os ns Hns Hos|old hist st eps os ns Hr IH Hos Hns]; intros Hcf.
    - subst os. exists eps. eexists. split; [reflexivity|]. split; auto. split.
      + change (ring_ok eps
          (fold_left (fun r k => if ckey_in k (map ep_key []) then r
                             else match last_with eps k with Some e => set_nodes hash nodes r k e | None => r end) ns
         (fold_left (fun r k => if ckey_in k (map ep_key eps) then r else erase_nodes hash nodes r k) [] []))).
        apply update_ok; auto using ring_ok_nil.
        * intros k. split; intros [].
        * cbn [concat app] in *. rewrite app_nil_r in Hcf. exact Hcf.
      + cbn [concat]. rewrite app_nil_r. apply incl_refl.
    - destruct IH as (l & r & -> & El & Hok & Hincl).
      { apply (collision_free_incl _ (concat (eps :: hist))); auto. cbn [concat]. apply incl_appr, incl_refl. }
      unfold ch_update. destruct (info_diff l eps) eqn:D.
      + exists eps. eexists. split; [reflexivity|]. split; auto. split; [|cbn [concat]; apply incl_appl, incl_refl].
        apply update_ok; auto.
        * apply (ring_ok_addr old); auto.
        * intros k. rewrite Hos. rewrite !in_map_iff.
          split; intros (e & <- & He); apply (in_map addr) in He.
          -- rewrite <- El in He. apply in_map_iff in He. destruct He as (e' & E & He'). eauto using addr_key.
          -- rewrite El in He. apply in_map_iff in He. destruct He as (e' & E & He'). eauto using addr_key.
        * intros a a' i i' Ha Ha'. apply Hcf; rewrite map_app, ?in_app_iff in *.
          -- rewrite El in Ha. destruct Ha as [Ha|Ha].
             ++ apply (incl_map addr Hincl) in Ha. cbn [concat]. rewrite map_app, in_app_iff. auto.
             ++ cbn [concat]. rewrite map_app, in_app_iff. auto.
          -- rewrite El in Ha'. destruct Ha' as [Ha'|Ha'].
             ++ apply (incl_map addr Hincl) in Ha'. cbn [concat]. rewrite map_app, in_app_iff. auto.
             ++ cbn [concat]. rewrite map_app, in_app_iff. auto.
      + exists l, r. split; auto. pose proof (info_diff_addr _ _ D) as El'. split; auto. split.
        * apply (ring_ok_addr old); auto. congruence.
        * cbn [concat]. apply incl_appl, incl_refl.
  Qed.

  Hypothesis hash_range : forall l, 0 <= hash l < 2 ^ 64.

  Lemma lower_bound_spec r h :
    sorted r ->
    match ring_lower_bound r h with
    | Some (k, e) => In (k, e) r /\ h <= k /\ forall k' e', In (k', e') r -> k' < h \/ k <= k'
    | None => forall k' e', In (k', e') r -> k' < h
    end.
  Proof.
    clear nodes_pos hash_range pt hash nodes.
    induction r as [|[k0 e0] r IH]; intros S; cbn [ring_lower_bound]; [intros k' e' []|].
    apply sorted_cons_inv in S. destruct S as [S1 S2]. destruct (h <=? k0) eqn:L.
    - split; [left; auto|]. split; [lia|]. intros k' e' [H|H]; [inversion H; lia|].
      specialize (S2 _ H). cbn [fst] in S2. lia.
    - specialize (IH S1). destruct (ring_lower_bound r h) as [[k e]|].
      + destruct IH as (I1 & I2 & I3). split; [right; auto|]. split; auto.
        intros k' e' [H|H]; [inversion H; lia|eauto].
      + intros k' e' [H|H]; [inversion H; lia|eauto].
  Qed.

  Lemma clockwise_ge from to : 0 <= from < 2 ^ 64 -> 0 <= to < 2 ^ 64 -> from <= to -> clockwise from to = to - from.
  Proof. intros. unfold clockwise. apply Z.mod_small. lia. Qed.
  Lemma clockwise_lt from to : 0 <= from < 2 ^ 64 -> 0 <= to < 2 ^ 64 -> to < from -> clockwise from to = to - from + 2 ^ 64.
  Proof.
    intros. unfold clockwise. rewrite <- (Z.mod_add (to - from) 1 (2 ^ 64)) by lia.
    rewrite Z.mod_small by lia. lia.
  Qed.

  Lemma next_owns eps l r h :
    ring_ok eps r -> eps <> [] -> 0 <= h < 2 ^ 64 ->
    exists e, ch_next (Some (l, r)) h = Some e /\ owns (point hash) nodes eps h (addr e).
  Proof.
    intros (S & A & B) Hne Hh.
    assert (Hr : forall p e, In (p, e) r -> 0 <= p < 2 ^ 64).
    { intros p e H. destruct (A p e H) as (_ & i & _ & ->). apply hash_range. }
    (* the chosen pair is the clockwise first *)
    assert (Hpick : exists p e, In (p, e) r /\ ch_next (Some (l, r)) h = Some e /\
              forall p' e', In (p', e') r -> clockwise h p <= clockwise h p').
    { destruct r as [|[k0 e0] r'] eqn:Er.
      - exfalso. destruct eps as [|e1 es]; [congruence|].
        destruct (B e1 0%nat (or_introl eq_refl) nodes_pos) as (e' & [] & _).
      - rewrite <- Er in *. pose proof (lower_bound_spec r h S) as L.
        assert (En : ch_next (Some (l, r)) h =
                     match ring_lower_bound r h with Some (_, e) => Some e | None => Some e0 end)
          by (rewrite Er; reflexivity).
        rewrite En. clear En.
        destruct (ring_lower_bound r h) as [[k e]|].
        + destruct L as (L1 & L2 & L3). exists k, e. split; auto. split; auto. intros p' e' H.
          pose proof (Hr _ _ L1). pose proof (Hr _ _ H). destruct (L3 _ _ H).
          * rewrite (clockwise_ge h k), (clockwise_lt h p') by lia. lia.
          * rewrite (clockwise_ge h k), (clockwise_ge h p') by lia. lia.
        + assert (H0 : In (k0, e0) r) by (rewrite Er; left; auto).
          exists k0, e0. split; auto. split; auto. intros p' e' H.
          pose proof (L _ _ H0). pose proof (L _ _ H). pose proof (Hr _ _ H0). pose proof (Hr _ _ H).
          rewrite (clockwise_lt h k0), (clockwise_lt h p') by lia.
          assert (k0 <= p'); [|lia]. rewrite Er in S, H. apply sorted_cons_inv in S. destruct S as [_ S2].
          destruct H as [H|H]; [inversion H; lia|]. specialize (S2 _ H). cbn [fst] in S2. lia. }
    destruct Hpick as (p & e & Hin & Hn & Hmin). exists e. split; auto.
    destruct (A p e Hin) as (A1 & i & A2 & A3). split; auto. exists i. split; auto.
    intros a' i' Ha' Hi'. apply in_map_iff in Ha'. destruct Ha' as (e1 & <- & He1).
    destruct (B e1 i' He1 Hi') as (e2 & H2 & _).
    change (point hash (addr e) i) with (pt (ep_key e) i). rewrite <- A3.
    exact (Hmin _ _ H2).
  Qed.

  Lemma owns_unique eps eps' h a a' :
    0 <= h < 2 ^ 64 -> collision_free hash nodes (eps ++ eps') ->
    owns (point hash) nodes eps h a -> owns (point hash) nodes eps' h a' ->
    In a (map addr eps') -> In a' (map addr eps) -> a = a'.
  Proof.
    intros Hh Hcf (Ha & i & Hi & Hm) (Ha' & i' & Hi' & Hm') I I'.
    assert (E : clockwise h (point hash a i) = clockwise h (point hash a' i')).
    { apply Z.le_antisymm; auto. }
    apply (Hcf a a' i i'); auto; try (rewrite map_app, in_app_iff; auto).
    pose proof (hash_range ((fst a ++ dec_int (snd a)) ++ dec_int (Z.of_nat i))).
    pose proof (hash_range ((fst a' ++ dec_int (snd a')) ++ dec_int (Z.of_nat i'))).
    unfold point in *.
    set (x := hash ((fst a ++ _) ++ _)) in *. set (y := hash ((fst a' ++ _) ++ _)) in *.
    destruct (Z_le_gt_dec h x), (Z_le_gt_dec h y);
      [rewrite !clockwise_ge in E by lia|rewrite clockwise_ge, clockwise_lt in E by lia
      |rewrite clockwise_lt, clockwise_ge in E by lia|rewrite !clockwise_lt in E by lia]; lia.
  Qed.

  Lemma consistent_owner eps hist st h :
    ch_reach hash nodes eps hist st -> collision_free hash nodes (concat hist) -> eps <> [] -> 0 <= h < 2 ^ 64 ->
    exists e, ch_next st h = Some e /\ owns (point hash) nodes eps h (addr e).
  Proof.
    intros Hr Hcf Hne Hh. destruct (reach_ok _ _ _ Hr Hcf) as (l & r & -> & _ & Hok & _).
    apply (next_owns eps); auto.
  Qed.

  Lemma consistent_two eps hist st eps' hist' st' h e e' :
    ch_reach hash nodes eps hist st -> ch_reach hash nodes eps' hist' st' ->
    collision_free hash nodes (concat hist ++ concat hist') -> 0 <= h < 2 ^ 64 ->
    ch_next st h = Some e -> ch_next st' h = Some e' ->
    In (addr e) (map addr eps') -> In (addr e') (map addr eps) -> addr e = addr e'.
  Proof.
    intros Hr Hr' Hcf Hh En En' I I'.
    assert (C1 : collision_free hash nodes (concat hist))
      by (apply (collision_free_incl _ _ (incl_appl _ (incl_refl _)) Hcf)).
    assert (C2 : collision_free hash nodes (concat hist'))
      by (apply (collision_free_incl _ _ (incl_appr _ (incl_refl _)) Hcf)).
    assert (N : eps <> []) by (intros ->; destruct I').
    assert (N' : eps' <> []) by (intros ->; destruct I).
    destruct (consistent_owner _ _ _ h Hr C1 N Hh) as (x & X1 & X2).
    destruct (consistent_owner _ _ _ h Hr' C2 N' Hh) as (y & Y1 & Y2).
    rewrite En in X1. rewrite En' in Y1. inversion X1; inversion Y1; subst x y.
    apply (owns_unique eps eps' h); auto.
    destruct (reach_ok _ _ _ Hr C1) as (_ & _ & _ & _ & _ & J1).
    destruct (reach_ok _ _ _ Hr' C2) as (_ & _ & _ & _ & _ & J2).
    apply (collision_free_incl _ (concat hist ++ concat hist')); auto.
    apply incl_app; [apply incl_appl|apply incl_appr]; auto.
  Qed.

  Lemma consistent_in eps hist st h e :
    ch_reach hash nodes eps hist st -> collision_free hash nodes (concat hist) -> 0 <= h < 2 ^ 64 ->
    ch_next st h = Some e -> In (addr e) (map addr eps).
  Proof.
    intros Hr Hcf Hh En. destruct eps as [|e1 es] eqn:E.
    - destruct (reach_ok _ _ _ Hr Hcf) as (l & r & -> & _ & (S & A & B) & _).
      exfalso. destruct r as [|[k0 e0] r']; [discriminate|]. destruct (A k0 e0 (or_introl eq_refl)) as ([] & _).
    - rewrite <- E in *. assert (N : eps <> []) by (rewrite E; discriminate).
      destruct (consistent_owner _ _ _ h Hr Hcf N Hh) as (x & X1 & X2). rewrite En in X1. inversion X1; subst x.
      apply X2.
  Qed.
End Ring.

(** ** Counterexamples *)
Definition ip (s : string) (p st w : Z) : endpoint := mk_ep (list_byte_of_string s) p st w 0.

(** Two addresses with the same concatenated key: the replaced endpoint keeps being selected,
    whatever the hash function. *)
Lemma key_collision :
  exists old new e, map addr old <> map addr new /\
    forall hash nodes h, (0 < nodes)%nat ->
      exists st, ch_reach hash nodes new [new; old] st /\ ch_next st h = Some e /\ ~ In (addr e) (map addr new).
Proof.
  exists [ip "10.0.0.1" 180 0 1], [ip "10.0.0.11" 80 0 1], (ip "10.0.0.1" 180 0 1).
  split; [discriminate|]. intros hash nodes h Hn.
  set (o := ip "10.0.0.1" 180 0 1). set (n := ip "10.0.0.11" 80 0 1).
  assert (K : ep_key n = ep_key o) by reflexivity.
  exists (ch_update hash nodes (ch_update hash nodes None [o] [] [ep_key o]) [n] [ep_key o] [ep_key n]).
  split; [|split].
  - apply ch_more with (old := [o]).
    + apply ch_first; auto. intros k. cbn [map]. tauto.
    + intros k. cbn [map]. tauto.
    + intros k. cbn [map]. tauto.
  - assert (U1 : ch_update hash nodes None [o] [] [ep_key o] = Some ([o], set_nodes hash nodes [] (ep_key o) o)) by reflexivity.
    rewrite U1.
    assert (U2 : ch_update hash nodes (Some ([o], set_nodes hash nodes [] (ep_key o) o)) [n] [ep_key o] [ep_key n] =
                 Some ([n], set_nodes hash nodes [] (ep_key o) o)) by reflexivity.
    rewrite U2.
    destruct (set_nodes_spec hash nodes [] (ep_key o) o) as [S I]; [constructor|].
    set (r := set_nodes hash nodes [] (ep_key o) o) in *.
    assert (All : forall p e, In (p, e) r -> e = o).
    { intros p e H. apply I in H. destruct H as [[_ E]|[[] _]]. auto. }
    destruct r as [|[k0 e0] r'] eqn:Er.
    + exfalso. apply (proj2 (I (node_hash hash (ep_key o) 0) o)). left. split; eauto.
    + assert (E0 : e0 = o) by (apply (All k0); left; auto).
      pose proof (lower_bound_spec _ h S) as L.
      change (match ring_lower_bound ((k0, e0) :: r') h with Some (_, e) => Some e | None => Some e0 end = Some o).
      destruct (ring_lower_bound _ h) as [[k e]|]; [|congruence].
      destruct L as (L & _). rewrite (All _ _ L). reflexivity.
  - intros [H|[]]. discriminate.
Qed.

(** Virtual node 11 of port 80 is virtual node 1 of port 801: adding and removing the latter
    takes a point of the former off the ring. *)
Lemma node_collision :
  let a := ip "10.0.0.1" 80 0 1 in let b := ip "10.0.0.1" 801 0 1 in let c := ip "10.0.0.2" 10 0 1 in
  exists st h, ch_reach bkdr 12 [a; c] [[a; c]; [a; b; c]; [a; c]] st /\
    0 <= h < 2 ^ 64 /\
    ch_next (ch_update bkdr 12 None [a; c] [] (map ep_key [a; c])) h = Some a /\ ch_next st h = Some c.
Proof.
  intros a b c.
  exists (ch_update bkdr 12 (ch_update bkdr 12 (ch_update bkdr 12 None [a; c] [] (map ep_key [a; c]))
            [a; b; c] (map ep_key [a; c]) (map ep_key [a; b; c])) [a; c] (map ep_key [a; b; c]) (map ep_key [a; c])).
  exists 17930438518921203174. split; [|split; [lia|split]].
  - apply ch_more with (old := [a; b; c]); [apply ch_more with (old := [a; c]); [apply ch_first|..]|..];
      auto; intros k; tauto.
  - vm_compute. reflexivity.
  - vm_compute. reflexivity.
Qed.

(** A changed status (or weight, or meta) does not reach the ring. *)
Lemma stale_record :
  let a s := ip "10.0.0.1" 80 s 1 in
  forall hash nodes h, (0 < nodes)%nat ->
  exists st, ch_reach hash nodes [a 1] [[a 1]; [a 0]] st /\ ch_next st h = Some (a 0) /\ ~ In (a 0) [a 1].
Proof.
  intros a hash nodes h Hn.
  set (o := a 0). set (n := a 1). assert (K : ep_key n = ep_key o) by reflexivity.
  exists (ch_update hash nodes (ch_update hash nodes None [o] [] [ep_key o]) [n] [ep_key o] [ep_key n]).
  split; [|split].
  - apply ch_more with (old := [o]).
    + apply ch_first; auto. intros k. cbn [map]. tauto.
    + intros k. cbn [map]. tauto.
    + intros k. cbn [map]. tauto.
  - assert (U1 : ch_update hash nodes None [o] [] [ep_key o] = Some ([o], set_nodes hash nodes [] (ep_key o) o)) by reflexivity.
    rewrite U1.
    assert (U2 : ch_update hash nodes (Some ([o], set_nodes hash nodes [] (ep_key o) o)) [n] [ep_key o] [ep_key n] =
                 Some ([n], set_nodes hash nodes [] (ep_key o) o)) by reflexivity.
    rewrite U2.
    destruct (set_nodes_spec hash nodes [] (ep_key o) o) as [S I]; [constructor|].
    set (r := set_nodes hash nodes [] (ep_key o) o) in *.
    assert (All : forall p e, In (p, e) r -> e = o).
    { intros p e H. apply I in H. destruct H as [[_ E]|[[] _]]. auto. }
    destruct r as [|[k0 e0] r'] eqn:Er.
    + exfalso. apply (proj2 (I (node_hash hash (ep_key o) 0) o)). left. split; eauto.
    + assert (E0 : e0 = o) by (apply (All k0); left; auto).
      pose proof (lower_bound_spec _ h S) as L.
      change (match ring_lower_bound ((k0, e0) :: r') h with Some (_, e) => Some e | None => Some e0 end = Some o).
      destruct (ring_lower_bound _ h) as [[k e]|]; [|congruence].
      destruct L as (L & _). rewrite (All _ _ L). reflexivity.
  - intros [H|[]]. discriminate.
Qed.

(** ** Modulo hash *)
Lemma mh_next_spec st eps h :
  eps <> [] -> 0 <= h ->
  exists e e', mh_next (mh_update st eps) h = Some e /\
    nth_error eps (Z.to_nat (h mod Z.of_nat (length eps))) = Some e' /\
    host e = host e' /\ port e = port e' /\ status e = status e'.
Proof.
  intros Hne Hh.
  assert (G : exists l, mh_update st eps = Some l /\
     map (fun e => (host e, port e, status e)) l = map (fun e => (host e, port e, status e)) eps).
  { unfold mh_update. destruct st as [old|]; [destruct (info_diff old eps) eqn:D|]; eauto.
    exists old. split; auto. apply info_diff_false. auto. }
  destruct G as (l & -> & E). assert (Hl : length l = length eps).
  { rewrite <- (map_length (fun e => (host e, port e, status e)) l), E, map_length. reflexivity. }
  destruct eps as [|d0 r0] eqn:Ee; [congruence|]. rewrite <- Ee in *.
  assert (Hpos : 0 < Z.of_nat (length eps)) by (rewrite Ee; cbn [length]; lia).
  set (i := Z.to_nat (h mod Z.of_nat (length eps))).
  assert (Hi : (i < length eps)%nat) by (pose proof (Z.mod_pos_bound h (Z.of_nat (length eps)) Hpos); lia).
  destruct l as [|d r] eqn:El; [cbn in Hl; lia|]. rewrite <- El in *.
  exists (nth i l d), (nth i eps d).
  set (f := fun e => (host e, port e, status e)) in *.
  assert (M : f (nth i l d) = f (nth i eps d)) by (rewrite <- (map_nth f l), <- (map_nth f eps), E; reflexivity).
  unfold f in M. inversion M as [[M1 M2 M3]].
  split; [|split; [apply nth_error_nth'; auto|rewrite M1, M2, M3; auto]].
  unfold mh_next. rewrite El at 1. rewrite <- El, Hl. reflexivity.
Qed.
