(** Lemmas about the timeout queue. *)
From Coq Require Import Permutation.
From Verif.Lib Require Import Base ListX.
From Verif.Timer Require Import Model Spec.
Local Open Scope Z_scope.

Lemma int32_id z : - 2 ^ 31 <= z < 2 ^ 31 -> int32 z = z.
Proof. intros H. unfold int32. rewrite Z.mod_small; lia. Qed.

Lemma land_ones n k a : 0 <= k -> n = 2 ^ k - 1 -> Z.land a n = a mod 2 ^ k.
Proof. intros Hk ->. rewrite <- Z.land_ones by auto. f_equal. rewrite Z.ones_equiv. lia. Qed.

Definition shift (l : nat) : Z := match l with 1%nat => 10 | 2%nat => 16 | 3%nat => 22 | _ => 28 end.
Definition bits (l : nat) : Z := match l with 4%nat => 4 | _ => 6 end.

(** [P l]: 2^shift; [S l]: number of slots. *)
Definition P (l : nat) : Z := 2 ^ shift l.
Definition N (l : nat) : Z := 2 ^ bits l.

Lemma P_eq : P 1 = 1024 /\ P 2 = 65536 /\ P 3 = 4194304 /\ P 4 = 268435456.
Proof. repeat split; reflexivity. Qed.

Lemma place_spec last e :
  - 2 ^ 31 <= e - last < 2 ^ 31 ->
  place last e =
    if e <? last then (0%nat, last mod 1024)
    else if e - last <? 1024 then (0%nat, e mod 1024)
    else if e - last <? P 2 then (1%nat, (e / P 1) mod N 1)
    else if e - last <? P 3 then (2%nat, (e / P 2) mod N 2)
    else if e - last <? P 4 then (3%nat, (e / P 3) mod N 3)
    else (4%nat, (e / P 4) mod N 4).
Proof.
  intros H. unfold place. rewrite int32_id by auto.
  replace (e - last <? 0) with (e <? last) by (destruct (Z.ltb_spec e last), (Z.ltb_spec (e - last) 0); lia).
  rewrite !Z.shiftr_div_pow2 by lia.
  rewrite (land_ones 1023 10 last), (land_ones 1023 10 e) by lia.
  rewrite !(land_ones 63 6), (land_ones 15 4) by lia. reflexivity.
Qed.

(** Where a node may be.  [base l] is the last tick up to which level [l] has been cascaded. *)
Definition node_ok (last : Z) (base : nat -> Z) (n : node) : Prop :=
  match n_level n with
  | O => last <= n_due n < last + 1024 /\ n_slot n = n_due n mod 1024
  | S m =>
      (S m <= 4)%nat /\ n_due n = n_exp n /\ n_slot n = (n_exp n / P (S m)) mod N (S m) /\
      base (S m) / P (S m) < n_exp n / P (S m) <= base (S m) / P (S m) + N (S m)
  end.

Lemma div_up a b p k : 0 < p -> b <= a + k * p -> b / p <= a / p + k.
Proof. intros Hp H. replace (a / p + k) with ((a + k * p) / p) by (rewrite Z.div_add by lia; lia). apply Z.div_le_mono; lia. Qed.

Lemma div_lo a b p : 0 < p -> a + p <= b -> a / p < b / p.
Proof. intros Hp H. assert (a / p + 1 <= b / p); [|lia]. replace (a / p + 1) with ((a + 1 * p) / p) by (rewrite Z.div_add by lia; lia). apply Z.div_le_mono; lia. Qed.

Lemma P1' : P 1 = 1024.
Proof. reflexivity. Qed.

(** A node linked now is in a place that suits it. *)
Lemma place_ok last base id e due :
  - 2 ^ 31 <= e - last < 2 ^ 31 -> due = Z.max e last ->
  (forall l, (1 <= l <= 4)%nat -> last - 1 <= base l <= last) ->
  (forall l, (1 <= l <= 4)%nat -> P l <= e - last -> (e - last < P (S l) \/ l = 4%nat) ->
     base l / P l < e / P l <= base l / P l + N l) ->
  node_ok last base (let '(l, s) := place last e in mk_node id e l s due).
Proof.
  intros H Hd Hb Hc. rewrite place_spec by auto. unfold node_ok.
  destruct (Z.ltb_spec e last); [cbn [n_level n_due n_slot]; replace due with last by lia; split; [lia|reflexivity]|].
  replace due with e by lia.
  destruct (Z.ltb_spec (e - last) 1024); [cbn [n_level n_due n_slot]; split; [lia|reflexivity]|].
  destruct (Z.ltb_spec (e - last) (P 2)); [cbn [n_level n_due n_slot n_exp]; repeat split; auto; try apply Hc; auto; try lia; rewrite P1'; lia|].
  destruct (Z.ltb_spec (e - last) (P 3)); [cbn [n_level n_due n_slot n_exp]; repeat split; auto; apply Hc; auto; lia|].
  destruct (Z.ltb_spec (e - last) (P 4)); [cbn [n_level n_due n_slot n_exp]; repeat split; auto; apply Hc; auto; lia|].
  cbn [n_level n_due n_slot n_exp]; repeat split; auto; apply Hc; auto; lia.
Qed.

Lemma P_step l : (1 <= l <= 3)%nat -> P (S l) = P l * N l.
Proof. intros H. destruct l as [|[|[|[|l]]]]; try lia; reflexivity. Qed.
Lemma P_div k l : (1 <= k)%nat -> (k <= l)%nat -> (l <= 4)%nat -> (P k | P l).
Proof.
  intros H1 H2 H3. exists (P l / P k).
  destruct k as [|[|[|[|[|k]]]]]; try (exfalso; lia); destruct l as [|[|[|[|[|l]]]]]; try (exfalso; lia); vm_compute; reflexivity.
Qed.
Lemma P_pos l : 0 < P l.
Proof. unfold P. apply Z.pow_pos_nonneg; [lia|]. unfold shift. destruct l as [|[|[|[|l]]]]; lia. Qed.
Lemma N_pos l : 0 < N l.
Proof. unfold N. apply Z.pow_pos_nonneg; [lia|]. unfold bits. destruct l as [|[|[|[|[|l]]]]]; lia. Qed.

Lemma P_mono k l : (1 <= k)%nat -> (k <= l)%nat -> (l <= 4)%nat -> P k <= P l.
Proof.
  intros H1 H2 H3.
  destruct k as [|[|[|[|[|k]]]]]; try (exfalso; lia); destruct l as [|[|[|[|[|l]]]]]; try (exfalso; lia); vm_compute; discriminate.
Qed.
Lemma P_max k : (k <= 4)%nat -> P k <= 268435456.
Proof. intros H. destruct k as [|[|[|[|[|k]]]]]; try (exfalso; lia); vm_compute; discriminate. Qed.
Lemma PN4 : P 4 * N 4 = 2 ^ 32.
Proof. reflexivity. Qed.
Lemma P4 : P 4 = 268435456.
Proof. reflexivity. Qed.
Lemma P1 : P 1 = 1024.
Proof. reflexivity. Qed.

Lemma add_ok last id e :
  - 2 ^ 31 <= e - last < 2 ^ 31 ->
  node_ok last (fun _ => last - 1) (let '(l, s) := place last e in mk_node id e l s (Z.max e last)).
Proof.
  intros H. apply place_ok; auto; [intros; lia|]. intros l Hl H1 H2. pose proof (P_pos l). pose proof (N_pos l). split.
  - apply div_lo; lia.
  - apply div_up; auto. destruct (Nat.eq_dec l 4) as [->|Hn].
    + pose proof PN4. lia.
    + destruct H2 as [H2|]; [|lia]. rewrite P_step in H2 by lia. lia.
Qed.

(** ** Cascading *)
Definition casc (k : nat) (last : Z) : nat -> Z := fun l => if (l <? k)%nat then last else last - 1.

Lemma mod_eq_small a b n : 0 < n -> 0 <= a - b < n -> a mod n = b mod n -> a = b.
Proof.
  intros Hn Hd E. assert (Hm : (a - b) mod n = 0).
  { rewrite Zminus_mod, E, Z.sub_diag. apply Z.mod_0_l. lia. }
  rewrite Z.mod_small in Hm by lia. lia.
Qed.

Lemma aligned_div last p : 0 < p -> last mod p = 0 -> (last - 1) / p = last / p - 1.
Proof.
  intros Hp Hm. apply Z.div_exact in Hm; [|lia]. symmetry. apply (Z.div_unique _ _ _ (p - 1)); [lia|]. lia.
Qed.

Lemma unaligned_div last p : 0 < p -> last mod p <> 0 -> (last - 1) / p = last / p.
Proof.
  intros Hp Hm. pose proof (Z.mod_pos_bound last p Hp). pose proof (Z.div_mod last p ltac:(lia)).
  symmetry. apply (Z.div_unique _ _ _ (last mod p - 1)); lia.
Qed.

Definition key (n : node) : Z * Z := (n_id n, n_due n).

Lemma relink_key last n : key (relink last n) = key n.
Proof. unfold relink. destruct (place last (n_exp n)). reflexivity. Qed.

Lemma filter_split {A} (f : A -> bool) (l : list A) : Permutation l (filter (fun x => negb (f x)) l ++ filter f l).
Proof.
  induction l as [|x l IH]; cbn [filter]; [constructor|]. destruct (f x); cbn [negb].
  - apply Permutation_cons_app. exact IH.
  - cbn [app]. constructor. exact IH.
Qed.

Lemma cascade_keys w l s : Permutation (map key (w_nodes w)) (map key (w_nodes (cascade w l s))).
Proof.
  unfold cascade. cbn [w_nodes]. rewrite map_app, map_map.
  rewrite (map_ext _ key (relink_key (w_last w))). rewrite <- map_app. apply Permutation_map. apply filter_split.
Qed.

Lemma cascade_ok w k :
  (1 <= k <= 4)%nat -> w_last w mod P k = 0 ->
  Forall (node_ok (w_last w) (casc k (w_last w))) (w_nodes w) ->
  Forall (node_ok (w_last w) (casc (S k) (w_last w))) (w_nodes (cascade w k ((w_last w / P k) mod N k))).
Proof.
  intros Hk Ha F. set (t := w_last w) in *. unfold cascade. cbn [w_nodes]. fold t.
  pose proof (P_pos k) as Pp. pose proof (N_pos k) as Np.
  pose proof (aligned_div t (P k) Pp Ha) as Hd.
  apply Forall_app. split.
  - apply Forall_forall. intros n Hn. apply filter_In in Hn. destruct Hn as [Hn Hs].
    rewrite Forall_forall in F. specialize (F n Hn).
    unfold node_ok in *.
    destruct (Nat.eq_dec (n_level n) k) as [El|El].
    + assert (Hsl : n_slot n <> (t / P k) mod N k).
      { unfold in_slot in Hs. rewrite El, Nat.eqb_refl in Hs. cbn [andb] in Hs. apply negb_true_iff, Z.eqb_neq in Hs. auto. }
      destruct (n_level n) as [|m]; [lia|]. subst k. unfold casc in *.
      rewrite Nat.ltb_irrefl in F. replace (S m <? S (S m))%nat with true by (symmetry; apply Nat.ltb_lt; lia).
      destruct F as (F0 & F1 & F2 & F3 & F4). rewrite Hd in F3, F4.
      assert (n_exp n / P (S m) <> t / P (S m)) by (intros E; apply Hsl; rewrite F2, E; reflexivity).
      repeat split; auto; lia.
    + destruct (n_level n) as [|m]; auto. unfold casc in *.
      replace (S m <? S k)%nat with (S m <? k)%nat; [exact F|].
      destruct (Nat.ltb_spec (S m) k), (Nat.ltb_spec (S m) (S k)); lia.
  - apply Forall_forall. intros n Hn. apply in_map_iff in Hn. destruct Hn as (m & <- & Hm).
    apply filter_In in Hm. destruct Hm as [Hm Hs]. rewrite Forall_forall in F. specialize (F m Hm).
    unfold in_slot in Hs. apply andb_true_iff in Hs. destruct Hs as [El Es].
    apply Nat.eqb_eq in El. apply Z.eqb_eq in Es.
    assert (Hm' : n_due m = n_exp m /\ n_exp m / P k = t / P k).
    { unfold node_ok in F. destruct (n_level m) as [|j]; [lia|]. subst k. unfold casc in F. rewrite Nat.ltb_irrefl in F.
      destruct F as (F0 & F1 & F2 & F3 & F4). split; auto. rewrite Hd in F3, F4. rewrite F2 in Es.
      eapply mod_eq_small; [exact Np| |exact Es]. lia. }
    destruct Hm' as [Hdue Hdiv].
    assert (Hlo : 0 <= n_exp m - t < P k).
    { pose proof (Z.div_mod t (P k) ltac:(lia)). pose proof (Z.div_mod (n_exp m) (P k) ltac:(lia)).
      pose proof (Z.mod_pos_bound (n_exp m) (P k) Pp). rewrite Hdiv in *. lia. }
    assert (Hmax : P k <= 268435456).
    { apply P_max. lia. }
    unfold relink. apply place_ok; [lia|lia| |].
    + intros l Hl. unfold casc. destruct (_ <? _)%nat; lia.
    + intros l Hl H1 H2.
      assert (Hlk : (l < k)%nat).
      { destruct (le_lt_dec k l) as [H|]; auto. exfalso.
        assert (P k <= P l) by (apply P_mono; lia). lia. }
      unfold casc. replace (l <? S k)%nat with true by (symmetry; apply Nat.ltb_lt; lia).
      pose proof (P_pos l). split; [apply div_lo; lia|]. apply div_up; [lia|].
      destruct H2 as [H2|]; [|lia]. rewrite P_step in H2 by lia. lia.
Qed.

Lemma casc_unaligned w k :
  (1 <= k <= 4)%nat -> w_last w mod P k <> 0 ->
  Forall (node_ok (w_last w) (casc k (w_last w))) (w_nodes w) ->
  Forall (node_ok (w_last w) (fun _ => w_last w)) (w_nodes w).
Proof.
  intros Hk Ha F. eapply Forall_impl; [|exact F]. intros n Hn. unfold node_ok in *.
  assert (U : forall l, (k <= l <= 4)%nat -> w_last w mod P l <> 0).
  { intros l Hl E. apply Ha. assert (D : (P k | P l)).
    { apply P_div; lia. }
    pose proof (P_pos k) as Pk. pose proof (P_pos l) as Pl.
    apply (proj2 (Z.mod_divide _ (P k) ltac:(clear - Pk; lia))).
    apply (proj1 (Z.mod_divide _ (P l) ltac:(clear - Pl; lia))) in E.
    eapply Z.divide_trans; eauto. }
  destruct (n_level n) as [|m]; auto. unfold casc in Hn. destruct (Nat.ltb_spec (S m) k); [exact Hn|].
  destruct Hn as (H0 & Hn). rewrite (unaligned_div (w_last w) (P (S m)) (P_pos _) (U (S m) ltac:(lia))) in Hn. auto.
Qed.

Lemma casc_all w : Forall (node_ok (w_last w) (casc 5 (w_last w))) (w_nodes w) ->
  Forall (node_ok (w_last w) (fun _ => w_last w)) (w_nodes w).
Proof.
  intros F. eapply Forall_impl; [|exact F]. intros n Hn. unfold node_ok in *.
  destruct (n_level n) as [|m]; auto. unfold casc in Hn. destruct Hn as (H0 & Hn).
  replace (S m <? 5)%nat with true in Hn by (symmetry; apply Nat.ltb_lt; lia). auto.
Qed.

Lemma next_aligned t k : (1 <= k <= 3)%nat -> t mod P k = 0 -> ((t / P k) mod N k = 0 <-> t mod P (S k) = 0).
Proof.
  intros Hk Ha. rewrite P_step by auto. pose proof (P_pos k). pose proof (N_pos k).
  rewrite Z.rem_mul_r by lia. rewrite Ha. split; intros E; nia.
Qed.

Lemma cascades_spec w :
  Forall (node_ok (w_last w) (fun _ => w_last w - 1)) (w_nodes w) ->
  w_last (cascades w) = w_last w /\
  Permutation (map key (w_nodes w)) (map key (w_nodes (cascades w))) /\
  Forall (node_ok (w_last w) (fun _ => w_last w)) (w_nodes (cascades w)).
Proof.
  intros F. unfold cascades. set (t := w_last w) in *.
  assert (F1 : Forall (node_ok t (casc 1 t)) (w_nodes w)).
  { eapply Forall_impl; [|exact F]. intros n Hn. unfold node_ok in *. destruct (n_level n) as [|m]; auto. }
  assert (S0 : Z.land t 1023 = t mod P 1) by (rewrite (land_ones 1023 10) by lia; reflexivity).
  assert (S1 : Z.land (Z.shiftr t 10) 63 = (t / P 1) mod N 1)
    by (rewrite Z.shiftr_div_pow2, (land_ones 63 6) by lia; reflexivity).
  assert (S2 : Z.land (Z.shiftr t 16) 63 = (t / P 2) mod N 2)
    by (rewrite Z.shiftr_div_pow2, (land_ones 63 6) by lia; reflexivity).
  assert (S3 : Z.land (Z.shiftr t 22) 63 = (t / P 3) mod N 3)
    by (rewrite Z.shiftr_div_pow2, (land_ones 63 6) by lia; reflexivity).
  assert (S4 : Z.land (Z.shiftr t 28) 15 = (t / P 4) mod N 4)
    by (rewrite Z.shiftr_div_pow2, (land_ones 15 4) by lia; reflexivity).
  rewrite S0, S1, S2, S3, S4. clear S0 S1 S2 S3 S4. cbv zeta.
  destruct (Z.eqb_spec (t mod P 1) 0) as [A1|A1]; cbn [negb].
  2:{ split; [reflexivity|]. split; [apply Permutation_refl|]. apply (casc_unaligned w 1); auto; lia. }
  pose proof (cascade_ok w 1 ltac:(lia) A1 F1) as F2. fold t in F2.
  pose proof (cascade_keys w 1 ((t / P 1) mod N 1)) as K1.
  set (w1 := cascade w 1 ((t / P 1) mod N 1)) in *. assert (T1 : w_last w1 = t) by reflexivity.
  destruct (Z.eqb_spec ((t / P 1) mod N 1) 0) as [A2|A2]; cbn [negb].
  2:{ split; [reflexivity|]. split; [exact K1|]. rewrite <- T1. apply (casc_unaligned w1 2); rewrite ?T1; auto.
      intros E. apply A2. apply (proj2 (next_aligned t 1 ltac:(lia) A1)). exact E. }
  apply (proj1 (next_aligned t 1 ltac:(lia) A1)) in A2.
  pose proof (cascade_ok w1 2 ltac:(lia)) as F3. rewrite T1 in F3. specialize (F3 A2 F2).
  pose proof (cascade_keys w1 2 ((t / P 2) mod N 2)) as K2.
  set (w2 := cascade w1 2 ((t / P 2) mod N 2)) in *. assert (T2 : w_last w2 = t) by reflexivity.
  destruct (Z.eqb_spec ((t / P 2) mod N 2) 0) as [A3|A3]; cbn [negb].
  2:{ split; [reflexivity|]. split; [eapply Permutation_trans; eauto|]. rewrite <- T2. apply (casc_unaligned w2 3); rewrite ?T2; auto.
      intros E. apply A3. apply (proj2 (next_aligned t 2 ltac:(lia) A2)). exact E. }
  apply (proj1 (next_aligned t 2 ltac:(lia) A2)) in A3.
  pose proof (cascade_ok w2 3 ltac:(lia)) as F4. rewrite T2 in F4. specialize (F4 A3 F3).
  pose proof (cascade_keys w2 3 ((t / P 3) mod N 3)) as K3.
  set (w3 := cascade w2 3 ((t / P 3) mod N 3)) in *. assert (T3 : w_last w3 = t) by reflexivity.
  destruct (Z.eqb_spec ((t / P 3) mod N 3) 0) as [A4|A4]; cbn [negb].
  2:{ split; [reflexivity|]. split; [eauto using Permutation_trans|]. rewrite <- T3. apply (casc_unaligned w3 4); rewrite ?T3; auto.
      intros E. apply A4. apply (proj2 (next_aligned t 3 ltac:(lia) A3)). exact E. }
  apply (proj1 (next_aligned t 3 ltac:(lia) A3)) in A4.
  pose proof (cascade_ok w3 4 ltac:(lia)) as F5. rewrite T3 in F5. specialize (F5 A4 F4).
  pose proof (cascade_keys w3 4 ((t / P 4) mod N 4)) as K4.
  split; [reflexivity|]. split; [eauto using Permutation_trans|].
  set (w4 := cascade w3 4 ((t / P 4) mod N 4)) in *. assert (T4 : w_last w4 = t) by reflexivity.
  rewrite <- T4. apply casc_all. rewrite T4. exact F5.
Qed.

(** One tick: the nodes that are due now are detached, the others stay. *)
Lemma detach_spec w :
  Forall (node_ok (w_last w) (fun _ => w_last w - 1)) (w_nodes w) ->
  let '(w', l) := tw_detach w in
  w_last w' = w_last w /\
  Permutation (map key (w_nodes w)) (map key (w_nodes w') ++ map key l) /\
  Forall (fun n => n_due n = w_last w) l /\ Forall (fun n => w_last w < n_due n) (w_nodes w') /\
  Forall (node_ok (w_last w + 1) (fun _ => w_last w)) (w_nodes w').
Proof.
  intros F. unfold tw_detach. destruct (cascades_spec w F) as (T & K & C).
  cbn [w_last w_nodes]. rewrite (land_ones 1023 10) by lia. change (2 ^ 10) with 1024.
  set (s := w_last w mod 1024) in *.
  split; [exact T|]. split.
  { eapply Permutation_trans; [exact K|]. rewrite <- map_app. apply Permutation_map, filter_split. }
  assert (D : forall n, In n (w_nodes (cascades w)) -> in_slot 0 s n = true -> n_due n = w_last w).
  { intros n Hn Hs. rewrite Forall_forall in C. specialize (C n Hn).
    unfold in_slot in Hs. apply andb_true_iff in Hs. destruct Hs as [H1 H2]. apply Nat.eqb_eq in H1. apply Z.eqb_eq in H2.
    unfold node_ok in C. rewrite H1 in C. destruct C as [C1 C2]. apply (mod_eq_small _ _ 1024); try lia. }
  assert (D' : forall n, In n (w_nodes (cascades w)) -> in_slot 0 s n = false ->
     w_last w < n_due n /\ node_ok (w_last w + 1) (fun _ => w_last w) n).
  { intros n Hn Hs. rewrite Forall_forall in C. specialize (C n Hn). unfold node_ok in *.
    unfold in_slot in Hs. destruct (n_level n) as [|m].
    - cbn [Nat.eqb andb] in Hs. apply Z.eqb_neq in Hs. destruct C as [C1 C2].
      assert (n_due n <> w_last w) by (intros E; apply Hs; rewrite C2, E; reflexivity).
      split; [lia|]. split; [lia|auto].
    - split; [|exact C]. destruct C as (_ & -> & _ & C & _). destruct (Z.ltb_spec (w_last w) (n_exp n)); auto.
      assert (n_exp n / P (S m) <= w_last w / P (S m)) by (apply Z.div_le_mono; [apply P_pos|lia]). lia. }
  split; [|split].
  - apply Forall_forall. intros n Hn. apply filter_In in Hn. apply D; apply Hn.
  - apply Forall_forall. intros n Hn. apply filter_In in Hn. destruct Hn as [H1 H2]. apply negb_true_iff in H2. apply D'; auto.
  - apply Forall_forall. intros n Hn. apply filter_In in Hn. destruct Hn as [H1 H2]. apply negb_true_iff in H2. apply D'; auto.
Qed.
