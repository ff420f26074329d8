(** Proofs about the work-stealing deques. *)
From Coq Require Import Permutation.
From Verif.Lib Require Import Base ListX.
From Verif.Queue Require Import ModelMpmc ModelSpmc SpecSpmc ProofsMpmc.
Local Open Scope Z_scope.

Section Deque.
Context {V : Type}.
Variable bounded : bool.
Notation wrap := (wrap bounded).
Notation step := (@step V bounded).
Implicit Types (s : deque V) (A : @array V).

(** ** Arrays *)
Lemma pow2_pos c : pow2 c -> 1 <= c.
Proof. intros (j & Hj & ->). pose proof (Z.pow_pos_nonneg 2 j ltac:(lia) Hj). lia. Qed.
Lemma pow2_double c : pow2 c -> pow2 (2 * c).
Proof. intros (j & Hj & ->). exists (j + 1). split; [lia|]. rewrite Z.pow_add_r by lia. lia. Qed.
Lemma land_mod c i : pow2 c -> Z.land i (c - 1) = i mod c.
Proof. intros (j & Hj & ->). rewrite <- (Z.land_ones i j) by lia. f_equal. rewrite Z.ones_equiv. lia. Qed.
Lemma land_inj c i j : pow2 c -> - c < i - j < c -> Z.land i (c - 1) = Z.land j (c - 1) -> i = j.
Proof.
  intros P B H. rewrite !land_mod in H by exact P. pose proof (pow2_pos c P) as C.
  pose proof (Z.div_mod i c ltac:(lia)) as D1. pose proof (Z.div_mod j c ltac:(lia)) as D2. rewrite H in D1.
  assert (i / c = j / c) by nia. lia.
Qed.

Lemma put_same A i x : a_get (a_put A i x) i = x.
Proof. unfold a_get, a_put, zset. cbn. rewrite Z.eqb_refl. reflexivity. Qed.
Lemma put_other A i j x : pow2 (fst A) -> i <> j -> - fst A < i - j < fst A -> a_get (a_put A i x) j = a_get A j.
Proof.
  intros P N B. unfold a_get, a_put, zset. cbn. destruct (Z.eqb_spec (Z.land j (fst A - 1)) (Z.land i (fst A - 1))) as [E|E]; [|reflexivity].
  exfalso. apply N. symmetry. apply (land_inj (fst A)); [exact P|lia|exact E].
Qed.
Lemma copy_loop_cap n : forall i (old new : @array V), fst (copy_loop n i old new) = fst new.
Proof. induction n as [|n IH]; intros i old new; cbn; [reflexivity|]. rewrite IH. reflexivity. Qed.
Lemma copy_loop_get n : forall i old (new : @array V) j, pow2 (fst new) -> i + Z.of_nat n - fst new <= j < i + Z.of_nat n ->
  a_get (copy_loop n i old new) j = if i <=? j then a_get old j else a_get new j.
Proof.
  induction n as [|n IH]; intros i old new j P B.
  - cbn. destruct (i <=? j) eqn:E; [lia|reflexivity].
  - cbn [copy_loop]. rewrite IH; [|exact P|cbn; lia].
    destruct (i + 1 <=? j) eqn:E1; destruct (i <=? j) eqn:E2; try lia; try reflexivity.
    + assert (i = j) as -> by lia. apply put_same.
    + apply put_other; [exact P|lia|lia].
Qed.
Lemma resize_get b t A i : pow2 (fst A) -> b - t <= fst A -> t <= i < b -> a_get (resize b t A) i = a_get A i.
Proof.
  intros P B Hi. unfold resize. pose proof (pow2_pos _ P). rewrite copy_loop_get; [|apply pow2_double; exact P|cbn [fst]; lia].
  replace (t <=? i) with true by lia. reflexivity.
Qed.

(** ** The invariant *)
Definition own_ok s : Prop :=
  match d_own s with
  | OIdle | OPushB _ | OPopB => True
  | OPushT _ b => b = d_bot s
  | OPushA _ b t => b = d_bot s /\ 0 <= t <= d_top s /\ b - t <= cap s
  | OPushW _ b => b = d_bot s /\ b - d_top s < cap s
  | OPushP v b => b = d_bot s /\ b - d_top s < cap s /\ cell s (d_cur s) b = Some v
  | OPopS b => b = d_bot s - 1
  | OPopT b => b = d_bot s
  | OPopR b t => b = d_bot s /\ 0 <= t <= b /\ t <= d_top s
  | OPopC b x => b = d_bot s /\ 0 <= b <= d_top s /\ (d_top s = b -> x = cell s (d_cur s) b)
  | OPopE b _ => b = d_bot s /\ d_top s = b + 1
  end.
Definition thr_ok s (c : tpc V) : Prop :=
  match c with
  | TIdle => True
  | TB t => t <= d_top s
  | TA t => t <= d_top s /\ (d_top s = t -> t < back s)
  | TR t a => t <= d_top s /\ (a < length (d_arrs s))%nat /\ (d_top s = t -> t < back s /\ cell s a t = cell s (d_cur s) t)
  | TC t x => t <= d_top s /\ (d_top s = t -> t < back s /\ x = cell s (d_cur s) t)
  end.
Record inv s : Prop := {
  v_caps : Forall (fun A => pow2 (fst A)) (d_arrs s);
  v_cur : (d_cur s < length (d_arrs s))%nat;
  v_top : 0 <= d_top s <= back s;
  v_room : back s - d_top s <= cap s;
  v_bot : d_bot s <= back s <= Z.of_nat (length (d_in s));
  v_own : own_ok s;
  v_thr : forall j c, nth_error (d_thr s) j = Some c -> thr_ok s c;
  v_all : Permutation (map Some (d_in s)) (d_got s ++ taken s ++ held s) }.

Lemma cap_pow s : inv s -> pow2 (cap s).
Proof.
  intros I. unfold cap, nth_array. pose proof (v_caps s I) as F. rewrite Forall_forall in F. apply F. apply nth_In. apply (v_cur s I).
Qed.

Lemma inv_init c n : pow2 c -> inv (init c n).
Proof.
  intros P. constructor; cbn.
  - repeat constructor. exact P.
  - lia.
  - cbn. lia.
  - unfold cap. cbn. pose proof (pow2_pos c P). lia.
  - lia.
  - exact I.
  - intros j d H. apply nth_error_In in H. apply repeat_spec in H. subst d. exact Logic.I.
  - constructor.
Qed.

(** Steps of the owner that change nothing the others see. *)
Lemma held_same s s' : d_arrs s' = d_arrs s -> d_cur s' = d_cur s -> d_top s' = d_top s -> back s' = back s -> held s' = held s.
Proof. intros E1 E2 E3 E4. unfold held, cell. rewrite E1, E2, E3, E4. reflexivity. Qed.
Lemma thr_same s s' c : d_arrs s' = d_arrs s -> d_cur s' = d_cur s -> d_top s' = d_top s -> back s' = back s -> thr_ok s c -> thr_ok s' c.
Proof. intros E1 E2 E3 E4. unfold thr_ok, cell. rewrite E1, E2, E3, E4. auto. Qed.

Lemma quiet_step s s' : inv s -> d_arrs s' = d_arrs s -> d_cur s' = d_cur s -> d_top s' = d_top s -> d_in s' = d_in s -> d_got s' = d_got s ->
  d_thr s' = d_thr s -> back s' = back s -> taken s' = taken s -> d_bot s' <= back s -> own_ok s' -> inv s' /\ astep (abs s) (abs s').
Proof.
  intros I E1 E2 E3 E4 E5 E6 E7 E8 B O. assert (Eh : held s' = held s) by (apply held_same; assumption).
  assert (Ec : cap s' = cap s) by (unfold cap; rewrite E1, E2; reflexivity). split.
  - destruct I as [I1 I2 I3 I4 I5 I6 I7 I8]. constructor; rewrite ?E1, ?E2, ?E3, ?E4, ?E5, ?E6, ?E7, ?E8, ?Eh, ?Ec; auto; try lia.
    intros j c H. eapply thr_same; eauto.
  - assert (abs s' = abs s) as -> by (unfold abs; rewrite Eh, E8, E4, E5; reflexivity). constructor.
Qed.
Lemma thief_step s i c0 c : inv s -> nth_error (d_thr s) i = Some c0 -> thr_ok s c -> inv (set_thr i c s) /\ astep (abs s) (abs (set_thr i c s)).
Proof.
  intros I H T. split.
  - destruct I as [I1 I2 I3 I4 I5 I6 I7 I8]. constructor; try assumption.
    intros j d Hj. cbn in Hj. rewrite nth_error_lset, H in Hj. destruct (i =? j)%nat; [injection Hj as <-; exact T|exact (I7 j d Hj)].
  - exact (a_nothing (abs s)).
Qed.

Definition range s (lo : Z) (n : nat) := map (fun k => cell s (d_cur s) (lo + Z.of_nat k)) (seq 0 n).
Lemma range_snoc s lo n : range s lo (S n) = range s lo n ++ [cell s (d_cur s) (lo + Z.of_nat n)].
Proof. unfold range. rewrite seq_S, map_app. reflexivity. Qed.
Lemma range_cons s lo n : range s lo (S n) = cell s (d_cur s) lo :: range s (lo + 1) n.
Proof.
  unfold range. cbn [seq map]. f_equal; [f_equal; lia|]. rewrite <- seq_shift, map_map. apply map_ext. intros k. f_equal. lia.
Qed.
Lemma range_ext s s' lo n : (forall i, lo <= i < lo + Z.of_nat n -> cell s' (d_cur s') i = cell s (d_cur s) i) -> range s' lo n = range s lo n.
Proof. intros H. unfold range. apply map_ext_in. intros k Hk. apply in_seq in Hk. apply H. lia. Qed.
Lemma held_range s : held s = range s (d_top s) (Z.to_nat (back s - d_top s)).
Proof. reflexivity. Qed.

Definition balanced (x : abstract V) : Prop := Permutation (map Some (x_in x)) (x_got x ++ x_taken x ++ x_held x).
Lemma astep_balanced x y : astep x y -> balanced x -> balanced y.
Proof.
  unfold balanced. intros St B. destruct St as [x|v i h t g|x i h g|x i h g|x i h t g]; cbn in *.
  - exact B.
  - rewrite map_app. cbn. rewrite B, <- !app_assoc. reflexivity.
  - rewrite B. apply Permutation_app_head. rewrite Permutation_app_comm. reflexivity.
  - rewrite B, <- !app_assoc. reflexivity.
  - rewrite B, <- !app_assoc. apply Permutation_app_head. cbn. symmetry. apply Permutation_middle.
Qed.
Lemma wrap_small s x : (bounded = true -> lucky s) -> 0 <= x <= Z.of_nat (length (d_in s)) + 1 -> wrap x = x.
Proof.
  intros L B. unfold ModelSpmc.wrap. destruct bounded; [|reflexivity]. destruct (L eq_refl) as (_ & _ & K). apply Z.mod_small. lia.
Qed.
(** The current array is changed without changing the items. *)
Lemma array_step s s' l c : inv s -> s' = set_own (d_own s') (set_arrs l c s) -> Forall (fun A => pow2 (fst A)) l -> (c < length l)%nat ->
  (length (d_arrs s) <= length l)%nat -> back s = d_bot s -> back s' = d_bot s -> taken s = [] -> taken s' = [] ->
  cap s <= cap s' -> own_ok s' ->
  (forall i, d_top s <= i < back s -> cell s' c i = cell s (d_cur s) i) ->
  (forall a i, (a < length (d_arrs s))%nat -> d_top s <= i < back s -> cell s a i = cell s (d_cur s) i -> cell s' a i = cell s (d_cur s) i) ->
  inv s' /\ astep (abs s) (abs s').
Proof.
  intros I -> F Lc Ll B B' T T' Cp O C1 C2. cbn [d_own set_own] in *. set (s2 := set_own (d_own s') (set_arrs l c s)) in *.
  assert (Eh : held s2 = held s).
  { rewrite !held_range. rewrite B', B. apply range_ext. intros i Hi. apply C1. pose proof (v_top s I). lia. }
  assert (St : astep (abs s) (abs s2)).
  { assert (abs s2 = abs s) as -> by (unfold abs; rewrite Eh, T, T'; reflexivity). constructor. }
  split; [|exact St]. pose proof I as [I1 I2 I3 I4 I5 I6 I7 I8]. constructor; try assumption.
  - rewrite B'. cbn. lia.
  - rewrite B'. cbn. lia.
  - rewrite B'. cbn. lia.
  - intros j d Hj. pose proof (I7 j d Hj) as K. destruct d as [|t|t|t a|t x]; cbn in K |- *; rewrite ?B', <- ?B; auto.
    + destruct K as (K1 & K2 & K3). split; [exact K1|]. split; [lia|]. intros Ht. destruct (K3 Ht) as (K4 & K5). split; [exact K4|].
      rewrite (C1 t) by lia. apply C2; auto. lia.
    + destruct K as (K1 & K3). split; [exact K1|]. intros Ht. destruct (K3 Ht) as (K4 & K5). split; [exact K4|].
      rewrite (C1 t) by lia. exact K5.
  - apply (astep_balanced _ _ St). exact I8.
Qed.

Ltac quiet E := apply quiet_step; try reflexivity; try assumption; unfold back, taken, own_ok; cbn; rewrite ?E; auto; try lia.

Lemma step_inv s s' : inv s -> (bounded = true -> lucky s) -> step s s' -> inv s' /\ astep (abs s) (abs s').
Proof.
  intros I L St. assert (P := cap_pow s I). assert (O := v_own s I). assert (Tp := v_top s I). assert (Rm := v_room s I). assert (Bt := v_bot s I).
  revert I L P O Tp Rm Bt. unfold own_ok.
  destruct St as [v s E|v s E|v b s E|v b t s E C|v b t s E C Bd|v b t s E C Bd|v b s E|v b s E|s E|s E|b s E|b s E|b t s E N|b t s E N
    |b x s E T|b x s E T|b r s E|i s E|i t s E|i t s E|i t a s E|i t x s E T|i t x s E T]; intros I L P O Tp Rm Bt; try rewrite E in O;
    try (assert (Bk : back s = match d_own s with OPopT b | OPopC b _ | OPopE b _ => b + 1
                               | OPopR b t => if t <? b then b else b + 1 | _ => d_bot s end) by reflexivity; rewrite E in Bk).
  - quiet E.
  - quiet E.
  - quiet E. change (cap (set_own _ s)) with (cap s). lia.
  - rewrite (wrap_small s) in C by (auto; lia). quiet E. change (cap (set_own _ s)) with (cap s). lia.
  - quiet E.
  - (* o_resize *)
    rewrite (wrap_small s) in C by (auto; lia). pose proof (v_caps s I) as F. pose proof (v_cur s I) as Lc. pose proof (pow2_pos _ P) as Cp.
    assert (Nc : nth_array (d_arrs s ++ [resize b t (nth_array (d_arrs s) (d_cur s))]) (length (d_arrs s)) = resize b t (nth_array (d_arrs s) (d_cur s))).
    { unfold nth_array. rewrite app_nth2, Nat.sub_diag by lia. reflexivity. }
    assert (Cr : fst (resize b t (nth_array (d_arrs s) (d_cur s))) = 2 * cap s) by (unfold resize; rewrite copy_loop_cap; reflexivity).
    eapply array_step; try reflexivity; try assumption.
    + apply Forall_app. split; [exact F|]. repeat constructor. rewrite Cr. apply pow2_double. exact P.
    + rewrite app_length. cbn. lia.
    + rewrite app_length. lia.
    + unfold taken. rewrite E. reflexivity.
    + unfold cap at 2. cbn -[nth_array resize Z.mul]. rewrite Nc, Cr. lia.
    + unfold own_ok, cap. cbn -[nth_array resize Z.mul]. rewrite Nc, Cr. lia.
    + intros i Hi. unfold cell. cbn -[nth_array resize a_get]. rewrite Nc. apply resize_get; [exact P| |lia].
      change (fst (nth_array (d_arrs s) (d_cur s))) with (cap s). lia.
    + intros a i Ha Hi Ei. etransitivity; [|exact Ei]. unfold cell. cbn -[nth_array resize a_get]. f_equal. unfold nth_array. apply app_nth1. exact Ha.
  - (* o_write *)
    pose proof (v_caps s I) as F. pose proof (v_cur s I) as Lc. pose proof (pow2_pos _ P) as Cp.
    set (A := nth_array (d_arrs s) (d_cur s)).
    assert (Nc : nth_array (lset (d_arrs s) (d_cur s) (a_put A b (Some v))) (d_cur s) = a_put A b (Some v)) by (apply nth_lset_same; exact Lc).
    assert (Og : forall i, d_top s <= i < back s -> a_get (a_put A b (Some v)) i = a_get A i).
    { intros i Hi. apply put_other; [exact P|lia|]. change (fst A) with (cap s). lia. }
    eapply array_step; try reflexivity; try assumption.
    + rewrite Forall_forall in F |- *. intros B HB. apply In_nth with (d := (0, fun _ => None)) in HB. destruct HB as (n & Hn & <-).
      rewrite lset_length in Hn. rewrite nth_lset by exact Lc. destruct (n =? d_cur s)%nat; [exact P|]. apply F. apply nth_In. exact Hn.
    + rewrite lset_length. exact Lc.
    + rewrite lset_length. lia.
    + unfold taken. rewrite E. reflexivity.
    + unfold cap at 2. cbn -[nth_array a_put]. fold A. rewrite Nc. cbn [a_put fst]. reflexivity.
    + unfold own_ok, cap, cell. cbn -[nth_array a_put a_get]. fold A. rewrite Nc. split; [apply O|]. split; [cbn; change (fst A) with (cap s); lia|]. apply put_same.
    + intros i Hi. unfold cell. cbn -[nth_array a_put a_get]. fold A. rewrite Nc. apply Og. exact Hi.
    + intros a i Ha Hi Ei. destruct (Nat.eq_dec (d_cur s) a) as [<-|Na]; [|etransitivity; [|exact Ei]]; unfold cell; cbn -[nth_array a_put a_get]; fold A.
      * rewrite Nc. apply Og. exact Hi.
      * f_equal. unfold nth_array. apply nth_lset_other. exact Na.
  - (* o_publish *)
    assert (W : wrap (b + 1) = b + 1) by (apply (wrap_small s); auto; lia). rewrite W. destruct O as (-> & O2 & O3).
    match goal with |- inv ?x /\ _ => set (s2 := x) end.
    assert (B2 : back s2 = d_bot s + 1) by reflexivity.
    assert (Eh : held s2 = held s ++ [Some v]).
    { rewrite !held_range, B2, Bk. cbn [d_top s2 set_own add_in set_bot]. replace (Z.to_nat (d_bot s + 1 - d_top s)) with (S (Z.to_nat (d_bot s - d_top s))) by lia.
      rewrite range_snoc. f_equal. f_equal. rewrite <- O3. unfold cell. cbn. f_equal. lia. }
    assert (St : astep (abs s) (abs s2)).
    { unfold abs. rewrite Eh. replace (taken s) with (@nil (option V)) by (unfold taken; rewrite E; reflexivity). apply a_push. }
    split; [|exact St]. pose proof I as [I1 I2 I3 I4 I5 I6 I7 I8]. constructor; try assumption; try rewrite B2.
    + cbn. lia.
    + cbn. change (cap s2) with (cap s). lia.
    + cbn. rewrite app_length. cbn. lia.
    + exact Logic.I.
    + intros j d Hj. pose proof (I7 j d Hj) as K. destruct d as [|t|t|t a|t x]; cbn -[back] in K |- *; rewrite ?B2; auto.
      * destruct K as (K1 & K2). split; [exact K1|]. intros Ht. specialize (K2 Ht). lia.
      * destruct K as (K1 & K2 & K3). split; [exact K1|]. split; [exact K2|]. intros Ht. destruct (K3 Ht) as (K4 & K5). split; [lia|exact K5].
      * destruct K as (K1 & K3). split; [exact K1|]. intros Ht. destruct (K3 Ht) as (K4 & K5). split; [lia|exact K5].
    + apply (astep_balanced _ _ St). exact I8.
  - quiet E.
  - (* o_popb *)
    assert (W : wrap (d_bot s - 1) = d_bot s - 1).
    { unfold ModelSpmc.wrap. destruct bounded; [|reflexivity]. destruct (L eq_refl) as (K1 & _ & K). apply Z.mod_small.
      assert (d_bot s <> 0) by (intros Z0; apply K1; auto). lia. }
    rewrite W. quiet E.
  - (* o_pops *) subst b. quiet E.
  - (* o_popt *)
    destruct (Z.leb_spec (d_top s) b) as [Le|Gt]; [|quiet E]. destruct (Z.eq_dec (d_top s) b) as [Eq|Ne].
    { assert (F : (d_top s <? b) = false) by lia. quiet E; rewrite ?F; auto; lia. }
    match goal with |- inv ?x /\ _ => set (s2 := x) end.
    assert (B2 : back s2 = b) by (unfold back; cbn; replace (d_top s <? b) with true by lia; reflexivity).
    assert (Et : taken s2 = [cell s (d_cur s) b]) by (unfold taken; cbn; replace (d_top s <? b) with true by lia; reflexivity).
    assert (Eh : held s = held s2 ++ [cell s (d_cur s) b]).
    { rewrite !held_range, B2, Bk. cbn [d_top s2 set_own]. replace (Z.to_nat (b + 1 - d_top s)) with (S (Z.to_nat (b - d_top s))) by lia.
      rewrite range_snoc. f_equal. f_equal. f_equal. lia. }
    assert (St : astep (abs s) (abs s2)).
    { unfold abs. rewrite Eh, Et. replace (taken s) with (@nil (option V)) by (unfold taken; rewrite E; reflexivity). apply a_pop. }
    split; [|exact St]. pose proof I as [I1 I2 I3 I4 I5 I6 I7 I8]. constructor; try assumption; try rewrite B2.
    + cbn. lia.
    + cbn. change (cap s2) with (cap s). lia.
    + cbn. lia.
    + unfold own_ok. cbn. lia.
    + intros j d Hj. pose proof (I7 j d Hj) as K. destruct d as [|t|t|t a|t x]; cbn -[back] in K |- *; rewrite ?B2; auto.
      * destruct K as (K1 & K2). split; [exact K1|]. intros Ht. specialize (K2 Ht). lia.
      * destruct K as (K1 & K2 & K3). split; [exact K1|]. split; [exact K2|]. intros Ht. destruct (K3 Ht) as (K4 & K5). split; [lia|exact K5].
      * destruct K as (K1 & K3). split; [exact K1|]. intros Ht. destruct (K3 Ht) as (K4 & K5). split; [lia|exact K5].
    + apply (astep_balanced _ _ St). exact I8.
  - (* o_popr *)
    assert (Lt : t <? b = true) by lia. rewrite Lt in Bk.
    match goal with |- inv ?x /\ _ => set (s2 := x) end.
    assert (B2 : back s2 = b) by (unfold back; cbn; lia).
    assert (Et : taken s = [cell s (d_cur s) b]) by (unfold taken; rewrite E, Lt; reflexivity).
    assert (Eh : held s2 = held s) by (apply held_same; try reflexivity; lia).
    assert (St : astep (abs s) (abs s2)) by (unfold abs; rewrite Eh, Et; apply a_return).
    split; [|exact St]. pose proof I as [I1 I2 I3 I4 I5 I6 I7 I8]. constructor; try assumption; try rewrite B2.
    + cbn. lia.
    + cbn. change (cap s2) with (cap s). lia.
    + cbn. lia.
    + exact Logic.I.
    + intros j d Hj. apply (thr_same s); try reflexivity; [lia|exact (I7 j d Hj)].
    + apply (astep_balanced _ _ St). exact I8.
  - (* o_last *)
    subst t. rewrite Z.ltb_irrefl in Bk. quiet E; rewrite ?Z.ltb_irrefl; auto; try lia. split; [lia|]. split; [lia|]. reflexivity.
  - (* o_cas *)
    assert (W : wrap (b + 1) = b + 1) by (apply (wrap_small s); auto; lia). rewrite W.
    match goal with |- inv ?x /\ _ => set (s2 := x) end.
    assert (B2 : back s2 = b + 1) by reflexivity. destruct O as (O1 & O2 & O3).
    assert (Eh : held s = [x]).
    { rewrite held_range, Bk, T. replace (Z.to_nat (b + 1 - b)) with 1%nat by lia. cbn. rewrite (O3 T), Z.add_0_r. reflexivity. }
    assert (Eh2 : held s2 = []) by (rewrite held_range, B2; cbn; replace (b + 1 - (b + 1)) with 0 by lia; reflexivity).
    assert (St : astep (abs s) (abs s2)).
    { unfold abs. rewrite Eh, Eh2. replace (taken s) with (@nil (option V)) by (unfold taken; rewrite E; reflexivity).
      replace (taken s2) with [x] by reflexivity. exact (a_pop x (d_in s) [] (d_got s)). }
    split; [|exact St]. pose proof I as [I1 I2 I3 I4 I5 I6 I7 I8]. constructor; try assumption; try rewrite B2.
    + cbn. lia.
    + cbn. change (cap s2) with (cap s). pose proof (pow2_pos _ P). lia.
    + cbn. lia.
    + unfold own_ok. cbn. lia.
    + intros j d Hj. pose proof (I7 j d Hj) as K. destruct d as [|t|t|t a|t y]; cbn in K |- *; auto; intuition lia.
    + apply (astep_balanced _ _ St). exact I8.
  - (* o_lost *)
    assert (bounded = true \/ bounded = false) as [Bd|Bd] by (destruct bounded; auto).
    { exfalso. destruct (L Bd) as (_ & K & _). apply K. eauto. }
    rewrite Bd. quiet E.
  - (* o_end *)
    assert (W : wrap (b + 1) = b + 1) by (apply (wrap_small s); auto; lia). rewrite W.
    match goal with |- inv ?x /\ _ => set (s2 := x) end.
    assert (B2 : back s2 = b + 1) by reflexivity.
    assert (Eh : held s2 = held s) by (apply held_same; try reflexivity; lia).
    assert (St : astep (abs s) (abs s2)).
    { unfold abs. rewrite Eh. unfold taken. rewrite E. destruct r as [x|]; [apply a_return|]. cbn. rewrite app_nil_r. constructor. }
    split; [|exact St]. pose proof I as [I1 I2 I3 I4 I5 I6 I7 I8]. constructor; try assumption; try rewrite B2.
    + cbn. lia.
    + cbn. change (cap s2) with (cap s). lia.
    + cbn. lia.
    + exact Logic.I.
    + intros j d Hj. apply (thr_same s); try reflexivity; [lia|exact (I7 j d Hj)].
    + apply (astep_balanced _ _ St). exact I8.
  - eapply thief_step; eauto. cbn. lia.
  - pose proof (v_thr s I _ _ E) as K. eapply thief_step; eauto. destruct (Z.ltb_spec t (d_bot s)); [|exact Logic.I]. cbn in K |- *. lia.
  - pose proof (v_thr s I _ _ E) as K. eapply thief_step; eauto. cbn in K |- *. split; [lia|]. split; [apply (v_cur s I)|]. intros Ht. split; [tauto|reflexivity].
  - pose proof (v_thr s I _ _ E) as K. eapply thief_step; eauto. cbn in K |- *. tauto.
  - (* t_cas *)
    pose proof (v_thr s I _ _ E) as K. cbn in K. destruct K as (_ & K). destruct (K T) as (K1 & ->). 
    assert (W : wrap (t + 1) = t + 1) by (apply (wrap_small s); auto; lia). rewrite W.
    match goal with |- inv ?x /\ _ => set (s2 := x) end.
    assert (B2 : back s2 = back s) by reflexivity.
    assert (Eh : held s = cell s (d_cur s) t :: held s2).
    { rewrite !held_range, B2. cbn [d_top s2 set_thr add_got set_top]. replace (Z.to_nat (back s - d_top s)) with (S (Z.to_nat (back s - (t + 1)))) by lia.
      rewrite range_cons, T. reflexivity. }
    assert (St : astep (abs s) (abs s2)) by (unfold abs; rewrite Eh; apply a_steal).
    split; [|exact St]. pose proof I as [I1 I2 I3 I4 I5 I6 I7 I8]. constructor; try assumption; try rewrite B2.
    + cbn. lia.
    + cbn. change (cap s2) with (cap s). lia.
    + unfold own_ok in I6 |- *. cbn -[cap cell]. change (cap s2) with (cap s). change (cell s2) with (cell s).
      unfold back in K1. destruct (d_own s); auto; try lia;
        (destruct I6 as (J1 & J2 & J3); split; [exact J1|]; split; [lia|]; first [exact J3|intros; exfalso; lia]).
    + intros j d Hj. cbn in Hj. rewrite nth_error_lset, E in Hj. destruct (i =? j)%nat; [injection Hj as <-; exact Logic.I|].
      pose proof (I7 j d Hj) as K2. destruct d as [|u|u|u a|u y]; cbn in K2 |- *; auto; intuition lia.
    + apply (astep_balanced _ _ St). exact I8.
  - eapply thief_step; eauto. exact Logic.I.
Qed.

Variable ok : deque V -> Prop.
Variable c : Z.
Hypothesis Hc : pow2 c.
Hypothesis Hok : bounded = true -> forall s, ok s -> lucky s.

Lemma reach_inv n s : reach bounded ok c n s -> inv s.
Proof.
  intros R. induction R as [|s s' R IH Ok St]; [apply inv_init; exact Hc|].
  apply (step_inv s s' IH (fun B => Hok B s Ok) St).
Qed.
Lemma deque_step n s s' : reach bounded ok c n s -> ok s -> step s s' -> astep (abs s) (abs s').
Proof. intros R Ok St. apply (step_inv s s' (reach_inv n s R) (fun B => Hok B s Ok) St). Qed.
Lemma deque_balanced n s : reach bounded ok c n s -> Permutation (map Some (d_in s)) (d_got s ++ taken s ++ held s).
Proof. intros R. apply (v_all s (reach_inv n s R)). Qed.
Lemma idle_balanced n s : reach bounded ok c n s -> d_own s = OIdle -> d_top s <= d_bot s /\
  Permutation (map Some (d_in s)) (d_got s ++ map (fun k => cell s (d_cur s) (d_top s + Z.of_nat k)) (seq 0 (Z.to_nat (d_bot s - d_top s)))).
Proof.
  intros R E. pose proof (reach_inv n s R) as I. pose proof (v_all s I) as P. pose proof (v_top s I) as T.
  unfold taken, held, back in *. rewrite E in P, T. split; [lia|exact P].
Qed.
Lemma pop_null n s b : reach bounded ok c n s -> d_own s = OPopE b None -> held s = [].
Proof.
  intros R E. pose proof (v_own s (reach_inv n s R)) as O. unfold own_ok in O. rewrite E in O.
  unfold held, back. rewrite E. replace (b + 1 - d_top s) with 0 by lia. reflexivity.
Qed.
Lemma steal_null n s i t s' : reach bounded ok c n s -> nth_error (d_thr s) i = Some (TB t) -> step s s' -> nth_error (d_thr s') i = Some TIdle ->
  held s = [] \/ (length (held s) = 1%nat /\ exists b, d_own s = OPopT b \/ d_own s = OPopR b b \/ exists x, d_own s = OPopC b x).
Proof.
  intros R H St H'. pose proof (reach_inv n s R) as I. pose proof (v_thr s I _ _ H) as K. cbn in K.
  assert (Le : d_bot s <= t).
  { clear I R K. destruct St; cbn in H'; try congruence;
      match goal with E : nth_error (d_thr ?s) ?j = Some _ |- _ =>
        destruct (Nat.eq_dec j i) as [->|N]; [rewrite H in E; try discriminate E|rewrite nth_error_lset in H'; destruct (Nat.eqb_spec j i); congruence] end.
    match goal with E : Some (TB ?u) = Some (TB ?w) |- _ => assert (u = w) as Eu by congruence end.
    rewrite nth_error_lset, Nat.eqb_refl, H in H'. rewrite <- Eu in H'. destruct (Z.ltb_spec t (d_bot s)); [discriminate|lia]. }
  pose proof (v_own s I) as O. pose proof (v_top s I) as T. unfold own_ok in O. unfold held. rewrite map_length, seq_length. unfold back in *.
  destruct (d_own s) as [|v|v b|v b u|v b|v b| |b|b|b u|b x|b r]; try (left; replace (Z.to_nat _) with 0%nat by lia; reflexivity).
  - destruct (Z.eq_dec (d_top s) b); [right; split; [lia|eauto]|left; replace (Z.to_nat _) with 0%nat by lia; reflexivity].
  - destruct (Z.ltb_spec u b); [left; replace (Z.to_nat _) with 0%nat by lia; reflexivity|].
    assert (u = b) as -> by lia. destruct (Z.eq_dec (d_top s) b); [right; split; [lia|eauto]|left; replace (Z.to_nat _) with 0%nat by lia; reflexivity].
  - destruct (Z.eq_dec (d_top s) b); [right; split; [lia|eauto 6]|left; replace (Z.to_nat _) with 0%nat by lia; reflexivity].
Qed.
(** A steal that loses lost to another taker of the same item. *)
Lemma steal_lost n s i t x : reach bounded ok c n s -> nth_error (d_thr s) i = Some (TC t x) -> d_top s <> t -> t < d_top s.
Proof. intros R H N. pose proof (v_thr s (reach_inv n s R) _ _ H) as K. cbn in K. lia. Qed.
End Deque.

(** ** Calls that run alone *)
Section Alone.
Context {V : Type}.
Variable c : Z.
Hypothesis Hc : pow2 c.
Variable n : nat.
Implicit Types s : deque V.
Notation go := (SpecMpmc.steps (step false)).
Lemma go_trans s1 s2 s3 : go s1 s2 -> go s2 s3 -> go s1 s3.
Proof. intros H H2. induction H2 as [|a b d H2 IH St]; [exact H|]. eapply SpecMpmc.steps_S; [apply IH; exact H|exact St]. Qed.
(** A run to a state with a given abstraction. *)
Definition leads s (P : deque V -> Prop) : Prop := reach false any c n s -> exists s', go s s' /\ P s'.
Lemma leads_now s (P : deque V -> Prop) : P s -> leads s P.
Proof. intros H _. exists s. split; [apply SpecMpmc.steps_0|exact H]. Qed.
Lemma leads_step s s1 (P : deque V -> Prop) : step false s s1 -> (astep (abs s) (abs s1) -> leads s1 P) -> leads s P.
Proof.
  intros St K R. assert (A : astep (abs s) (abs s1)) by (eapply (deque_step false any c Hc ltac:(discriminate)); [exact R|exact I|exact St]).
  destruct (K A) as (s' & G & H); [eapply r_step; [exact R|exact I|exact St]|]. exists s'. split; [|exact H].
  eapply go_trans; [|exact G]. eapply SpecMpmc.steps_S; [apply SpecMpmc.steps_0|exact St].
Qed.
Lemma app_same {A} (l : list A) x : l ++ [x] <> l.
Proof. intros H. apply (f_equal (@length A)) in H. rewrite app_length in H. cbn in H. lia. Qed.
Lemma abs_same x y : astep (V := V) x y -> x_in y = x_in x -> x_got y = x_got x -> x_taken y = x_taken x -> y = x.
Proof.
  intros St. destruct St; cbn; intros H1 H2 H3; auto; try (destruct (app_same _ _ H1)); try (destruct (app_same _ _ H2)); discriminate.
Qed.
Lemma abs_push x y v : astep (V := V) x y -> x_in y = x_in x ++ [v] -> x_held y = x_held x ++ [Some v] /\ x_got y = x_got x.
Proof.
  intros St. destruct St; cbn; intros H1; try (symmetry in H1; destruct (app_same _ _ H1)). apply app_inj_tail in H1. destruct H1 as (_ & ->). auto.
Qed.
Lemma abs_pop x y z : astep (V := V) x y -> x_taken x = [] -> x_taken y = [z] -> x_held x = x_held y ++ [z] /\ x_got y = x_got x /\ x_in y = x_in x.
Proof. intros St. destruct St; cbn; intros H1 H2; try congruence. injection H2 as ->. auto. Qed.
Lemma abs_return x y z : astep (V := V) x y -> x_taken x = [z] -> x_taken y = [] -> x_held x = x_held y /\ x_got y = x_got x ++ [z] /\ x_in y = x_in x.
Proof. intros St. destruct St; cbn; intros H1 H2; try congruence. injection H1 as ->. auto. Qed.
Ltac same A := apply abs_same in A; [|reflexivity|reflexivity|unfold abs, taken; cbn; try reflexivity].

Lemma push_alone s v : d_own s = OIdle -> leads s (fun s' => d_own s' = OIdle /\ d_thr s' = d_thr s /\
  d_in s' = d_in s ++ [v] /\ held s' = held s ++ [Some v] /\ d_got s' = d_got s).
Proof.
  intros E. eapply leads_step; [apply (o_push false v); exact E|]. intros A1. same A1; [|rewrite E; reflexivity].
  eapply leads_step; [eapply o_pushb; reflexivity|]. intros A2. same A2.
  eapply leads_step; [eapply o_pusht; reflexivity|]. intros A3. same A3.
  assert (forall s4, abs s4 = abs s -> d_own s4 = OPushW v (d_bot s) -> d_thr s4 = d_thr s -> leads s4 (fun s' => d_own s' = OIdle /\ d_thr s' = d_thr s /\
    d_in s' = d_in s ++ [v] /\ held s' = held s ++ [Some v] /\ d_got s' = d_got s)) as K.
  { intros s4 A4 E4 T4. eapply leads_step; [eapply o_write; exact E4|]. intros A5. same A5; [|rewrite E4; reflexivity].
    eapply leads_step; [eapply o_publish; reflexivity|]. intros A6. rewrite A5, A4 in A6.
    assert (In6 : d_in s4 = d_in s) by (apply (f_equal x_in) in A4; exact A4).
    apply (abs_push _ _ v) in A6; [|cbn; rewrite In6; reflexivity]. apply leads_now. cbn in A6 |- *. rewrite In6. tauto. }
  destruct (Z_lt_dec (cap s - 1) (d_bot s - d_top s)) as [Lt|Ge].
  - eapply leads_step; [eapply o_resize; [reflexivity|exact Lt|reflexivity]|]. intros A4. same A4. apply K; try reflexivity. congruence.
  - eapply leads_step; [eapply o_room; [reflexivity|exact Ge]|]. intros A4. same A4. apply K; try reflexivity. congruence.
Qed.

Lemma o_popt_le b s : d_own s = OPopT b -> d_top s <= b -> step false s (set_own (OPopR b (d_top s)) s).
Proof. intros E L. pose proof (o_popt false b s E) as St. replace (d_top s <=? b) with true in St by lia. exact St. Qed.
Lemma o_popt_gt b s : d_own s = OPopT b -> b < d_top s -> step false s (set_own (OPopE b None) s).
Proof. intros E L. pose proof (o_popt false b s E) as St. replace (d_top s <=? b) with false in St by lia. exact St. Qed.
Lemma pop_alone s : d_own s = OIdle -> leads s (fun s' => d_own s' = OIdle /\ d_thr s' = d_thr s /\ d_in s' = d_in s /\
  ((held s = [] /\ held s' = [] /\ d_got s' = d_got s) \/ exists x, held s = held s' ++ [x] /\ d_got s' = d_got s ++ [x])).
Proof.
  intros E R0. pose proof (reach_inv false any c Hc ltac:(discriminate) n s R0) as I0. revert R0.
  change (leads s (fun s' => d_own s' = OIdle /\ d_thr s' = d_thr s /\ d_in s' = d_in s /\
  ((held s = [] /\ held s' = [] /\ d_got s' = d_got s) \/ exists x, held s = held s' ++ [x] /\ d_got s' = d_got s ++ [x]))).
  assert (Tp : d_top s <= d_bot s) by (pose proof (v_top s I0) as K; unfold back in K; rewrite E in K; lia).
  assert (Hh : held s = range s (d_top s) (Z.to_nat (d_bot s - d_top s))) by (rewrite held_range; unfold back; rewrite E; reflexivity).
  eapply leads_step; [apply (o_pop false); exact E|]. intros A1. same A1; [|rewrite E; reflexivity].
  eapply leads_step; [eapply o_popb; reflexivity|]. intros A2. same A2.
  eapply leads_step; [eapply o_pops; reflexivity|]. intros A3. same A3. cbn [ModelSpmc.wrap] in *.
  destruct (Z.leb_spec (d_top s) (d_bot s - 1)) as [Le|Gt];
    [eapply leads_step; [eapply o_popt_le; [reflexivity|exact Le]|]|eapply leads_step; [eapply o_popt_gt; [reflexivity|exact Gt]|]].
  - destruct (Z.eq_dec (d_top s) (d_bot s - 1)) as [Eq|Ne]; intros A4.
    + same A4; [|replace (d_top s <? d_bot s - 1) with false by lia; reflexivity].
      eapply leads_step; [eapply o_last; [reflexivity|exact Eq]|]. intros A5. same A5; [|replace (d_top s <? d_bot s - 1) with false by lia; reflexivity].
      eapply leads_step; [eapply o_cas; [reflexivity|exact Eq]|]. intros A6.
      eapply abs_pop in A6; [|reflexivity|reflexivity]. rewrite A5, A4, A3, A2, A1 in A6. destruct A6 as (H6 & G6 & N6).
      eapply leads_step; [eapply o_end; reflexivity|]. intros A7. eapply abs_return in A7; [|reflexivity|reflexivity]. destruct A7 as (H7 & G7 & N7).
      apply leads_now. cbn [x_held x_in x_got abs] in *. split; [reflexivity|]. split; [reflexivity|]. split; [congruence|]. right. eexists.
      split; [rewrite H6, H7; reflexivity|]. rewrite G7, G6. reflexivity.
    + assert (Lt : d_top s <? d_bot s - 1 = true) by lia.
      eapply abs_pop in A4; [|reflexivity|cbn; rewrite Lt; reflexivity]. rewrite A3, A2, A1 in A4. destruct A4 as (H6 & G6 & N6).
      eapply leads_step; [eapply o_popr; [reflexivity|exact Ne]|]. intros A7. eapply abs_return in A7; [|cbn; rewrite Lt; reflexivity|reflexivity]. destruct A7 as (H7 & G7 & N7).
      apply leads_now. cbn [x_held x_in x_got abs] in *. split; [reflexivity|]. split; [reflexivity|]. split; [congruence|]. right. eexists.
      split; [rewrite H6, H7; reflexivity|]. rewrite G7, G6. reflexivity.
  - intros A4. same A4. eapply leads_step; [eapply o_end; reflexivity|]. intros A5. apply abs_same in A5; [|reflexivity|cbn; apply app_nil_r|reflexivity].
    apply leads_now. split; [reflexivity|]. split; [reflexivity|]. split; [reflexivity|]. left.
    assert (Hs : held s = []) by (rewrite Hh; replace (Z.to_nat _) with 0%nat by lia; reflexivity). split; [exact Hs|]. split; [|cbn; apply app_nil_r].
    pose proof (eq_trans A5 (eq_trans A4 (eq_trans A3 (eq_trans A2 A1)))) as K. apply (f_equal x_held) in K. cbn [x_held abs] in K. rewrite K. exact Hs.
Qed.
Lemma steal_alone s i : d_own s = OIdle -> nth_error (d_thr s) i = Some TIdle -> leads s (fun s' => d_own s' = OIdle /\ d_thr s' = d_thr s /\ d_in s' = d_in s /\
  ((held s = [] /\ held s' = [] /\ d_got s' = d_got s) \/ exists x, held s = x :: held s' /\ d_got s' = d_got s ++ [x])).
Proof.
  intros E H R0. pose proof (reach_inv false any c Hc ltac:(discriminate) n s R0) as I0.
  assert (Tp : d_top s <= d_bot s) by (pose proof (v_top s I0) as K; unfold back in K; rewrite E in K; lia).
  assert (Hh : held s = range s (d_top s) (Z.to_nat (d_bot s - d_top s))) by (rewrite held_range; unfold back; rewrite E; reflexivity).
  assert (Back : lset (d_thr s) i TIdle = d_thr s) by (apply lset_id; exact H).
  destruct (Z.ltb_spec (d_top s) (d_bot s)) as [Lt|Ge].
  - eexists. split.
    { eapply go_trans; [eapply go_trans; [eapply go_trans; [eapply go_trans; [eapply go_trans; [apply SpecMpmc.steps_0|]|]|]|]|].
      - eapply SpecMpmc.steps_S; [apply SpecMpmc.steps_0|]. apply (t_start false i). exact H.
      - eapply SpecMpmc.steps_S; [apply SpecMpmc.steps_0|]. eapply (t_bottom false i). eapply nth_lset_eq. exact H.
      - cbn. replace (d_top s <? d_bot s) with true by lia. eapply SpecMpmc.steps_S; [apply SpecMpmc.steps_0|]. eapply (t_array false i). eapply nth_lset_eq. eapply nth_lset_eq. exact H.
      - eapply SpecMpmc.steps_S; [apply SpecMpmc.steps_0|]. eapply (t_read false i). eapply nth_lset_eq. eapply nth_lset_eq. eapply nth_lset_eq. exact H.
      - eapply SpecMpmc.steps_S; [apply SpecMpmc.steps_0|]. eapply (t_cas false i); [|reflexivity]. eapply nth_lset_eq. eapply nth_lset_eq. eapply nth_lset_eq. eapply nth_lset_eq. exact H. }
    cbn. split; [exact E|]. split; [rewrite !lset_lset; exact Back|]. split; [reflexivity|]. right. eexists. split; [|reflexivity].
    rewrite Hh, held_range. replace (Z.to_nat (d_bot s - d_top s)) with (S (Z.to_nat (d_bot s - (d_top s + 1)))) by lia. rewrite range_cons.
    cbn. unfold back. cbn. rewrite E. reflexivity.
  - exists s. split.
    { eapply go_trans; [eapply SpecMpmc.steps_S; [apply SpecMpmc.steps_0|]|].
      - apply (t_start false i). exact H.
      - eapply SpecMpmc.steps_S; [apply SpecMpmc.steps_0|].
        assert (s = set_thr i (if d_top s <? d_bot s then TA (d_top s) else TIdle) (set_thr i (TB (d_top s)) s)) as K.
        { replace (d_top s <? d_bot s) with false by lia. unfold set_thr. cbn. rewrite lset_lset, Back. destruct s; reflexivity. }
        pose proof (t_bottom false i (d_top s) (set_thr i (TB (d_top s)) s) (nth_lset_eq _ _ _ _ H)) as St.
        cbn [d_bot set_thr] in St, K. rewrite <- K in St. exact St. }
    split; [exact E|]. split; [reflexivity|]. split; [reflexivity|]. left. rewrite Hh. replace (Z.to_nat _) with 0%nat by lia. auto.
Qed.
End Alone.
(** Nobody is ever stuck. *)
Lemma owner_step {V} bounded (s : deque V) : d_own s <> OIdle -> exists s', step bounded s s' /\ d_thr s' = d_thr s.
Proof.
  intros N. destruct (d_own s) as [|v|v b|v b t|v b|v b| |b|b|b t|b x|b r] eqn:E; [congruence|..].
  - eexists. split; [eapply o_pushb; eauto|reflexivity].
  - eexists. split; [eapply o_pusht; eauto|reflexivity].
  - destruct (Z_lt_dec (cap s - 1) (wrap bounded (b - t))) as [Lt|Ge]; [|eexists; split; [eapply o_room; eauto|reflexivity]].
    destruct bounded; [eexists; split; [eapply o_full; eauto|reflexivity]|eexists; split; [eapply o_resize; eauto|reflexivity]].
  - eexists. split; [eapply o_write; eauto|reflexivity].
  - eexists. split; [eapply o_publish; eauto|reflexivity].
  - eexists. split; [eapply o_popb; eauto|reflexivity].
  - eexists. split; [eapply o_pops; eauto|reflexivity].
  - eexists. split; [eapply o_popt; eauto|reflexivity].
  - destruct (Z.eq_dec t b); [eexists; split; [eapply o_last; eauto|reflexivity]|eexists; split; [eapply o_popr; eauto|reflexivity]].
  - destruct (Z.eq_dec (d_top s) b); [eexists; split; [eapply o_cas; eauto|reflexivity]|eexists; split; [eapply o_lost; eauto|reflexivity]].
  - eexists. split; [eapply o_end; eauto|reflexivity].
Qed.
Lemma thief_moves {V} bounded (s : deque V) i p : nth_error (d_thr s) i = Some p -> exists s' p', step bounded s s' /\ d_own s' = d_own s /\ d_thr s' = lset (d_thr s) i p'.
Proof.
  intros H. destruct p as [|t|t|t a|t x].
  - eexists _, _. split; [eapply t_start; eauto|split; reflexivity].
  - eexists _, _. split; [eapply t_bottom; eauto|split; reflexivity].
  - eexists _, _. split; [eapply t_array; eauto|split; reflexivity].
  - eexists _, _. split; [eapply t_read; eauto|split; reflexivity].
  - destruct (Z.eq_dec (d_top s) t); [eexists _, _; split; [eapply t_cas; eauto|split; reflexivity]|eexists _, _; split; [eapply t_lost; eauto|split; reflexivity]].
Qed.

(** ** The bounded variant after a lost race *)
Section Dead.
Context {V : Type}.
Implicit Types s : deque V.
Definition dead_own (b : Z) s : Prop :=
  match d_own s with
  | OIdle | OPushB _ | OPopB => d_bot s = b
  | OPushT _ b' => d_bot s = b /\ b' = b
  | OPushA _ b' t => d_bot s = b /\ b' = b /\ t = b + 1
  | OPopS b' => d_bot s = b /\ b' = b - 1
  | OPopT b' | OPopE b' None => d_bot s = b - 1 /\ b' = b - 1
  | _ => False
  end.
Definition dead_thr (b : Z) (d : tpc V) : Prop :=
  match d with TIdle => True | TB t => t <= b + 1 | TA t | TR t _ | TC t _ => t < b + 1 end.
Record dead (b : Z) s : Prop := {
  w_top : d_top s = b + 1; w_own : dead_own b s; w_cap : cap s <= 2 ^ 63;
  w_thr : forall j d, nth_error (d_thr s) j = Some d -> dead_thr b d }.

Lemma dead_step b s s' : 1 <= b < 2 ^ 63 -> dead b s -> step true s s' -> dead b s' /\ d_in s' = d_in s /\ d_got s' = d_got s.
Proof.
  intros B [W1 W2 W3 W4] St.
  assert (Th : forall i d0 d, nth_error (d_thr s) i = Some d0 -> dead_thr b d -> forall j e, nth_error (lset (d_thr s) i d) j = Some e -> dead_thr b e).
  { intros i d0 d H D j e Hj. rewrite nth_error_lset, H in Hj. destruct (i =? j)%nat; [injection Hj as <-; exact D|exact (W4 j e Hj)]. }
  assert (M1 : (b - (b + 1)) mod 2 ^ 64 = 2 ^ 64 - 1) by (replace (b - (b + 1)) with (- 1) by lia; reflexivity).
  assert (M2 : (b - 1) mod 2 ^ 64 = b - 1) by (apply Z.mod_small; lia).
  assert (M3 : (b - 1 + 1) mod 2 ^ 64 = b) by (rewrite Z.mod_small; lia).
  revert W1 W2 W3 W4 Th. unfold dead_own. destruct St as [v s E|v s E|v b' s E|v b' t s E C|v b' t s E C Bd|v b' t s E C Bd|v b' s E|v b' s E|s E|s E|b' s E|b' s E|b' t s E N|b' t s E N
    |b' x s E T|b' x s E T|b' r s E|i s E|i t s E|i t s E|i t a s E|i t x s E T|i t x s E T]; intros W1 W2 W3 W4 Th; try rewrite E in W2; try contradiction.
  - repeat split; auto.
  - repeat split; auto; try (unfold dead_own; cbn; lia).
  - repeat split; auto; try (unfold dead_own; cbn; lia).
  - exfalso. unfold wrap in C. destruct W2 as (_ & -> & ->). rewrite M1 in C. lia.
  - repeat split; auto; try (unfold dead_own; cbn; lia).
  - discriminate Bd.
  - repeat split; auto.
  - unfold wrap. rewrite W2, M2. repeat split; auto; try (unfold dead_own; cbn; lia).
  - destruct W2 as (W2 & ->). repeat split; auto; try (unfold dead_own; cbn; lia).
  - destruct W2 as (W2 & ->). replace (d_top s <=? b - 1) with false by lia. repeat split; auto; try (unfold dead_own; cbn; lia).
  - destruct r; [contradiction|]. destruct W2 as (W2 & ->). unfold wrap. rewrite M3. repeat split; auto; cbn; rewrite ?app_nil_r; auto.
  - repeat split; auto. apply (Th _ _ _ E). cbn. lia.
  - repeat split; auto. apply (Th _ _ _ E). pose proof (W4 _ _ E) as K. cbn in K. destruct (Z.ltb_spec t (d_bot s)) as [Lt|]; [|exact I]. cbn.
    destruct (d_own s) as [|v|v b2|v b2 u|v b2|v b2| |b2|b2|b2 u|b2 x|b2 [r|]]; try contradiction; lia.
  - repeat split; auto. apply (Th _ _ _ E). exact (W4 _ _ E).
  - repeat split; auto. apply (Th _ _ _ E). exact (W4 _ _ E).
  - pose proof (W4 _ _ E) as K. cbn in K. lia.
  - repeat split; auto. apply (Th _ _ _ E). exact I.
Qed.
Lemma dead_steps b s s' : 1 <= b < 2 ^ 63 -> dead b s -> SpecMpmc.steps (step true) s s' -> d_in s' = d_in s /\ d_got s' = d_got s.
Proof.
  intros B D R. assert (dead b s' /\ d_in s' = d_in s /\ d_got s' = d_got s) as K; [|tauto].
  induction R as [s|s s1 s2 R IH St]; [auto|]. destruct (IH D) as (D1 & E1 & E2). destruct (dead_step b s1 s2 B D1 St) as (D2 & F1 & F2).
  split; [exact D2|]. split; congruence.
Qed.
Lemma lost_dead c n s s' b x s'' : pow2 c -> reach true lucky c n s -> d_own s = OPopC b x -> d_top s <> b -> d_own s' = OIdle -> step true s s' ->
  1 <= b < 2 ^ 63 -> cap s <= 2 ^ 63 -> SpecMpmc.steps (step true) s' s'' -> d_in s'' = d_in s /\ d_got s'' = d_got s.
Proof.
  intros P R E T E' St B C Ss. pose proof (reach_inv true lucky c P (fun _ s H => H) n s R) as I.
  pose proof (v_own s I) as O. unfold own_ok in O. rewrite E in O. pose proof (v_top s I) as Tp. unfold back in Tp. rewrite E in Tp.
  assert (D : dead b s' /\ d_in s' = d_in s /\ d_got s' = d_got s).
  { pose proof (v_thr s I) as Th. revert E T E' O Tp C Th. clear - St. destruct St; intros E T E' O Tp C Th; try congruence; try (cbn in E'; congruence).
    - rewrite E in H. injection H as <- <-. split; [|split; reflexivity]. constructor; auto; cbn; try lia.
      intros j d Hj. specialize (Th j d Hj). assert (Bk : back s = b + 1) by (unfold back; rewrite E; reflexivity).
      destruct d; cbn -[back] in Th |- *; rewrite ?Bk in Th; auto; intuition lia. }
  destruct D as (D & E1 & E2). destruct (dead_steps b s' s'' B D Ss) as (F1 & F2). split; congruence.
Qed.
End Dead.

(** ** Concrete runs *)
Ltac flat R := cbv beta iota zeta delta [set_own set_bot set_top set_thr set_arrs add_in add_got d_top d_bot d_arrs d_cur d_own d_thr d_in d_got
  lset app nth_error init repeat nth_array nth cell cap fst length] in R.
Ltac ds R c := let R' := fresh in
  eassert (R' : reach _ any _ _ _) by (eapply r_step; [exact R|exact I|eapply c; solve [reflexivity|discriminate]]);
  clear R; rename R' into R; flat R.

Lemma fresh_pop c : 1 <= c <= 2 ^ 63 -> exists s s' : deque Z, reach true any c 0 s /\ d_own s = OIdle /\ d_in s = [] /\ d_got s = [None] /\ d_bot s = 2 ^ 64 - 1 /\
  SpecMpmc.steps (step true) s s' /\ d_own s' = OIdle /\ d_in s' = [].
Proof.
  intros Hc. pose proof (r_init (V := Z) true any c 0) as R.
  ds R (o_pop (V := Z) true). ds R (o_popb (V := Z) true). ds R (o_pops (V := Z) true). ds R (o_popt (V := Z) true). ds R (o_popr (V := Z) true (2 ^ 64 - 1) 0).
  match type of R with reach _ _ _ _ ?x => exists x end.
  eexists. split; [exact R|]. split; [reflexivity|]. split; [reflexivity|]. split; [reflexivity|]. split; [reflexivity|].
  split; [eapply SpecMpmc.steps_S; [eapply SpecMpmc.steps_S; [eapply SpecMpmc.steps_S; [eapply SpecMpmc.steps_S; [apply SpecMpmc.steps_0|]|]|]|]|].
  - apply (o_push true 7). reflexivity.
  - eapply o_pushb. reflexivity.
  - eapply o_pusht. reflexivity.
  - eapply o_full; [reflexivity| |reflexivity]. change (c - 1 < 2 ^ 64 - 1). lia.
  - split; reflexivity.
Qed.
Ltac dpush R b v := ds R (o_push (V := Z) b v); ds R (o_pushb (V := Z) b v); ds R (o_pusht (V := Z) b v).
Ltac dpush_ok R b v := dpush R b v; ds R (o_room (V := Z) b v); ds R (o_write (V := Z) b v); ds R (o_publish (V := Z) b v).
(** Two places; the owner's pop loses the race for the only item; the next but one pop returns it again. *)
Lemma twice : exists s : deque Z, reach true any 2 1 s /\ d_own s = OIdle /\ d_in s = [7] /\ d_got s = [Some 7; None; Some 7].
Proof.
  pose proof (r_init (V := Z) true any 2 1) as R. dpush_ok R true 7.
  ds R (o_pop (V := Z) true). ds R (o_popb (V := Z) true).
  ds R (t_start (V := Z) true 0). ds R (t_bottom (V := Z) true 0). ds R (t_array (V := Z) true 0). ds R (t_read (V := Z) true 0).
  ds R (o_pops (V := Z) true). ds R (o_popt (V := Z) true). ds R (o_last (V := Z) true). ds R (t_cas (V := Z) true 0). ds R (o_lost (V := Z) true).
  do 2 (ds R (o_pop (V := Z) true); ds R (o_popb (V := Z) true); ds R (o_pops (V := Z) true); ds R (o_popt (V := Z) true); ds R (o_popr (V := Z) true)).
  eexists. split; [exact R|]. repeat split.
Qed.
(** One place at first: the second push resizes; a thief gets the first item, the owner the second. *)
Lemma unbounded_run : exists s : deque Z, reach false any 1 1 s /\ d_own s = OIdle /\ d_in s = [7; 8] /\ d_got s = [Some 7; Some 8] /\ cap s = 2.
Proof.
  pose proof (r_init (V := Z) false any 1 1) as R. dpush_ok R false 7. ds R (t_start (V := Z) false 0). ds R (t_bottom (V := Z) false 0).
  ds R (t_array (V := Z) false 0). dpush R false 8. ds R (o_resize (V := Z) false 8). ds R (o_write (V := Z) false). ds R (o_publish (V := Z) false).
  ds R (t_read (V := Z) false 0). ds R (o_pop (V := Z) false). ds R (o_popb (V := Z) false). ds R (t_cas (V := Z) false 0). ds R (o_pops (V := Z) false).
  ds R (o_popt (V := Z) false). ds R (o_last (V := Z) false). ds R (o_cas (V := Z) false). ds R (o_end (V := Z) false).
  eexists. split; [exact R|]. repeat split.
Qed.
(** The state in which [lost_dead] begins is reached. *)
Ltac dl R c := let R' := fresh in
  eassert (R' : reach _ lucky _ _ _) by (eapply r_step; [exact R
    |split; [intros (K1 & K2); vm_compute in K1, K2; discriminate|split; [intros (b & x & K1 & K2); vm_compute in K1; try discriminate K1; injection K1 as <- <-; apply K2; reflexivity|reflexivity]]
    |eapply c; solve [reflexivity|discriminate]]);
  clear R; rename R' into R; flat R.
Lemma lost_run : exists s : deque Z, reach true lucky 2 1 s /\ d_own s = OPopC 1 (Some 8) /\ d_top s = 2 /\ cap s = 2 /\ d_in s = [7; 8] /\ d_got s = [Some 7; Some 8].
Proof.
  pose proof (r_init (V := Z) true lucky 2 1) as R.
  dl R (o_push (V := Z) true 7). dl R (o_pushb (V := Z) true). dl R (o_pusht (V := Z) true). dl R (o_room (V := Z) true). dl R (o_write (V := Z) true). dl R (o_publish (V := Z) true).
  dl R (o_pop (V := Z) true). dl R (o_popb (V := Z) true). dl R (o_pops (V := Z) true). dl R (o_popt (V := Z) true). dl R (o_last (V := Z) true). dl R (o_cas (V := Z) true). dl R (o_end (V := Z) true).
  dl R (o_push (V := Z) true 8). dl R (o_pushb (V := Z) true). dl R (o_pusht (V := Z) true). dl R (o_room (V := Z) true). dl R (o_write (V := Z) true). dl R (o_publish (V := Z) true).
  dl R (o_pop (V := Z) true). dl R (o_popb (V := Z) true).
  dl R (t_start (V := Z) true 0). dl R (t_bottom (V := Z) true 0). dl R (t_array (V := Z) true 0). dl R (t_read (V := Z) true 0).
  dl R (o_pops (V := Z) true). dl R (o_popt (V := Z) true). dl R (o_last (V := Z) true). dl R (t_cas (V := Z) true 0).
  eexists. split; [exact R|]. repeat split.
Qed.
