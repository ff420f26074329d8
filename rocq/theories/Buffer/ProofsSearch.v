(** Correctness of the Boyer-Moore searcher. *)
From Verif.Lib Require Import Base Bytes ListX.
From Verif.Buffer Require Import Model Spec Machine Proofs ProofsFind.
Local Open Scope nat_scope.

(** ** Occurrences by index. *)
Lemma nth_error_skipn {A} (l : list A) n i : nth_error (skipn n l) i = nth_error l (n + i).
Proof.
  revert l; induction n as [|n IH]; intros l; simpl; auto.
  destruct l; simpl; auto. destruct i; auto.
Qed.

Lemma prefixb_index p s :
  prefixb p s = true <-> forall t, t < length p -> nth_error s t = nth_error p t.
Proof.
  revert s; induction p as [|a p IH]; intros s; simpl.
  - split; auto. intros _ t Ht. lia.
  - destruct s as [|c s].
    + split; [discriminate|]. intros H. specialize (H 0 ltac:(lia)). discriminate.
    + destruct (byte_eqb_spec a c) as [->|Hne]; simpl.
      * rewrite IH. split.
        -- intros H [|t] Ht; simpl; auto. apply H. lia.
        -- intros H t Ht. apply (H (S t)). lia.
      * split; [discriminate|]. intros H. specialize (H 0 ltac:(lia)). simpl in H. congruence.
Qed.

Lemma occurs_index p s k :
  p <> [] ->
  (occurs_at p s k <-> forall t, t < length p -> nth_error s (k + t) = nth_error p t).
Proof.
  intros Hp. rewrite occurs_prefixb, prefixb_index. split.
  - intros [_ H] t Ht. rewrite <- nth_error_skipn. auto.
  - intros H. split.
    + specialize (H 0 ltac:(destruct p; simpl; [congruence|lia])).
      destruct p; [congruence|]. simpl in H. rewrite Nat.add_0_r in H.
      assert (nth_error s k <> None) by congruence. apply nth_error_Some in H0. lia.
    + intros t Ht. rewrite nth_error_skipn. auto.
Qed.

(** ** The block vector. *)
Lemma block_vector_nth bs acc k o b :
  nth_error (block_vector bs acc) k = Some (o, b) ->
  acc <= o /\ (forall i, i < length b -> nth_error (concat bs) (o - acc + i) = nth_error b i) /\
  o - acc + length b <= length (concat bs).
Proof.
  revert acc k; induction bs as [|x r IH]; intros acc k H; simpl in H.
  - destruct k; discriminate.
  - destruct k as [|k]; simpl in H.
    + inversion H; subst. split; [lia|]. replace (o - o) with 0 by lia. split.
      * intros i Hi. simpl. apply nth_error_app1. auto.
      * simpl. rewrite app_length. lia.
    + apply IH in H. destruct H as (H1 & H2 & H3). split; [lia|]. split.
      * intros i Hi. simpl. rewrite nth_error_app2 by lia. rewrite <- H2 by auto. f_equal. lia.
      * simpl. rewrite app_length. lia.
Qed.

Lemma block_vector_nth_block bs acc k o b :
  nth_error (block_vector bs acc) k = Some (o, b) -> In b bs.
Proof.
  revert acc k; induction bs as [|x r IH]; intros acc k H; simpl in H.
  - destruct k; discriminate.
  - destruct k; simpl in H; [inversion H; subst; left; auto|right; eauto].
Qed.

Lemma block_vector_prev bs acc k o b :
  nth_error (block_vector bs acc) (S k) = Some (o, b) ->
  exists o' b', nth_error (block_vector bs acc) k = Some (o', b') /\ o' + length b' = o.
Proof.
  revert acc k; induction bs as [|x r IH]; intros acc k H; simpl in H.
  - destruct k; discriminate.
  - destruct k as [|k].
    + destruct r as [|y r]; simpl in H; [discriminate|]. inversion H; subst. simpl.
      exists acc, x. auto.
    + simpl. apply IH in H. exact H.
Qed.

Lemma block_vector_length bs acc : length (block_vector bs acc) = length bs.
Proof. revert acc; induction bs; intros; simpl; auto. Qed.

(** Entry [it] of the vector holds absolute offset [i]. *)
Definition in_block (v : list (nat * block)) (it i : nat) : Prop :=
  exists o b, nth_error v it = Some (o, b) /\ o <= i < o + length b.

Lemma lower_bound_spec bs acc val k :
  acc <= val < acc + length (concat bs) ->
  exists t, lower_bound (block_vector bs acc) val k = k + t /\ in_block (block_vector bs acc) t val.
Proof.
  revert acc k; induction bs as [|x r IH]; intros acc k Hv; simpl in Hv.
  - lia.
  - rewrite app_length in Hv. destruct r as [|y r].
    + simpl in *. exists 0. split; [lia|]. exists acc, x. split; auto. lia.
    + remember (y :: r) as ys eqn:Ey. simpl block_vector.
      assert (E : lower_bound ((acc, x) :: block_vector ys (acc + length x)) val k =
        if acc + length x <=? val then lower_bound (block_vector ys (acc + length x)) val (S k) else k).
      { subst ys. reflexivity. }
      rewrite E. destruct (Nat.leb_spec (acc + length x) val) as [Hle|Hgt].
      * destruct (IH (acc + length x) (S k)) as (t & H1 & H2); [lia|].
        exists (S t). split; [rewrite H1; lia|]. destruct H2 as (o & b & H2 & H3).
        exists o, b. split; auto.
      * exists 0. split; [lia|]. exists acc, x. split; auto. lia.
Qed.

Lemma binary_search_spec bs val hint :
  val < length (concat bs) -> hint < length bs ->
  exists it, binary_search (block_vector bs 0) val hint = Ok it /\
             in_block (block_vector bs 0) it val.
Proof.
  intros Hv Hh. unfold binary_search.
  destruct (nth_error (block_vector bs 0) hint) as [[o b]|] eqn:E.
  - destruct ((o <=? val) && (val <? o + length b)) eqn:Eb.
    + apply andb_true_iff in Eb. destruct Eb as [E1 E2].
      apply Nat.leb_le in E1. apply Nat.ltb_lt in E2. exists hint. split; auto. exists o, b. auto.
    + destruct (lower_bound_spec bs 0 val 0) as (t & H1 & H2); [lia|].
      exists t. rewrite H1. auto.
  - apply nth_error_None in E. rewrite block_vector_length in E. lia.
Qed.

Lemma in_block_lt v it i : in_block v it i -> it < length v.
Proof. intros (o & b & H & _). apply nth_error_Some. congruence. Qed.

Lemma read_at_spec bs it i :
  in_block (block_vector bs 0) it i ->
  exists c, read_at (block_vector bs 0) it (Z.of_nat i) = Ok c /\ nth_error (concat bs) i = Some c.
Proof.
  intros (o & b & H & Hi). unfold read_at. rewrite H.
  replace (Z.of_nat o <=? Z.of_nat i)%Z with true by lia.
  rewrite Nat2Z.id.
  destruct (nth_error b (i - o)) as [c|] eqn:E.
  - exists c. split; auto. apply block_vector_nth in H. destruct H as (_ & H & _).
    specialize (H (i - o) ltac:(lia)). rewrite E in H. rewrite <- H. f_equal. lia.
  - apply nth_error_None in E. lia.
Qed.

Section P.
  Variable garbage : byte.
  Variable pat : list byte.
  Let m := length pat.
  Hypothesis pat_ne : pat <> [].

  Lemma m_pos : 0 < m.
  Proof. apply nonempty_pos. exact pat_ne. Qed.

  Lemma pat_at_nth i : i < m -> nth_error pat i = Some (pat_at pat i).
  Proof. intros H. apply nth_error_nth'. exact H. Qed.

  (** ** Bad-character table. *)
  Lemma delta1_loop_le p i c cur :
    m - 1 - i <= cur -> delta1_loop pat p i c cur <= cur.
  Proof.
    revert i cur; induction p as [|x p IH]; intros i cur H; simpl; auto.
    destruct (Byte.eqb x c).
    - etransitivity; [apply IH|]; unfold m_len; fold m; lia.
    - apply IH. lia.
  Qed.

  Lemma delta1_loop_hit p i c cur q :
    nth_error p q = Some c -> delta1_loop pat p i c cur <= m - 1 - (i + q).
  Proof.
    revert i cur q; induction p as [|x p IH]; intros i cur q H; [destruct q; discriminate|].
    destruct q as [|q]; simpl in *.
    - inversion H; subst. destruct (byte_eqb_spec c c) as [_|Hne]; [|congruence].
      etransitivity; [apply delta1_loop_le|]; unfold m_len; fold m; lia.
    - etransitivity; [eapply IH; eauto|]. lia.
  Qed.

  Lemma delta1_le c : delta1 pat c <= m.
  Proof. unfold delta1. apply delta1_loop_le. unfold m_len; fold m; lia. Qed.

  Lemma delta1_hit c q : q < m -> pat_at pat q = c -> delta1 pat c <= m - 1 - q.
  Proof.
    intros Hq Hc. unfold delta1.
    assert (H : nth_error pat q = Some c) by (rewrite <- Hc; apply pat_at_nth; auto).
    apply (delta1_loop_hit pat 0 c (m_len pat) q) in H. exact H.
  Qed.

  (** ** Good-suffix table. *)
  Lemma strncmp_eq_true n a b :
    (forall t, t < n -> nth_error a t = nth_error b t) -> strncmp_eq n a b = true.
  Proof.
    revert a b; induction n as [|n IH]; intros a b H; simpl; auto.
    destruct a as [|x a]; auto. destruct b as [|y b]; auto.
    pose proof (H 0 ltac:(lia)) as H0. simpl in H0. inversion H0; subst.
    destruct (byte_eqb_spec y y) as [_|Hne]; [|congruence].
    destruct (Byte.eqb y Byte.x00); auto. apply IH. intros t Ht. apply (H (S t)). lia.
  Qed.

  Lemma is_prefix_true x :
    x <= m -> (forall p, x <= p < m -> pat_at pat (p - x) = pat_at pat p) -> is_prefix pat x = true.
  Proof.
    intros Hx H. unfold is_prefix. apply strncmp_eq_true. intros t Ht.
    unfold m_len in Ht. fold m in Ht. rewrite nth_error_skipn.
    rewrite !pat_at_nth by lia. f_equal. rewrite <- (H (x + t)) by lia. f_equal. lia.
  Qed.

  Lemma is_prefix_m : is_prefix pat m = true.
  Proof. apply is_prefix_true; [lia|]. intros p Hp. lia. Qed.

  Lemma delta2_first_length k last : length (delta2_first pat k last) = k.
  Proof.
    revert last; induction k as [|k IH]; intros last; simpl; auto.
    rewrite app_length, IH. simpl. lia.
  Qed.

  Lemma delta2_first_nth_last k last :
    nth k (delta2_first pat (S k) last) 0 =
    (if is_prefix pat (k + 1) then k + 1 else last) + (m - 1 - k).
  Proof.
    cbn [delta2_first]. rewrite app_nth2; rewrite delta2_first_length; [|lia].
    replace (k - k) with 0 by lia. reflexivity.
  Qed.

  Lemma delta2_first_nth_lt k last j :
    j < k -> nth j (delta2_first pat (S k) last) 0 =
    nth j (delta2_first pat k (if is_prefix pat (k + 1) then k + 1 else last)) 0.
  Proof.
    intros H. cbn [delta2_first]. apply app_nth1. rewrite delta2_first_length. auto.
  Qed.

  Lemma delta2_first_lower k last j :
    is_prefix pat k = true \/ k <= last -> j < k ->
    j + 1 + (m - 1 - j) <= nth j (delta2_first pat k last) 0.
  Proof.
    revert last; induction k as [|k IH]; intros last H Hj; [lia|].
    destruct (Nat.eq_dec j k) as [->|Hne].
    - rewrite delta2_first_nth_last. rewrite Nat.add_1_r in *.
      destruct (is_prefix pat (S k)); [lia|]. destruct H; [discriminate|lia].
    - rewrite delta2_first_nth_lt by lia. apply IH; [|lia]. right.
      rewrite Nat.add_1_r. destruct (is_prefix pat (S k)); [lia|].
      destruct H; [discriminate|lia].
  Qed.

  Lemma delta2_first_upper k last j x :
    j < k -> j + 1 <= x ->
    (x <= k /\ is_prefix pat x = true) \/ (k < x /\ last <= x) ->
    nth j (delta2_first pat k last) 0 <= x + (m - 1 - j).
  Proof.
    revert last; induction k as [|k IH]; intros last Hj Hx H; [lia|].
    destruct (Nat.eq_dec j k) as [->|Hne].
    - rewrite delta2_first_nth_last. rewrite Nat.add_1_r.
      destruct (is_prefix pat (S k)) eqn:E; [lia|].
      destruct H as [[H1 H2]|[H1 H2]]; [|lia].
      replace x with (S k) in H2 by lia. congruence.
    - rewrite delta2_first_nth_lt by lia. rewrite Nat.add_1_r.
      apply IH; [lia|lia|].
      destruct (Nat.le_gt_cases x k) as [Hk|Hk].
      + left. destruct H as [[H1 H2]|[H1 H2]]; [auto|lia].
      + right. split; auto. destruct (is_prefix pat (S k)) eqn:E; [lia|].
        destruct H as [[H1 H2]|[H1 H2]]; [|lia].
        replace x with (S k) in H2 by lia. congruence.
  Qed.

  (** SuffixLength. *)
  Lemma slen_loop_spec pos k i :
    k + i = S pos ->
    (forall t, t < i -> pat_at pat (pos - t) = pat_at pat (m - 1 - t)) ->
    let L := slen_loop pat pos k i in
    i <= L <= S pos /\
    (forall t, t < L -> pat_at pat (pos - t) = pat_at pat (m - 1 - t)) /\
    (L <= pos -> pat_at pat (pos - L) <> pat_at pat (m - 1 - L)).
  Proof.
    revert i; induction k as [|k IH]; intros i Hk Ht; cbn [slen_loop].
    - split; [lia|]. split; auto. lia.
    - unfold m_len; fold m.
      destruct (byte_eqb_spec (pat_at pat (pos - i)) (pat_at pat (m - 1 - i))) as [He|Hne].
      + destruct (IH (S i)) as (H1 & H2 & H3); [lia| |].
        * intros t Hlt. destruct (Nat.eq_dec t i) as [->|]; auto. apply Ht. lia.
        * split; [lia|]. split; auto.
      + split; [lia|]. split; auto.
  Qed.

  Lemma suffix_length_spec pos :
    let L := suffix_length pat pos in
    L <= S pos /\
    (forall t, t < L -> pat_at pat (pos - t) = pat_at pat (m - 1 - t)) /\
    (L <= pos -> pat_at pat (pos - L) <> pat_at pat (m - 1 - L)).
  Proof.
    unfold suffix_length. destruct (slen_loop_spec pos (S pos) 0) as (H1 & H2 & H3); [lia|lia|].
    split; [lia|]. split; auto.
  Qed.

  Lemma suffix_length_eq pos L :
    L <= pos ->
    (forall t, t < L -> pat_at pat (pos - t) = pat_at pat (m - 1 - t)) ->
    pat_at pat (pos - L) <> pat_at pat (m - 1 - L) ->
    suffix_length pat pos = L.
  Proof.
    intros HL Ht Hne. destruct (suffix_length_spec pos) as (H1 & H2 & H3).
    set (X := suffix_length pat pos) in *.
    destruct (Nat.lt_trichotomy X L) as [H|[H|H]]; auto; exfalso.
    - apply H3; [lia|]. apply Ht. auto.
    - apply Hne. apply H2. auto.
  Qed.

  (** Iteration [p] of the second loop writes entry [j]. *)
  Definition writes (p j : nat) : Prop :=
    suffix_length pat p = m - 1 - j /\
    pat_before garbage pat p (suffix_length pat p) <> pat_at pat (m - 1 - suffix_length pat p).

  Lemma upd_nth_length l i v : length (upd_nth l i v) = length l.
  Proof. revert i; induction l; intros [|i]; simpl; auto. Qed.

  Lemma upd_nth_nth l i v j :
    nth j (upd_nth l i v) 0 = if (j =? i) && (i <? length l) then v else nth j l 0.
  Proof.
    revert i j; induction l as [|x l IH]; intros [|i] [|j]; simpl; auto.
    - destruct (j =? i); reflexivity.
    - rewrite IH. reflexivity.
  Qed.

  Lemma delta2_step_length d p : length (delta2_step garbage pat d p) = length d.
  Proof. unfold delta2_step. destruct (Byte.eqb _ _); auto. apply upd_nth_length. Qed.

  Lemma delta2_step_nth d p j :
    length d = m -> j < m -> p < m - 1 ->
    (writes p j /\ nth j (delta2_step garbage pat d p) 0 = m - 1 - p + (m - 1 - j)) \/
    (~ writes p j /\ nth j (delta2_step garbage pat d p) 0 = nth j d 0).
  Proof.
    intros Hd Hj Hp. unfold delta2_step, writes. unfold m_len; fold m.
    destruct (suffix_length_spec p) as (H1 & _ & _).
    destruct (byte_eqb_spec (pat_before garbage pat p (suffix_length pat p))
                (pat_at pat (m - 1 - suffix_length pat p))) as [He|Hne].
    - right. split; auto. intros [_ H]. auto.
    - rewrite upd_nth_nth. destruct (Nat.eqb_spec j (m - 1 - suffix_length pat p)) as [Hq|Hq].
      + replace (m - 1 - suffix_length pat p <? length d) with true by (symmetry; apply Nat.ltb_lt; lia).
        simpl. left. split; [split; [lia|auto]|lia].
      + simpl. right. split; auto. intros [H _]. apply Hq. lia.
  Qed.

  Lemma delta2_fold j n d :
    length d = m -> j < m -> n <= m - 1 ->
    let r := nth j (fold_left (delta2_step garbage pat) (seq 0 n) d) 0 in
    length (fold_left (delta2_step garbage pat) (seq 0 n) d) = m /\
    (forall q, q < n -> writes q j -> r <= m - 1 - q + (m - 1 - j)) /\
    (r = nth j d 0 \/ exists p, p < n /\ writes p j /\ r = m - 1 - p + (m - 1 - j)).
  Proof.
    intros Hd Hj. induction n as [|n IH]; intros Hn.
    - simpl. split; auto. split; [lia|]. auto.
    - rewrite seq_S, fold_left_app. simpl.
      destruct IH as (Hl & Hq & Hr); [lia|].
      set (d' := fold_left (delta2_step garbage pat) (seq 0 n) d) in *.
      split; [rewrite delta2_step_length; auto|].
      destruct (delta2_step_nth d' n j Hl Hj ltac:(lia)) as [[Hw He]|[Hw He]]; rewrite He.
      + split.
        * intros q Hq1 _. lia.
        * right. exists n. auto.
      + split.
        * intros q Hq1 Hwq. destruct (Nat.eq_dec q n) as [->|]; [tauto|]. apply Hq; auto. lia.
        * destruct Hr as [Hr|(p & Hp & Hwp & Hr)]; auto. right. exists p. auto.
  Qed.

  Lemma delta2_facts j :
    j < m ->
    m - j <= delta2 garbage pat j /\
    (forall k, 1 <= k <= j ->
       (forall p, j < p < m -> pat_at pat (p - k) = pat_at pat p) ->
       pat_at pat (j - k) <> pat_at pat j ->
       delta2 garbage pat j <= k + (m - 1 - j)) /\
    (forall k, j < k <= m ->
       (forall p, k <= p < m -> pat_at pat (p - k) = pat_at pat p) ->
       delta2 garbage pat j <= k + (m - 1 - j)).
  Proof.
    intros Hj. unfold delta2, delta2_table. unfold m_len; fold m.
    set (d0 := delta2_first pat m (m - 1)).
    assert (Hd0 : length d0 = m) by apply delta2_first_length.
    destruct (delta2_fold j (m - 1) d0 Hd0 Hj ltac:(lia)) as (_ & Hq & Hr).
    set (r := nth j (fold_left (delta2_step garbage pat) (seq 0 (m - 1)) d0) 0) in *.
    pose proof (delta2_first_lower m (m - 1) j (or_introl is_prefix_m) Hj) as Hlow.
    fold d0 in Hlow.
    split; [|split].
    - destruct Hr as [Hr|(p & Hp & Hw & Hr)]; lia.
    - intros k Hk Hs Hne.
      assert (Hsl : suffix_length pat (m - 1 - k) = m - 1 - j).
      { apply suffix_length_eq.
        - lia.
        - intros t Ht. rewrite <- (Hs (m - 1 - t)) by lia. f_equal. lia.
        - replace (m - 1 - k - (m - 1 - j)) with (j - k) by lia.
          replace (m - 1 - (m - 1 - j)) with j by lia. auto. }
      assert (Hw : writes (m - 1 - k) j).
      { split; auto. rewrite Hsl. unfold pat_before.
        replace (m - 1 - j <=? m - 1 - k) with true by (symmetry; apply Nat.leb_le; lia).
        replace (m - 1 - k - (m - 1 - j)) with (j - k) by lia.
        replace (m - 1 - (m - 1 - j)) with j by lia. auto. }
      specialize (Hq (m - 1 - k) ltac:(lia) Hw). lia.
    - intros k Hk Hs. destruct Hr as [Hr|(p & Hp & Hw & Hr)].
      + rewrite Hr. apply delta2_first_upper; [auto|lia|].
        left. split; [lia|]. apply is_prefix_true; [lia|auto].
      + destruct Hw as [Hw _]. destruct (suffix_length_spec p) as (H1 & _ & _). lia.
  Qed.

  (** ** Shifts never jump over an occurrence. *)
  Lemma shift_safe s start j c :
    j < m ->
    (forall t, j < t < m -> nth_error s (start + t) = nth_error pat t) ->
    nth_error s (start + j) = Some c -> c <> pat_at pat j ->
    forall k, 1 <= k -> start + k + (m - 1) < start + j + Nat.max (delta1 pat c) (delta2 garbage pat j) ->
    ~ occurs_at pat s (start + k).
  Proof.
    intros Hj Hsuf Hc Hne k Hk Hlt Ho.
    rewrite occurs_index in Ho by exact pat_ne. fold m in Ho.
    (* the character aligned with j *)
    assert (H1 : k <= j -> pat_at pat (j - k) = c).
    { intros Hkj. specialize (Ho (j - k) ltac:(lia)).
      replace (start + k + (j - k)) with (start + j) in Ho by lia.
      rewrite pat_at_nth in Ho by lia. congruence. }
    assert (H2 : forall p, j < p < m -> k <= p -> pat_at pat (p - k) = pat_at pat p).
    { intros p Hp Hkp. specialize (Ho (p - k) ltac:(lia)).
      replace (start + k + (p - k)) with (start + p) in Ho by lia.
      rewrite Hsuf in Ho by lia. rewrite !pat_at_nth in Ho by lia. congruence. }
    destruct (delta2_facts j Hj) as (Hd0 & Hda & Hdb).
    assert (Hb1 : delta1 pat c <= k + (m - 1 - j)).
    { destruct (Nat.le_gt_cases k j) as [Hkj|Hkj].
      - specialize (H1 Hkj). apply delta1_hit in H1; [|lia]. lia.
      - pose proof (delta1_le c). lia. }
    assert (Hb2 : delta2 garbage pat j <= k + (m - 1 - j)).
    { destruct (Nat.le_gt_cases k j) as [Hkj|Hkj].
      - apply Hda; [lia| |].
        + intros p Hp. apply H2; lia.
        + rewrite (H1 Hkj). auto.
      - destruct (Nat.le_gt_cases k m) as [Hkm|Hkm].
        + apply Hdb; [lia|]. intros p Hp. apply H2; lia.
        + assert (delta2 garbage pat j <= m + (m - 1 - j)); [|lia].
          apply Hdb; [lia|]. intros p Hp. lia. }
    lia.
  Qed.

  (** ** The comparison loop. *)
  Lemma compare_loop_spec bs start jj it :
    Forall (fun l : block => l <> []) bs ->
    jj <= m -> (0 < jj -> in_block (block_vector bs 0) it (start + jj - 1)) ->
    exists it' j',
      compare_loop pat (block_vector bs 0) (Z.of_nat (start + jj) - 1) it jj =
        Ok (Z.of_nat (start + j') - 1, it', j')%Z /\
      j' <= jj /\
      (forall t, j' <= t < jj -> nth_error (concat bs) (start + t) = nth_error pat t) /\
      (forall j, j' = S j -> in_block (block_vector bs 0) it' (start + j) /\
         exists c, nth_error (concat bs) (start + j) = Some c /\ c <> pat_at pat j).
  Proof.
    intros Hne. revert it; induction jj as [|jj IH]; intros it Hjj Hin.
    - exists it, 0. simpl. split; [reflexivity|]. split; [lia|]. split; [lia|]. discriminate.
    - cbn [compare_loop]. specialize (Hin ltac:(lia)).
      replace (start + S jj - 1) with (start + jj) in Hin by lia.
      destruct (read_at_spec bs it (start + jj) Hin) as (c & Hr & Hc).
      replace (Z.of_nat (start + S jj) - 1)%Z with (Z.of_nat (start + jj)) by lia.
      rewrite Hr. cbn [bind].
      destruct (byte_eqb_spec c (pat_at pat jj)) as [->|Hd].
      + pose proof Hin as (o & b & Hn & Hob). rewrite Hn.
        assert (Hstep : exists it2, (0 < jj -> in_block (block_vector bs 0) it2 (start + jj - 1)) /\
          (if (0 <=? Z.of_nat (start + jj) - 1)%Z && (Z.of_nat (start + jj) - 1 <? Z.of_nat o)%Z
           then match it with O => UB | S it0 =>
             compare_loop pat (block_vector bs 0) (Z.of_nat (start + jj) - 1) it0 jj end
           else compare_loop pat (block_vector bs 0) (Z.of_nat (start + jj) - 1) it jj) =
          compare_loop pat (block_vector bs 0) (Z.of_nat (start + jj) - 1) it2 jj).
        { destruct ((0 <=? Z.of_nat (start + jj) - 1)%Z && (Z.of_nat (start + jj) - 1 <? Z.of_nat o)%Z) eqn:E.
          - destruct it as [|it0].
            + apply andb_true_iff in E. destruct bs as [|b0 bs']; simpl in Hn; [discriminate|].
              inversion Hn; subst. lia.
            + exists it0. split; [|reflexivity]. intros Hpos.
              destruct (block_vector_prev bs 0 it0 o b Hn) as (o' & b' & Hn' & Ho').
              exists o', b'. split; auto.
              assert (0 < length b').
              { apply nonempty_pos. rewrite Forall_forall in Hne. apply Hne.
                eapply block_vector_nth_block; eauto. }
              apply andb_true_iff in E. lia.
          - exists it. split; [|reflexivity]. intros Hpos. exists o, b. split; auto.
            apply andb_false_iff in E. lia. }
        destruct Hstep as (it2 & Hin2 & He).
        destruct (IH it2 ltac:(lia) Hin2) as (it' & j' & G1 & G2 & G3 & G4).
        exists it', j'. split; [etransitivity; [exact He|exact G1]|]. split; [lia|]. split; auto.
        intros t Ht. destruct (Nat.eq_dec t jj) as [->|]; [|apply G3; lia].
        rewrite Hc. symmetry. apply pat_at_nth. lia.
      + exists it, (S jj). split; [do 3 f_equal; lia|]. split; [lia|]. split; [lia|].
        intros j Hj. inversion Hj; subst j. split; auto. exists c. auto.
  Qed.

  (** ** The outer loop. *)
  Lemma search_loop_spec bs fuel i it :
    Forall (fun l : block => l <> []) bs ->
    m - 1 <= i -> it < length bs \/ length (concat bs) <= i ->
    1 <= fuel -> length (concat bs) < fuel + i ->
    (forall k, k + (m - 1) < i -> ~ occurs_at pat (concat bs) k) ->
    exists r, search_loop garbage pat fuel (block_vector bs 0) (length (concat bs)) i it = Ok r /\
    match r with
    | Some k => first_occurrence pat (concat bs) k
    | None => forall k, ~ occurs_at pat (concat bs) k
    end.
  Proof.
    intros Hne. revert i it; induction fuel as [|f IH]; intros i it Hi Hit Hf0 Hf Hno.
    - lia.
    - cbn [search_loop]. destruct (Nat.ltb_spec i (length (concat bs))) as [Hlt|Hge].
      + destruct Hit as [Hit|Hit]; [|lia].
        destruct (binary_search_spec bs i it Hlt Hit) as (it0 & E0 & Hin0).
        rewrite E0. cbn [bind]. unfold m_len; fold m.
        pose proof m_pos as Hm.
        remember (i - (m - 1)) as start eqn:Est.
        assert (Hi2 : i = start + m - 1) by lia.
        destruct (compare_loop_spec bs start m it0 Hne ltac:(lia)) as (it1 & j' & G1 & G2 & G3 & G4).
        { intros _. rewrite <- Hi2. exact Hin0. }
        replace (Z.of_nat i) with (Z.of_nat (start + m) - 1)%Z by lia.
        rewrite G1. cbn [bind].
        destruct j' as [|j].
        * eexists; split; [reflexivity|].
          replace (Z.to_nat (Z.of_nat (start + 0) - 1 + 1)) with start by lia.
          split.
          -- apply occurs_index; auto. intros t Ht. apply G3. fold m in Ht. lia.
          -- intros k Hk. apply Hno. lia.
        * destruct (G4 j eq_refl) as (Hin1 & c & Hc & Hcd).
          replace (Z.of_nat (start + S j) - 1)%Z with (Z.of_nat (start + j)) by lia.
          destruct (read_at_spec bs it1 (start + j) Hin1) as (c' & Hr & Hc').
          assert (c' = c) by congruence. subst c'. rewrite Hr. cbn [bind]. rewrite Nat2Z.id.
          destruct (delta2_facts j ltac:(lia)) as (Hd0 & _ & _).
          apply IH.
          -- lia.
          -- left. rewrite <- (block_vector_length bs 0). eapply in_block_lt; eauto.
          -- lia.
          -- lia.
          -- intros k Hk. destruct (Nat.lt_trichotomy k start) as [Hlt2|[->|Hgt]].
             ++ apply Hno. lia.
             ++ intros Ho. rewrite occurs_index in Ho by auto.
                specialize (Ho j ltac:(fold m; lia)). rewrite Hc, pat_at_nth in Ho by lia. congruence.
             ++ replace k with (start + (k - start)) by lia.
                assert (Hsuf : forall t, j < t < m ->
                  nth_error (concat bs) (start + t) = nth_error pat t) by (intros t Ht; apply G3; lia).
                eapply shift_safe with (j := j) (c := c); eauto; lia.
      + exists None. split; auto. intros k Ho. pose proof (occurs_length _ _ _ Ho) as Hl.
        fold m in Hl. apply (Hno k); auto. pose proof m_pos. lia.
  Qed.
End P.

Lemma nb_find_spec garbage pat b :
  nb_wf b -> pat <> [] ->
  exists r, nb_find garbage pat b = Ok r /\
  match r with
  | Some k => first_occurrence pat (content b) k
  | None => forall k, ~ occurs_at pat (content b) k
  end.
Proof.
  intros [Hs Hf] Hp. unfold nb_find.
  assert (E : forall A (x y : A), match pat with [] => x | _ :: _ => y end = y)
    by (intros; destruct pat; congruence).
  rewrite E. rewrite Hs. unfold content.
  apply search_loop_spec; unfold m_len; auto; try lia.
  - destruct (blocks b) as [|y r] eqn:Eb.
    + right. simpl. lia.
    + left. simpl. lia.
Qed.
