(** Lemmas about the header map, for any comparison that is an order on the names used. *)
From Coq Require Import Permutation Sorted.
From Verif.Lib Require Import Base Bytes ListX.
From Coq Require Import Strings.Byte.
From Verif.HttpFields Require Import Model Spec.
Local Open Scope Z_scope.

Lemma same_text_spec a b : reflect (a = b) (same_text a b).
Proof. unfold same_text. destruct (list_byte_dec a b); constructor; auto. Qed.

Lemma bytes_eqb_same a b : bytes_eqb a b = same_text a b.
Proof.
  destruct (same_text_spec a b) as [->|N].
  - induction b as [|x b IH]; [reflexivity|]. cbn. destruct (byte_eqb_spec x x); [auto|congruence].
  - revert b N. induction a as [|x a IH]; destruct b as [|y b]; intros N; try reflexivity; [congruence|].
    cbn. destruct (byte_eqb_spec x y); [subst; cbn; apply IH; congruence|reflexivity].
Qed.

Lemma filter_app_l {A} (f : A -> bool) l1 l2 : filter f (l1 ++ l2) = filter f l1 ++ filter f l2.
Proof. induction l1 as [|x l1 IH]; cbn; [auto|]. destruct (f x); cbn; rewrite IH; auto. Qed.

Lemma filter_filter {A} (f g : A -> bool) l : filter f (filter g l) = filter (fun x => g x && f x) l.
Proof. induction l as [|x l IH]; cbn; auto. destruct (g x); cbn; [destruct (f x)|]; rewrite ?IH; auto. Qed.

Lemma filter_none {A} (f : A -> bool) l : Forall (fun x => f x = false) l -> filter f l = [].
Proof. induction 1 as [|x l H _ IH]; cbn; [auto|]. rewrite H. auto. Qed.

Lemma filter_all {A} (f : A -> bool) l : Forall (fun x => f x = true) l -> filter f l = l.
Proof. induction 1 as [|x l H _ IH]; cbn; [auto|]. rewrite H, IH. auto. Qed.

Lemma filter_perm {A} (f : A -> bool) l1 l2 : Permutation l1 l2 -> Permutation (filter f l1) (filter f l2).
Proof.
  induction 1 as [|x l1 l2 H IH|x y l|l1 l2 l3 H1 IH1 H2 IH2]; cbn; auto.
  - destruct (f x); auto.
  - destruct (f x), (f y); auto using perm_swap.
  - eapply Permutation_trans; eauto.
Qed.

Section Ordered.
Variable less : name -> name -> out bool.
Variable canon : name -> list byte.
Variable lt : list byte -> list byte -> bool.
Variable ks : list name.

Definition same (a b : name) : bool := same_text (canon a) (canon b).
Definition K (n : name) : Prop := In n ks.

Hypothesis less_lt : forall a b, K a -> K b -> less a b = Ok (lt (canon a) (canon b)).
Hypothesis lt_irrefl : forall a, K a -> lt (canon a) (canon a) = false.
Hypothesis lt_trans : forall a b c, K a -> K b -> K c ->
  lt (canon a) (canon b) = true -> lt (canon b) (canon c) = true -> lt (canon a) (canon c) = true.
Hypothesis lt_total : forall a b, K a -> K b -> canon a <> canon b ->
  lt (canon a) (canon b) = true \/ lt (canon b) (canon a) = true.

Definition below (k : name) (p : name * text) : bool := lt (canon (fst p)) (canon k).
Definition above (k : name) (p : name * text) : bool := lt (canon k) (canon (fst p)).
Definition in_k (l : fields) : Prop := Forall (fun p => K (fst p)) l.
Definition ord (x y : name * text) : Prop := lt (canon (fst y)) (canon (fst x)) = false.
Definition sorted (l : fields) : Prop := StronglySorted ord l.

Lemma trichotomy k p : K k -> K (fst p) ->
  (below k p = true /\ same (fst p) k = false /\ above k p = false) \/
  (below k p = false /\ same (fst p) k = true /\ above k p = false) \/
  (below k p = false /\ same (fst p) k = false /\ above k p = true).
Proof.
  intros Hk Hp. unfold below, above, same.
  destruct (same_text_spec (canon (fst p)) (canon k)) as [E|E].
  - right. left. rewrite E, (lt_irrefl k Hk). auto.
  - assert (No : lt (canon (fst p)) (canon k) = true -> lt (canon k) (canon (fst p)) = true -> False).
    { intros A B. pose proof (lt_trans _ _ _ Hp Hk Hp A B) as C. rewrite (lt_irrefl _ Hp) in C. discriminate. }
    destruct (lt (canon (fst p)) (canon k)) eqn:A.
    + left. split; auto. split; auto. destruct (lt (canon k) (canon (fst p))); auto. exfalso. auto.
    + right. right. split; auto. split; auto. destruct (lt_total _ _ Hp Hk E) as [B|B]; [congruence|auto].
Qed.

(** A sorted list around a key. *)
Lemma split_at k l : K k -> in_k l -> sorted l ->
  l = filter (below k) l ++ of_name same k l ++ filter (above k) l.
Proof.
  intros Hk Hin Hs. induction Hs as [|p l Hs IH Hall]; [reflexivity|].
  inversion Hin as [|? ? Hp Hin']; subst. specialize (IH Hin').
  unfold of_name in *. cbn [filter].
  destruct (trichotomy k p Hk Hp) as [(A & B & C)|[(A & B & C)|(A & B & C)]]; rewrite A, B, C.
  - cbn [app]. f_equal. exact IH.
  - assert (N : filter (below k) l = []).
    { apply filter_none. rewrite Forall_forall in *. intros q Hq. specialize (Hall q Hq). unfold ord in Hall.
      unfold same in B. destruct (same_text_spec (canon (fst p)) (canon k)) as [E|]; [|discriminate].
      unfold below. rewrite <- E. exact Hall. }
    rewrite N in *. cbn [app] in *. f_equal. exact IH.
  - assert (N : filter (below k) l = [] /\ filter (fun q => same (fst q) k) l = []).
    { split; apply filter_none; rewrite Forall_forall in *; intros q Hq; specialize (Hall q Hq); specialize (Hin' q Hq);
        unfold ord in Hall.
      - unfold below. destruct (lt (canon (fst q)) (canon k)) eqn:D; auto.
        rewrite (lt_trans _ _ _ Hin' Hk Hp D C) in Hall. discriminate.
      - unfold same. destruct (same_text_spec (canon (fst q)) (canon k)) as [E|]; auto.
        unfold above in C. rewrite <- E in C. congruence. }
    destruct N as [N1 N2]. rewrite N1, N2 in *. cbn [app] in *. f_equal. exact IH.
Qed.

Lemma lower_bound_ok k A R : K k -> in_k (A ++ R) -> Forall (fun p => below k p = true) A ->
  match R with p :: _ => below k p = false | [] => True end ->
  lower_bound less k (A ++ R) = Ok (length A).
Proof.
  intros Hk Hin Ha Hr. revert Hin. induction Ha as [|[k1 v1] A H _ IH]; intros Hin.
  - cbn [app length]. destruct R as [|[k1 v1] R]; [reflexivity|]. cbn [lower_bound].
    inversion Hin as [|? ? Hp Hin']; subst. rewrite less_lt by auto. unfold below in Hr. cbn [fst] in Hr. rewrite Hr. reflexivity.
  - cbn [app lower_bound length]. inversion Hin as [|? ? Hp Hin']; subst. cbn [fst] in Hp. rewrite less_lt by auto.
    unfold below in H. cbn [fst] in H. rewrite H. cbn [bind]. rewrite IH by auto. reflexivity.
Qed.

Lemma upper_bound_ok k A R : K k -> in_k (A ++ R) -> Forall (fun p => above k p = false) A ->
  match R with p :: _ => above k p = true | [] => True end ->
  upper_bound less k (A ++ R) = Ok (length A).
Proof.
  intros Hk Hin Ha Hr. revert Hin. induction Ha as [|[k1 v1] A H _ IH]; intros Hin.
  - cbn [app length]. destruct R as [|[k1 v1] R]; [reflexivity|]. cbn [upper_bound].
    inversion Hin as [|? ? Hp Hin']; subst. rewrite less_lt by auto. unfold above in Hr. cbn [fst] in Hr. rewrite Hr. reflexivity.
  - cbn [app upper_bound length]. inversion Hin as [|? ? Hp Hin']; subst. cbn [fst] in Hp. rewrite less_lt by auto.
    unfold above in H. cbn [fst] in H. rewrite H. cbn [bind]. rewrite IH by auto. reflexivity.
Qed.

Lemma in_k_filter f l : in_k l -> in_k (filter f l).
Proof. unfold in_k. rewrite !Forall_forall. intros H x Hx. apply filter_In in Hx. apply H. tauto. Qed.

(** Where the bounds are. *)
Lemma bounds k l : K k -> in_k l -> sorted l ->
  let A := filter (below k) l in let B := of_name same k l in let C := filter (above k) l in
  l = A ++ B ++ C /\ lower_bound less k l = Ok (length A) /\ upper_bound less k l = Ok (length (A ++ B)).
Proof.
  intros Hk Hin Hs A B C. pose proof (split_at k l Hk Hin Hs) as E. fold A B C in E. split; auto.
  assert (Tri : forall p, In p l -> (below k p = true /\ same (fst p) k = false /\ above k p = false) \/
    (below k p = false /\ same (fst p) k = true /\ above k p = false) \/ (below k p = false /\ same (fst p) k = false /\ above k p = true)).
  { intros p Hp. apply trichotomy; auto. unfold in_k in Hin. rewrite Forall_forall in Hin. auto. }
  assert (HA : Forall (fun p => below k p = true /\ above k p = false) A).
  { apply Forall_forall. intros p Hp. apply filter_In in Hp. destruct Hp as [Hp Q]. destruct (Tri p Hp) as [T|[T|T]]; intuition congruence. }
  assert (HB : Forall (fun p => same (fst p) k = true /\ below k p = false /\ above k p = false) B).
  { apply Forall_forall. intros p Hp. apply filter_In in Hp. destruct Hp as [Hp Q]. destruct (Tri p Hp) as [T|[T|T]]; intuition congruence. }
  assert (HC : Forall (fun p => above k p = true /\ below k p = false) C).
  { apply Forall_forall. intros p Hp. apply filter_In in Hp. destruct Hp as [Hp Q]. destruct (Tri p Hp) as [T|[T|T]]; intuition congruence. }
  clearbody A B C. clear Tri Hs. subst l. split.
  - apply lower_bound_ok; auto.
    + eapply Forall_impl; [|exact HA]. cbn. tauto.
    + destruct B as [|p B']; [|inversion HB; subst; cbn; tauto]. destruct C as [|p C']; cbn; auto. inversion HC; subst; tauto.
  - rewrite app_assoc in *. apply upper_bound_ok; auto.
    + apply Forall_app. split; [eapply Forall_impl; [|exact HA]|eapply Forall_impl; [|exact HB]]; cbn; tauto.
    + destruct C as [|p C']; auto. inversion HC; subst; tauto.
Qed.

(** ** Sortedness of the results *)
Lemma sorted_app l1 l2 : sorted l1 -> sorted l2 -> (forall x y, In x l1 -> In y l2 -> ord x y) -> sorted (l1 ++ l2).
Proof.
  intros H1 H2 H. induction H1 as [|x l1 H1 IH Hx]; cbn [app]; auto. constructor.
  - apply IH. intros a b Ha Hb. apply H; [right|]; auto.
  - apply Forall_app. split; auto. apply Forall_forall. intros y Hy. apply H; [left; reflexivity|auto].
Qed.

Lemma sorted_filter f l : sorted l -> sorted (filter f l).
Proof.
  induction 1 as [|x l H IH Hx]; cbn; [constructor|]. destruct (f x); auto. constructor; auto.
  rewrite Forall_forall in *. intros y Hy. apply filter_In in Hy. apply Hx. tauto.
Qed.

Lemma same_sym a b : same a b = same b a.
Proof. unfold same. destruct (same_text_spec (canon a) (canon b)), (same_text_spec (canon b) (canon a)); congruence. Qed.

Lemma same_cong a b c : same a b = true -> same a c = same b c.
Proof. unfold same. destruct (same_text_spec (canon a) (canon b)) as [->|]; congruence. Qed.

(** Inserting behind all the elements that are not above. *)
Lemma insert_sorted A B C k v : K k -> in_k (A ++ B ++ C) -> sorted (A ++ B ++ C) ->
  Forall (fun p => above k p = false) (A ++ B) -> Forall (fun p => above k p = true) C ->
  sorted ((A ++ B) ++ (k, v) :: C).
Proof.
  intros Hk Hin Hs HAB HC. rewrite app_assoc in Hin, Hs. set (D := A ++ B) in *. clearbody D. clear A B.
  assert (Hin2 : in_k D /\ in_k C) by (unfold in_k in *; apply Forall_app in Hin; tauto). destruct Hin2 as [HD HCk].
  induction D as [|x D IH]; cbn [app].
  - constructor; [exact Hs|]. unfold in_k in *. rewrite Forall_forall in *. intros y Hy. unfold ord. cbn [fst].
    specialize (HC y Hy). unfold above in HC. destruct (lt (canon (fst y)) (canon k)) eqn:E; auto.
    pose proof (lt_trans _ _ _ Hk (HCk y Hy) Hk HC E) as T. rewrite (lt_irrefl k Hk) in T. discriminate.
  - inversion Hs as [|? ? Hs' Hx]; subst. inversion HAB as [|? ? Hax HAB']; subst. inversion HD as [|? ? Kx HD']; subst. constructor.
    + apply IH; auto. unfold in_k in *. inversion Hin; auto.
    + apply Forall_app in Hx. apply Forall_app. split; [tauto|]. constructor; [|tauto]. unfold ord. cbn [fst]. unfold above in Hax. exact Hax.
Qed.

(** ** The simulation *)
Definition R (l s : fields) : Prop :=
  in_k l /\ sorted l /\ Permutation l s /\ forall k, K k -> of_name same k l = of_name same k s.

Lemma firstn_len {A} (a b : list A) : firstn (length a) (a ++ b) = a.
Proof. induction a; cbn; [reflexivity|]. congruence. Qed.
Lemma skipn_len {A} (a b : list A) : skipn (length a) (a ++ b) = b.
Proof. induction a; cbn; auto. Qed.

Lemma insert_at_len a b p : insert_at (length a) p (a ++ b) = a ++ p :: b.
Proof. unfold insert_at. rewrite firstn_len, skipn_len. reflexivity. Qed.

Lemma not_name_split k l : K k -> in_k l -> sorted l -> not_name same k l = filter (below k) l ++ filter (above k) l.
Proof.
  intros Hk Hin Hs. pose proof (split_at k l Hk Hin Hs) as E. rewrite E at 1. unfold not_name. rewrite !filter_app_l.
  assert (Tri : forall p, In p l -> (below k p = true /\ same (fst p) k = false /\ above k p = false) \/
    (below k p = false /\ same (fst p) k = true /\ above k p = false) \/ (below k p = false /\ same (fst p) k = false /\ above k p = true)).
  { intros p Hp. apply trichotomy; auto. unfold in_k in Hin. rewrite Forall_forall in Hin. auto. }
  f_equal; [|rewrite filter_none; [cbn [app]|]].
  - apply filter_all. apply Forall_forall. intros p Hp. apply filter_In in Hp. destruct Hp as [Hp Q].
    destruct (Tri p Hp) as [T|[T|T]]; destruct T as (T1 & T2 & T3); rewrite ?T2; auto; congruence.
  - apply filter_all. apply Forall_forall. intros p Hp. apply filter_In in Hp. destruct Hp as [Hp Q].
    destruct (Tri p Hp) as [T|[T|T]]; destruct T as (T1 & T2 & T3); rewrite ?T2; auto; congruence.
  - apply Forall_forall. intros p Hp. apply filter_In in Hp. destruct Hp as [Hp Q]. rewrite Q. reflexivity.
Qed.

Lemma of_name_not_name k k' l : of_name same k' (not_name same k l) = if same k k' then [] else of_name same k' l.
Proof.
  unfold of_name, not_name. rewrite filter_filter. destruct (same k k') eqn:E.
  - apply filter_none. apply Forall_forall. intros x _. destruct (same (fst x) k) eqn:F; [reflexivity|]. cbn.
    rewrite (same_sym (fst x) k'), same_sym. rewrite (same_sym (fst x) k) in F. rewrite <- F. symmetry.
    rewrite (same_sym (fst x) k'). apply same_cong. auto.
  - apply filter_ext. intros x. destruct (same (fst x) k) eqn:F; [|reflexivity]. cbn. rewrite (same_cong _ _ k' F). auto.
Qed.

Lemma R_insert l s k v : K k -> R l s ->
  exists i, upper_bound less k l = Ok i /\ R (insert_at i (k, v) l) (s ++ [(k, v)]).
Proof.
  intros Hk (Hin & Hs & Hp & Hn).
  destruct (bounds k l Hk Hin Hs) as (E & _ & U). cbv zeta in *.
  set (A := filter (below k) l) in *. set (B := of_name same k l) in *. set (C := filter (above k) l) in *.
  exists (length (A ++ B)). split; auto.
  assert (Hi : insert_at (length (A ++ B)) (k, v) l = (A ++ B) ++ (k, v) :: C).
  { rewrite E at 1. rewrite app_assoc. apply insert_at_len. }
  rewrite Hi. split; [|split; [|split]].
  - unfold in_k in *. rewrite E in Hin. rewrite app_assoc in Hin. apply Forall_app in Hin. destruct Hin as [Hab Hc].
    apply Forall_app. split; auto.
  - apply insert_sorted; auto; [rewrite <- E; auto|rewrite <- E; auto| |].
    + assert (Forall (fun p => In p l /\ (below k p = true \/ same (fst p) k = true)) (A ++ B)) as F.
      { apply Forall_app. split; apply Forall_forall; intros p Q; apply filter_In in Q; tauto. }
      eapply Forall_impl; [|exact F]. cbn. intros p [Q1 Q2]. unfold in_k in Hin. rewrite Forall_forall in Hin.
      destruct (trichotomy k p Hk (Hin p Q1)) as [T|[T|T]]; intuition congruence.
    + apply Forall_forall. intros p Q. apply filter_In in Q. tauto.
  - apply Permutation_sym. eapply Permutation_trans; [apply Permutation_app_tail, Permutation_sym, Hp|].
    rewrite E at 1. rewrite app_assoc. rewrite <- app_assoc. apply Permutation_app_head.
    apply Permutation_sym, Permutation_cons_append.
  - intros k' Hk'. unfold of_name. rewrite (filter_app_l _ s). cbn [filter fst].
    unfold of_name in Hn. rewrite <- (Hn k' Hk'). rewrite E at 1.
    rewrite !filter_app_l. cbn [filter fst]. rewrite <- !app_assoc. do 2 f_equal.
    destruct (same k k') eqn:F; [|rewrite app_nil_r; reflexivity].
    assert (NC : filter (fun p => same (fst p) k') C = []).
    { apply filter_none. apply Forall_forall. intros p Q. apply filter_In in Q. destruct Q as [Q1 Q2].
      unfold in_k in Hin. rewrite Forall_forall in Hin. destruct (trichotomy k p Hk (Hin p Q1)) as [T|[T|T]]; try (exfalso; intuition congruence).
      destruct T as (_ & T & _). rewrite same_sym. rewrite <- (same_cong k k' (fst p) F). rewrite same_sym. exact T. }
    rewrite NC. reflexivity.
Qed.

Lemma R_add l s k v : K k -> R l s -> exists l', fm_add less k v l = Ok l' /\ R l' (s ++ [(k, v)]).
Proof.
  intros Hk HR. destruct (R_insert l s k v Hk HR) as (i & E & H). unfold fm_add. rewrite E. cbn [bind]. eauto.
Qed.

Lemma R_delete l s k : K k -> R l s -> exists l', fm_delete less k l = Ok l' /\ R l' (not_name same k s).
Proof.
  intros Hk (Hin & Hs & Hp & Hn).
  destruct (bounds k l Hk Hin Hs) as (E & L & U). cbv zeta in *. unfold fm_delete. rewrite L. cbn [bind]. rewrite U. cbn [bind].
  exists (not_name same k l). split.
  - rewrite (not_name_split k l Hk Hin Hs).
    set (A := filter (below k) l) in *. set (B := of_name same k l) in *. set (C := filter (above k) l) in *.
    f_equal. f_equal; [rewrite E at 1; apply firstn_len|rewrite E at 1; rewrite app_assoc; apply skipn_len].
  - split; [apply in_k_filter; auto|]. split; [apply sorted_filter; auto|]. split; [apply filter_perm; auto|].
    intros k' Hk'. rewrite !of_name_not_name. destruct (same k k'); auto.
Qed.

Lemma middle {A} (l a b c : list A) : l = a ++ b ++ c -> firstn (length (a ++ b) - length a) (skipn (length a) l) = b.
Proof. intros ->. rewrite skipn_len, app_length. replace (length a + length b - length a)%nat with (length b) by lia. apply firstn_len. Qed.

Lemma fm_values_ok l s k : K k -> R l s -> fm_values less k l = Ok (map snd (of_name same k s)).
Proof.
  intros Hk (Hin & Hs & Hp & Hn). destruct (bounds k l Hk Hin Hs) as (E & L & U). cbv zeta in *.
  unfold fm_values, fm_range. rewrite L. cbn [bind]. rewrite U. cbn [bind]. rewrite <- Hn by auto. do 2 f_equal.
  apply (middle _ _ _ _ E).
Qed.

Lemma R_delete_value l s k v : K k -> R l s ->
  exists l', fm_delete_value less k v l = Ok l' /\ R l' (filter (fun p => negb (same (fst p) k && same_text (snd p) v)) s).
Proof.
  intros Hk (Hin & Hs & Hp & Hn). destruct (bounds k l Hk Hin Hs) as (E & L & U). cbv zeta in *.
  unfold fm_delete_value, fm_range. rewrite L. cbn [bind]. rewrite U. cbn [bind].
  exists (filter (fun p => negb (same (fst p) k && same_text (snd p) v)) l). split.
  - f_equal.
    assert (M : firstn (length (filter (below k) l ++ of_name same k l) - length (filter (below k) l)) (skipn (length (filter (below k) l)) l) = of_name same k l).
    { apply (middle _ _ _ _ E). }
    rewrite M.
    set (A := filter (below k) l) in *. set (B := of_name same k l) in *. set (C := filter (above k) l) in *.
    assert (F1 : firstn (length A) l = A) by (rewrite E at 1; apply firstn_len).
    assert (F2 : skipn (length (A ++ B)) l = C) by (rewrite E at 1; rewrite app_assoc; apply skipn_len).
    rewrite F1, F2. rewrite E. rewrite !filter_app_l.
    assert (Tri : forall p, In p l -> (below k p = true /\ same (fst p) k = false /\ above k p = false) \/
    (below k p = false /\ same (fst p) k = true /\ above k p = false) \/ (below k p = false /\ same (fst p) k = false /\ above k p = true)).
    { intros p Q. apply trichotomy; auto. unfold in_k in Hin. rewrite Forall_forall in Hin. auto. }
    f_equal; [|f_equal].
    + symmetry. apply filter_all. apply Forall_forall. intros p Q. apply filter_In in Q. destruct Q as [Q1 Q2].
      destruct (Tri p Q1) as [T|[T|T]]; destruct T as (T1 & T2 & T3); try congruence; exact (f_equal (fun b => negb (b && same_text (snd p) v)) T2).
    + apply filter_ext_in. intros p Q. apply filter_In in Q. destruct Q as [_ Q]. rewrite bytes_eqb_same. symmetry. exact (f_equal (fun b => negb (b && same_text (snd p) v)) Q).
    + symmetry. apply filter_all. apply Forall_forall. intros p Q. apply filter_In in Q. destruct Q as [Q1 Q2].
      destruct (Tri p Q1) as [T|[T|T]]; destruct T as (T1 & T2 & T3); try congruence; exact (f_equal (fun b => negb (b && same_text (snd p) v)) T2).
  - split; [apply in_k_filter; auto|]. split; [apply sorted_filter; auto|]. split; [apply filter_perm; auto|].
    intros k' Hk'. unfold of_name in *. rewrite !filter_filter.
    assert (C : forall t : fields, filter (fun x => negb (same (fst x) k && same_text (snd x) v) && same (fst x) k') t =
      filter (fun x => negb (same (fst x) k && same_text (snd x) v)) (filter (fun x => same (fst x) k') t)).
    { intros t. rewrite filter_filter. apply filter_ext. intros x. apply andb_comm. }
    rewrite !C, (Hn k' Hk'). reflexivity.
Qed.

Lemma nth_error_len {A} (l a b : list A) : l = a ++ b -> nth_error l (length a) = nth_error b 0.
Proof. intros ->. induction a; cbn; auto. Qed.

Lemma fm_find_ok l s k : K k -> R l s -> fm_find less k l = Ok (match of_name same k s with (_, v) :: _ => Some v | [] => None end).
Proof.
  intros Hk (Hin & Hs & Hp & Hn). destruct (bounds k l Hk Hin Hs) as (E & L & U). cbv zeta in *.
  unfold fm_find. rewrite L. cbn [bind]. rewrite <- Hn by auto.
  assert (N : nth_error l (length (filter (below k) l)) = nth_error (of_name same k l ++ filter (above k) l) 0).
  { apply nth_error_len, E. }
  rewrite N. destruct (of_name same k l) as [|[k1 v1] B'] eqn:EB.
  - cbn [app]. destruct (filter (above k) l) as [|[k1 v1] C'] eqn:EC; [reflexivity|]. cbn [nth_error].
    assert (Q : In (k1, v1) (filter (above k) l)) by (rewrite EC; left; reflexivity). apply filter_In in Q. destruct Q as [Q1 Q2].
    unfold in_k in Hin. rewrite Forall_forall in Hin. specialize (Hin _ Q1). cbn [fst] in Hin. rewrite less_lt by auto.
    unfold above in Q2. cbn [fst] in Q2. rewrite Q2. reflexivity.
  - cbn [app nth_error].
    assert (Q : In (k1, v1) (of_name same k l)) by (rewrite EB; left; reflexivity). apply filter_In in Q. destruct Q as [Q1 Q2].
    unfold in_k in Hin. rewrite Forall_forall in Hin. specialize (Hin _ Q1). cbn [fst] in Hin. rewrite less_lt by auto.
    destruct (trichotomy k (k1, v1) Hk Hin) as [T|[T|T]]; cbn [fst] in *; destruct T as (T1 & T2 & T3); try congruence.
    unfold above in T3. cbn [fst] in T3. rewrite T3. reflexivity.
Qed.

Lemma R_set_if l s k v : K k -> (forall a, K a -> ci_equal a k = same a k) -> R l s ->
  exists l', fm_set_if_not_present less k v l = Ok l' /\
    R l' (match of_name same k s with [] => s ++ [(k, v)] | _ => s end).
Proof.
  intros Hk Hc HR. pose proof HR as (Hin & Hs & Hp & Hn). destruct (bounds k l Hk Hin Hs) as (E & L & U). cbv zeta in *.
  unfold fm_set_if_not_present. rewrite L. cbn [bind].
  destruct (R_insert l s k v Hk HR) as (i & Ui & HR'). rewrite U in Ui. inversion Ui; subst i. clear Ui.
  assert (N : nth_error l (length (filter (below k) l)) = nth_error (of_name same k l ++ filter (above k) l) 0).
  { apply nth_error_len, E. }
  rewrite N. rewrite <- Hn by auto. destruct (of_name same k l) as [|[k1 v1] B'] eqn:EB.
  - rewrite app_nil_r in HR'. cbn [app]. destruct (filter (above k) l) as [|[k1 v1] C'] eqn:EC; cbn [nth_error]; [eauto|].
    assert (Q : In (k1, v1) (filter (above k) l)) by (rewrite EC; left; reflexivity). apply filter_In in Q. destruct Q as [Q1 Q2].
    pose proof Hin as Hin2. unfold in_k in Hin2. rewrite Forall_forall in Hin2. specialize (Hin2 _ Q1). cbn [fst] in Hin2. rewrite Hc by auto.
    destruct (trichotomy k (k1, v1) Hk Hin2) as [T|[T|T]]; cbn [fst] in *; destruct T as (T1 & T2 & T3); try congruence.
    rewrite T2. cbn [negb]. eauto.
  - cbn [app nth_error].
    assert (Q : In (k1, v1) (of_name same k l)) by (rewrite EB; left; reflexivity). apply filter_In in Q. destruct Q as [Q1 Q2]. cbn [fst] in Q2.
    pose proof Hin as Hin2. unfold in_k in Hin2. rewrite Forall_forall in Hin2. specialize (Hin2 _ Q1). cbn [fst] in Hin2. rewrite Hc, Q2 by auto.
    cbn [negb]. eauto.
Qed.

Lemma byte_size_ok l : fm_byte_size l = Z.of_nat (length (concat (map line l))).
Proof.
  unfold fm_byte_size. assert (G : forall l n, fold_left (fun n p => n + (Z.of_nat (length (fst p)) + Z.of_nat (length (snd p)) + 2 + 2)) l n =
    n + Z.of_nat (length (concat (map line l)))).
  { induction l0 as [|p l0 IH]; intros n; cbn [fold_left map concat length]; [lia|]. rewrite IH. unfold line at 2.
    rewrite !app_length. cbn [length]. lia. }
  apply (G l 0).
Qed.

Lemma to_string_ok l : fm_to_string l = concat (map line l).
Proof.
  unfold fm_to_string. assert (G : forall l s, fold_left (fun s p => s ++ fst p ++ [x3a; x20] ++ snd p ++ [x0d; x0a]) l s =
    s ++ concat (map line l)).
  { induction l0 as [|p l0 IH]; intros s; cbn [fold_left map concat]; [rewrite app_nil_r; auto|]. rewrite IH. unfold line at 2.
    rewrite <- !app_assoc. reflexivity. }
  apply (G l []).
Qed.

Lemma lines_perm_length l s : Permutation l s -> length (concat (map line l)) = length (concat (map line s)).
Proof.
  induction 1 as [|x l s H IH|x y l|]; cbn [map concat]; rewrite ?app_length; try lia.
Qed.

Variable order : fields -> Prop.
Hypothesis sorted_order : forall l, in_k l -> sorted l -> order l.

Lemma do_ok l s c : (forall k, In k (call_names c) -> K k) ->
  (forall k v, c = FSetIfNotPresent k v -> forall a, K a -> ci_equal a k = same a k) -> R l s ->
  exists l' a, fm_do less l c = Ok (l', a) /\ R l' (fst (s_do same s c)) /\ agree same order a (snd (s_do same s c)).
Proof.
  intros Hk Hc HR. destruct c as [k v|k v|k v|k|k v| |k|k|k| | |]; cbn [fm_do s_do fst snd]; cbn [call_names In] in Hk.
  - destruct (R_add l s k v (Hk _ (or_introl eq_refl)) HR) as (l' & E & H). rewrite E. cbn [bind]. do 2 eexists. split; [reflexivity|]. split; [exact H|exact I].
  - destruct (R_delete l s k (Hk _ (or_introl eq_refl)) HR) as (l1 & E1 & H1).
    destruct (R_add l1 _ k v (Hk _ (or_introl eq_refl)) H1) as (l' & E & H). unfold fm_set. rewrite E1. cbn [bind]. rewrite E. cbn [bind].
    do 2 eexists. split; [reflexivity|]. split; [exact H|exact I].
  - destruct (R_set_if l s k v (Hk _ (or_introl eq_refl)) (Hc k v eq_refl) HR) as (l' & E & H). rewrite E. cbn [bind].
    do 2 eexists. split; [reflexivity|]. split; [exact H|exact I].
  - destruct (R_delete l s k (Hk _ (or_introl eq_refl)) HR) as (l1 & E1 & H1). rewrite E1. cbn [bind].
    do 2 eexists. split; [reflexivity|]. split; [exact H1|exact I].
  - destruct (R_delete_value l s k v (Hk _ (or_introl eq_refl)) HR) as (l1 & E1 & H1). rewrite E1. cbn [bind].
    do 2 eexists. split; [reflexivity|]. split; [exact H1|exact I].
  - do 2 eexists. split; [reflexivity|]. split; [|exact I]. repeat split; try constructor.
  - rewrite (fm_find_ok l s k (Hk _ (or_introl eq_refl)) HR). cbn [bind]. do 2 eexists. split; [reflexivity|]. split; [exact HR|].
    cbn. destruct (of_name same k s) as [|[k1 v1] t]; reflexivity.
  - rewrite (fm_find_ok l s k (Hk _ (or_introl eq_refl)) HR). cbn [bind]. do 2 eexists. split; [reflexivity|]. split; [exact HR|].
    cbn. destruct (of_name same k s) as [|[k1 v1] t]; reflexivity.
  - rewrite (fm_values_ok l s k (Hk _ (or_introl eq_refl)) HR). cbn [bind]. do 2 eexists. split; [reflexivity|]. split; [exact HR|reflexivity].
  - do 2 eexists. split; [reflexivity|]. split; [exact HR|]. destruct HR as (_ & _ & Hp & _). cbn. rewrite (Permutation_length Hp). reflexivity.
  - do 2 eexists. split; [reflexivity|]. split; [exact HR|]. destruct HR as (_ & _ & Hp & _). cbn. rewrite byte_size_ok, (lines_perm_length _ _ Hp). reflexivity.
  - do 2 eexists. split; [reflexivity|]. split; [exact HR|]. destruct HR as (Hin & Hs & Hp & Hn). cbn. exists l. split; [|split].
    + split; auto. intros x Hx. apply Hn. unfold in_k in Hin. rewrite Forall_forall in Hin. apply Hin.
      apply (Permutation_in x (Permutation_sym Hp) Hx).
    + auto.
    + apply to_string_ok.
Qed.

Lemma run_ok : forall cs l s, (forall k, In k (names cs) -> K k) ->
  (forall k v, In (FSetIfNotPresent k v) cs -> forall a, K a -> ci_equal a k = same a k) -> R l s ->
  exists l' answers, fm_run less l cs = Ok (l', answers) /\ Forall2 (agree same order) answers (s_run same s cs).
Proof.
  induction cs as [|c cs IH]; intros l s Hk Hc HR; cbn [fm_run s_run].
  - do 2 eexists. split; [reflexivity|constructor].
  - destruct (do_ok l s c) as (l1 & a & E & H1 & Ha); auto.
    + intros k Hin. apply Hk. cbn [names flat_map]. apply in_or_app. auto.
    + intros k v ->. apply (Hc k v). left. reflexivity.
    + rewrite E. cbn [bind]. destruct (s_do same s c) as [s1 b] eqn:Es. cbn [fst snd] in *.
      destruct (IH l1 s1) as (l2 & t & E2 & Ht); auto.
      * intros k Hin. apply Hk. cbn [names flat_map]. apply in_or_app. auto.
      * intros k v Hin. apply (Hc k v). right. auto.
      * rewrite E2. cbn [bind]. do 2 eexists. split; [reflexivity|]. constructor; auto.
Qed.

Lemma R_nil : R [] [].
Proof. repeat split; constructor. Qed.

End Ordered.
