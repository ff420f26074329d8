(** The timeout queue refines its specification. *)
From Coq Require Import Permutation.
From Verif.Lib Require Import Base ListX.
From Verif.Timer Require Import Model Spec Proofs.
Local Open Scope Z_scope.

Definition id_msg (x : Z * Z * Z) : Z * Z := (s_id x, s_msg x).
Definition id_due (x : Z * Z * Z) : Z * Z := (s_id x, s_due x).

Record Inv (q : tqueue) (s : squeue) : Prop := {
  i_last : w_last (tq_wheel q) = s_next s;
  i_map : tq_map q = map id_msg (s_pending s);
  i_ids : NoDup (map s_id (s_pending s));
  i_due : Forall (fun x => s_next s <= s_due x) (s_pending s);
  i_perm : Permutation (map key (w_nodes (tq_wheel q))) (map id_due (s_pending s));
  i_ok : Forall (node_ok (s_next s) (fun _ => s_next s - 1)) (w_nodes (tq_wheel q)) }.

Lemma find_map {A B} (f : A -> B) g l : find g (map f l) = option_map f (find (fun x => g (f x)) l).
Proof. induction l as [|x l IH]; cbn [map find]; [reflexivity|]. destruct (g (f x)); auto. Qed.

Lemma filter_map {A B} (f : A -> B) g l : filter g (map f l) = map f (filter (fun x => g (f x)) l).
Proof. induction l as [|x l IH]; cbn [map filter]; [reflexivity|]. destruct (g (f x)); cbn [map]; rewrite IH; reflexivity. Qed.

Lemma perm_filter {A} (f : A -> bool) l m : Permutation l m -> Permutation (filter f l) (filter f m).
Proof.
  induction 1; cbn [filter]; auto.
  - destruct (f x); auto.
  - destruct (f x), (f y); auto; constructor.
  - eapply Permutation_trans; eauto.
Qed.

Lemma filter_filter {A} (f g : A -> bool) l : filter f (filter g l) = filter (fun x => g x && f x) l.
Proof. induction l as [|x l IH]; cbn [filter]; [reflexivity|]. destruct (g x); cbn [filter andb]; [destruct (f x)|]; rewrite IH; reflexivity. Qed.

Lemma nodup_map_inj {A B} (f : A -> B) (l : list A) x y : NoDup (map f l) -> In x l -> In y l -> f x = f y -> x = y.
Proof.
  induction l as [|a l IH]; cbn [map In]; intros ND; [tauto|]. inversion ND; subst. intros [->|Hx] [->|Hy] E; auto.
  - exfalso. apply H1. rewrite E. apply in_map. auto.
  - exfalso. apply H1. rewrite <- E. apply in_map. auto.
Qed.

Lemma get_eq q s id : Inv q s -> tq_get q id = s_find s id.
Proof.
  intros I. unfold tq_get, s_find. rewrite (i_map _ _ I), find_map. cbn [id_msg fst].
  unfold id_msg. cbn [fst]. destruct (find (fun x => s_id x =? id) (s_pending s)); reflexivity.
Qed.

Lemma find_none_id s id : s_find s id = None -> ~ In id (map s_id (s_pending s)).
Proof.
  unfold s_find. destruct (find _ _) eqn:E; [discriminate|]. intros _ Hin. apply in_map_iff in Hin.
  destruct Hin as (x & <- & Hx). pose proof (find_none _ _ E x Hx) as H. cbn beta in H. rewrite Z.eqb_refl in H. discriminate.
Qed.

Lemma push_inv q s id msg e :
  Inv q s -> - 2 ^ 31 <= e - s_next s < 2 ^ 31 -> s_find s id = None ->
  Inv (mk_tq ((id, msg) :: tq_map q) (tw_add (tq_wheel q) id e))
      (mk_sq (s_next s) ((id, msg, Z.max e (s_next s)) :: s_pending s)).
Proof.
  intros [] He Hn. unfold tw_add. rewrite i_last0.
  pose proof (add_ok (s_next s) id e He) as Ok. destruct (place (s_next s) e) as [l sl] eqn:Ep.
  constructor; cbn [w_last tq_wheel tq_map s_next s_pending w_nodes map].
  - reflexivity.
  - unfold id_msg at 1. cbn [s_id s_msg fst snd]. rewrite i_map0. reflexivity.
  - constructor; auto. apply find_none_id; auto.
  - constructor; auto. cbn [s_due snd]. lia.
  - rewrite map_app. cbn [map]. unfold key at 2. cbn [n_id n_due]. unfold id_due at 1. cbn [s_id s_due fst snd].
    eapply Permutation_trans; [apply Permutation_sym, Permutation_cons_append|]. constructor. auto.
  - apply Forall_app. split; auto.
Qed.

Lemma pop_inv q s id m :
  Inv q s -> s_find s id = Some m ->
  exists q', tq_pop q id = Ok (q', Some m) /\
    Inv q' (mk_sq (s_next s) (filter (fun x => negb (s_id x =? id)) (s_pending s))).
Proof.
  intros I Hf. unfold tq_pop. rewrite (get_eq _ _ _ I), Hf. destruct I. unfold tw_delete.
  assert (Hin : exists n, In n (w_nodes (tq_wheel q)) /\ n_id n = id).
  { unfold s_find in Hf. destruct (find _ _) as [x|] eqn:E; [|discriminate]. apply find_some in E. destruct E as [E1 E2].
    assert (In (id_due x) (map key (w_nodes (tq_wheel q)))).
    { eapply Permutation_in; [apply Permutation_sym; eauto|]. apply in_map. auto. }
    apply in_map_iff in H. destruct H as (n & H1 & H2). exists n. split; auto. inversion H1. apply Z.eqb_eq in E2. lia. }
  destruct Hin as (n & Hn1 & Hn2).
  replace (existsb _ _) with true by (symmetry; apply existsb_exists; exists n; split; auto; apply Z.eqb_eq; auto).
  cbn [bind]. eexists. split; [reflexivity|].
  constructor; cbn [w_last tq_wheel tq_map s_next s_pending w_nodes].
  - auto.
  - unfold map_erase. rewrite i_map0, filter_map. reflexivity.
  - clear - i_ids0. induction (s_pending s) as [|x l IH]; cbn [filter map] in *; [constructor|].
    inversion i_ids0; subst. destruct (s_id x =? id); cbn [negb map]; auto. constructor; auto.
    intros Hin. apply H1. apply in_map_iff in Hin. destruct Hin as (y & Hy & Hy2). apply filter_In in Hy2.
    rewrite <- Hy. apply in_map. apply Hy2.
  - apply Forall_forall. intros x Hx. apply filter_In in Hx. rewrite Forall_forall in i_due0. apply i_due0, Hx.
  - apply (perm_filter (fun x => negb (fst x =? id))) in i_perm0. rewrite !filter_map in i_perm0. exact i_perm0.
  - apply Forall_forall. intros x Hx. apply filter_In in Hx. rewrite Forall_forall in i_ok0. apply i_ok0, Hx.
Qed.

Lemma filter_true {A} (f : A -> bool) l : (forall x, In x l -> f x = true) -> filter f l = l.
Proof.
  induction l as [|x l IH]; intros H; cbn [filter]; [reflexivity|]. rewrite (H x) by (left; auto). f_equal. apply IH.
  intros y Hy. apply H. right. auto.
Qed.

Lemma find_filter_ne (m : list (Z * Z)) a id : id <> a ->
  find (fun x => fst x =? id) (filter (fun x => negb (fst x =? a)) m) = find (fun x => fst x =? id) m.
Proof.
  intros H. induction m as [|x m IH]; cbn [filter find]; [reflexivity|].
  destruct (Z.eqb_spec (fst x) a) as [E|E]; cbn [negb find].
  - rewrite IH. destruct (Z.eqb_spec (fst x) id); [lia|reflexivity].
  - rewrite IH. reflexivity.
Qed.

(** Firing pops exactly the detached requests, in order. *)
Lemma fire_spec l : forall q,
  NoDup (map n_id l) -> (forall n, In n l -> In (n_id n) (map fst (tq_map q))) ->
  exists q' fired, fire q l = Ok (q', fired) /\ tq_wheel q' = tq_wheel q /\
    tq_map q' = filter (fun x => negb (existsb (fun n => n_id n =? fst x) l)) (tq_map q) /\
    fired = map (fun n => (n_id n, match tq_get q (n_id n) with Some m => m | None => 0 end)) l.
Proof.
  induction l as [|n l IH]; intros q ND Hin; cbn [fire].
  - exists q, []. repeat split; auto. symmetry. apply filter_true. reflexivity.
  - inversion ND as [|? ? Hn ND']; subst. unfold tq_get_and_pop.
    destruct (tq_get q (n_id n)) as [m|] eqn:Eg.
    2:{ exfalso. specialize (Hin n (or_introl eq_refl)). unfold tq_get in Eg. apply in_map_iff in Hin.
        destruct Hin as (x & Hx & Hx2). destruct (find _ _) as [y|] eqn:E; [destruct y; discriminate|].
        pose proof (find_none _ _ E x Hx2) as H. cbn beta in H. rewrite Hx, Z.eqb_refl in H. discriminate. }
    cbn [bind].
    set (q1 := mk_tq (map_erase (tq_map q) (n_id n)) (tq_wheel q)).
    assert (Hne : forall k, In k l -> n_id k <> n_id n).
    { intros k Hk E. apply Hn. rewrite <- E. apply in_map. auto. }
    destruct (IH q1) as (q' & fired & E & Ew & Em & Ef); auto.
    { intros k Hk. specialize (Hin k (or_intror Hk)). apply in_map_iff in Hin. destruct Hin as (x & Hx & Hx2).
      apply in_map_iff. exists x. split; auto. apply filter_In. split; auto. apply negb_true_iff, Z.eqb_neq.
      rewrite Hx. auto. }
    rewrite E. cbn [bind]. exists q', ((n_id n, m) :: fired). split; [reflexivity|]. split; [exact Ew|]. split.
    + rewrite Em. unfold q1. cbn [tq_map]. unfold map_erase. rewrite filter_filter. apply filter_ext. intros x.
      cbn [existsb]. rewrite negb_orb. rewrite (Z.eqb_sym (fst x) (n_id n)). reflexivity.
    + cbn [map]. rewrite Eg. f_equal. rewrite Ef. apply map_ext_in. intros k Hk. f_equal.
      unfold tq_get. unfold q1. cbn [tq_map]. unfold map_erase. rewrite find_filter_ne by auto. reflexivity.
Qed.

Definition s_tick (s : squeue) : squeue :=
  mk_sq (s_next s + 1) (filter (fun x => negb (s_due x =? s_next s)) (s_pending s)).

Lemma filter_false {A} (f : A -> bool) l : (forall x, In x l -> f x = false) -> filter f l = [].
Proof.
  induction l as [|x l IH]; intros H; cbn [filter]; [reflexivity|]. rewrite (H x) by (left; auto). apply IH.
  intros y Hy. apply H. right. auto.
Qed.

Lemma tick_inv q s :
  Inv q s -> exists q' fired, tq_tick q = Ok (q', fired) /\ Inv q' (s_tick s) /\
    Permutation fired (due_at (s_pending s) (s_next s)).
Proof.
  intros I. pose proof (get_eq q s) as Hget. pose proof I as II. destruct I. unfold tq_tick.
  pose proof (detach_spec (tq_wheel q)) as D. rewrite i_last0 in D. specialize (D i_ok0).
  destruct (tw_detach (tq_wheel q)) as [w l]. destruct D as (D1 & D2 & D3 & D4 & D5).
  (* the detached nodes are the requests due now *)
  assert (Pl : Permutation (map key l) (map id_due (filter (fun x => s_due x =? s_next s) (s_pending s)))).
  { assert (Permutation (map key (w_nodes w) ++ map key l) (map id_due (s_pending s))).
    { eapply Permutation_trans; [apply Permutation_sym; exact D2|]. auto. }
    apply (perm_filter (fun x => snd x =? s_next s)) in H. rewrite filter_app, !filter_map in H.
    rewrite (filter_false _ (w_nodes w)), (filter_true _ l) in H; [exact H| |].
    - intros n Hn. rewrite Forall_forall in D3. cbn. apply Z.eqb_eq. auto.
    - intros n Hn. rewrite Forall_forall in D4. specialize (D4 n Hn). cbn. apply Z.eqb_neq. lia. }
  assert (Pw : Permutation (map key (w_nodes w)) (map id_due (filter (fun x => negb (s_due x =? s_next s)) (s_pending s)))).
  { assert (Permutation (map key (w_nodes w) ++ map key l) (map id_due (s_pending s))).
    { eapply Permutation_trans; [apply Permutation_sym; exact D2|]. auto. }
    apply (perm_filter (fun x => negb (snd x =? s_next s))) in H. rewrite filter_app, !filter_map in H.
    rewrite (filter_true _ (w_nodes w)), (filter_false _ l) in H; [rewrite app_nil_r in H; exact H| |].
    - intros n Hn. rewrite Forall_forall in D3. cbn. apply negb_false_iff, Z.eqb_eq. auto.
    - intros n Hn. rewrite Forall_forall in D4. specialize (D4 n Hn). cbn. apply negb_true_iff, Z.eqb_neq. lia. }
  assert (Pid : Permutation (map n_id l) (map s_id (filter (fun x => s_due x =? s_next s) (s_pending s)))).
  { apply (Permutation_map fst) in Pl. rewrite !map_map in Pl. exact Pl. }
  assert (NDf : forall f, NoDup (map s_id (filter f (s_pending s)))).
  { intros f. clear - i_ids0. induction (s_pending s) as [|x r IH]; cbn [filter map] in *; [constructor|].
    inversion i_ids0; subst. destruct (f x); cbn [map]; auto. constructor; auto.
    intros Hin. apply H1. apply in_map_iff in Hin. destruct Hin as (y & Hy & Hy2). apply filter_In in Hy2.
    rewrite <- Hy. apply in_map. apply Hy2. }
  destruct (fire_spec l (mk_tq (tq_map q) w)) as (q' & fired & E & Ew & Em & Ef).
  { eapply Permutation_NoDup; [apply Permutation_sym; exact Pid|]. auto. }
  { intros n Hn. cbn [tq_map]. rewrite i_map0, map_map. cbn [id_msg fst].
    assert (In (n_id n) (map n_id l)) by (apply in_map; auto).
    eapply Permutation_in in H; [|exact Pid]. apply in_map_iff in H. destruct H as (x & Hx & Hx2).
    apply filter_In in Hx2. apply in_map_iff. exists x. split; [exact Hx|apply Hx2]. }
  cbn [tq_map tq_wheel] in *. rewrite E. cbn [bind].
  exists (mk_tq (tq_map q') (tw_next (tq_wheel q'))), fired. split; [reflexivity|].
  assert (Hdue : forall x, In x (s_pending s) -> existsb (fun n => n_id n =? s_id x) l = (s_due x =? s_next s)).
  { intros x Hx. destruct (Z.eqb_spec (s_due x) (s_next s)) as [Ex|Ex].
    - apply existsb_exists. assert (In (s_id x) (map n_id l)).
      { eapply Permutation_in; [apply Permutation_sym; exact Pid|]. apply in_map. apply filter_In. split; auto. apply Z.eqb_eq; auto. }
      apply in_map_iff in H. destruct H as (n & H1 & H2). exists n. split; auto. apply Z.eqb_eq; auto.
    - apply not_true_is_false. intros Hex. apply existsb_exists in Hex. destruct Hex as (n & H1 & H2). apply Z.eqb_eq in H2.
      assert (In (n_id n) (map n_id l)) by (apply in_map; auto).
      eapply Permutation_in in H; [|exact Pid]. apply in_map_iff in H. destruct H as (y & Hy & Hy2).
      apply filter_In in Hy2. destruct Hy2 as [Hy2 Hy3]. apply Z.eqb_eq in Hy3.
      assert (y = x); [|subst; auto]. eapply (nodup_map_inj s_id); eauto. lia. }
  split.
  - constructor; cbn [w_last tq_wheel tq_map s_tick s_next s_pending w_nodes tw_next]; rewrite ?Ew.
    + rewrite D1. reflexivity.
    + rewrite Em, i_map0, filter_map. f_equal. apply filter_ext_in. intros x Hx. cbn [id_msg fst]. rewrite Hdue; auto.
    + apply NDf.
    + apply Forall_forall. intros x Hx. apply filter_In in Hx. destruct Hx as [H1 H2]. apply negb_true_iff, Z.eqb_neq in H2.
      rewrite Forall_forall in i_due0. specialize (i_due0 x H1). cbn beta in *. lia.
    + exact Pw.
    + replace (s_next s + 1 - 1) with (s_next s) by lia. exact D5.
  - rewrite Ef. unfold due_at.
    apply (Permutation_map (fun id => (id, match s_find s id with Some m => m | None => 0 end))) in Pid.
    rewrite !map_map in Pid. eapply Permutation_trans; [|eapply Permutation_trans; [exact Pid|]].
    + match goal with |- Permutation ?a ?b => replace b with a; [apply Permutation_refl|] end.
      apply map_ext. intros n. f_equal. rewrite <- (get_eq q s _ II). reflexivity.
    + match goal with |- Permutation ?a ?b => replace b with a; [apply Permutation_refl|] end.
      apply map_ext_in. intros x Hx. apply filter_In in Hx. destruct Hx as [Hx _]. f_equal.
      unfold s_find. destruct (find _ _) as [y|] eqn:Ey.
      * apply find_some in Ey. destruct Ey as [Y1 Y2]. apply Z.eqb_eq in Y2. f_equal.
        eapply (nodup_map_inj s_id); eauto.
      * pose proof (find_none _ _ Ey x Hx) as H. cbn beta in H. rewrite Z.eqb_refl in H. discriminate.
Qed.

Lemma ticks_inv n : forall q s,
  Inv q s -> exists q' l, tq_ticks n q = Ok (q', l) /\
    Inv q' (mk_sq (s_next s + Z.of_nat n) (filter (fun x => s_next s + Z.of_nat n <=? s_due x) (s_pending s))) /\
    Forall2 (fun x y => fst x = fst y /\ Permutation (snd x) (snd y)) l
      (map (fun i => let t := s_next s + Z.of_nat i in (t, due_at (s_pending s) t)) (seq 0 n)).
Proof.
  induction n as [|n IH]; intros q s I; cbn [tq_ticks].
  - exists q, []. split; [reflexivity|]. split; [|constructor]. rewrite filter_true.
    + replace (s_next s + Z.of_nat 0) with (s_next s) by lia. destruct s. exact I.
    + intros x Hx. apply Z.leb_le. pose proof (i_due _ _ I) as F. rewrite Forall_forall in F. specialize (F x Hx). cbn beta in F. lia.
  - destruct (tick_inv q s I) as (q1 & fired & E & I1 & Pf). rewrite E. cbn [bind].
    destruct (IH q1 _ I1) as (q2 & l & E2 & I2 & F2). rewrite E2. cbn [bind].
    exists q2, ((w_last (tq_wheel q), fired) :: l). split; [reflexivity|]. split.
    + unfold s_tick in I2. cbn [s_next s_pending] in I2.
      replace (s_next s + 1 + Z.of_nat n) with (s_next s + Z.of_nat (S n)) in I2 by lia.
      rewrite filter_filter in I2. erewrite filter_ext; [exact I2|]. intros x. cbn beta.
      destruct (Z.eqb_spec (s_due x) (s_next s)) as [Ex|Ex]; cbn [negb andb]; [|reflexivity].
      apply Z.leb_gt. lia.
    + cbn [seq map]. constructor.
      * cbn [fst snd]. split; [rewrite (i_last _ _ I); lia|]. rewrite Z.add_0_r. exact Pf.
      * rewrite <- seq_shift, map_map. unfold s_tick in F2. cbn [s_next s_pending] in F2.
        erewrite map_ext; [exact F2|]. intros i. cbn beta zeta. replace (s_next s + Z.of_nat (S i)) with (s_next s + 1 + Z.of_nat i) by lia.
        f_equal. unfold due_at. f_equal. rewrite filter_filter. apply filter_ext. intros x.
        destruct (Z.eqb_spec (s_due x) (s_next s + 1 + Z.of_nat i)); [|destruct (s_due x =? s_next s); reflexivity].
        destruct (Z.eqb_spec (s_due x) (s_next s)); [lia|reflexivity].
Qed.

Lemma timeout_inv q s now :
  Inv q s -> exists q' l, tq_do_timeout q now = Ok (q', l) /\
    Inv q' (fst (s_do s (TTimeout now))) /\ agree (AFired l) (snd (s_do s (TTimeout now))).
Proof.
  intros I. unfold tq_do_timeout. rewrite (i_last _ _ I).
  destruct (ticks_inv (Z.to_nat (now + 1 - s_next s)) q s I) as (q' & l & E & I' & F).
  exists q', l. split; [exact E|]. cbn [s_do fst snd]. split; [|exact F].
  replace (Z.max (s_next s) (now + 1)) with (s_next s + Z.of_nat (Z.to_nat (now + 1 - s_next s))) by lia.
  erewrite filter_ext_in; [exact I'|]. intros x Hx. cbn beta.
  pose proof (i_due _ _ I) as Fd. rewrite Forall_forall in Fd. specialize (Fd x Hx). cbn beta in Fd.
  destruct (Z.ltb_spec now (s_due x)), (Z.leb_spec (s_next s + Z.of_nat (Z.to_nat (now + 1 - s_next s))) (s_due x)); lia.
Qed.

Lemma run_inv calls : forall q s,
  Inv q s -> within (- 2 ^ 31) (2 ^ 31) s calls ->
  exists q' l, tq_run q calls = Ok (q', l) /\ Forall2 agree l (s_run s calls).
Proof.
  induction calls as [|c r IH]; intros q s I W; cbn [tq_run s_run].
  - eauto.
  - cbn [within] in W. destruct W as [Wc Wr].
    assert (exists q1 a, Inv q1 (fst (s_do s c)) /\ agree a (snd (s_do s c)) /\
      match c with
        | TPush id msg e => let '(q1, b) := tq_push q id msg e in Ok (q1, APushed b)
        | TPop id => bind (tq_pop q id) (fun '(q1, m) => Ok (q1, AMsg m))
        | TGet id => Ok (q, AMsg (tq_get q id))
        | TSize => Ok (q, ASize (Z.of_nat (length (tq_map q))))
        | TTimeout now => bind (tq_do_timeout q now) (fun '(q1, l) => Ok (q1, AFired l))
        end = Ok (q1, a)) as (q1 & a & I1 & A1 & E1).
    { destruct c as [id msg e|id|id| |now].
      - unfold tq_push. rewrite (get_eq _ _ _ I). cbn [s_do]. destruct (s_find s id) eqn:Ef.
        + exists q, (APushed false). cbn [fst snd]. split; [exact I|]. split; reflexivity.
        + eexists _, (APushed true). split; [|split; [|reflexivity]]; [|reflexivity]. apply push_inv; auto.
      - cbn [s_do]. destruct (s_find s id) as [m|] eqn:Ef.
        + destruct (pop_inv _ _ _ _ I Ef) as (q' & E & I'). rewrite E. cbn [bind]. exists q', (AMsg (Some m)). cbn [fst snd]. split; [exact I'|]. split; reflexivity.
        + unfold tq_pop. rewrite (get_eq _ _ _ I), Ef. cbn [bind]. exists q, (AMsg None). cbn [fst snd]. split; [|split; reflexivity].
          rewrite filter_true; [destruct s; exact I|]. intros x Hx. apply negb_true_iff, Z.eqb_neq. intros Ex.
          apply (find_none_id _ _ Ef). rewrite <- Ex. apply in_map. auto.
      - exists q, (AMsg (tq_get q id)). cbn [s_do fst snd]. split; auto. split; [|reflexivity]. cbn [agree].
        rewrite (get_eq _ _ _ I). reflexivity.
      - eexists q, _. split; [exact I|]. split; [|reflexivity]. cbn [s_do snd agree]. rewrite (i_map _ _ I), map_length. reflexivity.
      - destruct (timeout_inv q s now I) as (q' & l & E & I' & A). rewrite E. cbn [bind]. exists q', (AFired l). auto. }
    rewrite E1. cbn [bind]. destruct (IH _ _ I1 Wr) as (q2 & l & E2 & F2). rewrite E2. cbn [bind].
    exists q2, (a :: l). split; [reflexivity|]. constructor; auto.
Qed.

Lemma init_inv t : Inv (tq_new t) (mk_sq t []).
Proof. constructor; cbn; auto; constructor. Qed.

Lemma queue_refines_l t calls :
  within (- 2 ^ 31) (2 ^ 31) (mk_sq t []) calls ->
  exists q l, tq_run (tq_new t) calls = Ok (q, l) /\ Forall2 agree l (s_run (mk_sq t []) calls).
Proof. intros W. apply run_inv; auto. apply init_inv. Qed.

(** ** Findings *)
Lemma far_future_l : exists q, tq_run (tq_new 0) [TPush 1 7 (2 ^ 31); TTimeout 0] = Ok (q, [APushed true; AFired [(0, [(1, 7)])]]).
Proof. eexists. vm_compute. reflexivity. Qed.

Lemma handler_push_l : exists q l, tq_do_timeout handler_state 1028 = Ok (q, l) /\ quiet l = true /\ tq_get q 1 = Some 7.
Proof. eexists. eexists. split; [vm_compute; reflexivity|]. split; vm_compute; reflexivity. Qed.
