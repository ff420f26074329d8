From Coq Require Import List Arith Lia Bool.
From Verif.Lib Require Import Base.
From Verif.WriteList Require Import Model.
Import ListNotations.

Definition begins {A} (a b : list A) : Prop := exists r, b = a ++ r.

Definition nbuf (m : nat -> option node) (c : nat) : list nat := match m c with Some n => concat (n_buf n) | None => [] end.
Definition nxt (m : nat -> option node) (c : nat) : option nat := match m c with Some n => n_next n | None => None end.
Definition nmsg (m : nat -> option node) (c : nat) : msg := match m c with Some n => n_msg n | None => [] end.
Definition lb (m : nat -> option node) (l : list nat) : list nat := flat_map (nbuf m) l.

(** The bytes of the nodes that can be reached *)
Fixpoint lbytes (m : nat -> option node) (l : list nat) : list nat :=
  match l with [] => [] | a :: r => nbuf m a ++ match nxt m a with Some _ => lbytes m r | None => [] end end.

(** Neighbours are linked, or a thread is about to link them. *)
Fixpoint chain (m : nat -> option node) (ps : list pst) (l : list nat) : Prop :=
  match l with
  | [] => True
  | a :: r =>
    match r with
    | [] => nxt m a = None
    | b :: _ => (nxt m a = Some b \/ nxt m a = None /\ In (PLink b (Some a)) ps) /\ chain m ps r
    end
  end.

Definition own (p : pst) : list nat := match p with PXchg i => [i] | PLink i _ => [i] | _ => [] end.
Definition act (p : pst) : bool := match p with PXchg _ | PLink _ _ => true | _ => false end.
Definition first (p : pst) : bool := match p with PLink _ None => true | _ => false end.
Definition infl (m : nat -> option node) (p : pst) : nat := match p with PNew x => bytes x | PXchg i => length (nbuf m i) | _ => 0 end.
Definition inflight (m : nat -> option node) (ps : list pst) : nat := list_sum (map (infl m) ps).

Definition lastn (l : list nat) : option nat := match rev l with [] => None | x :: _ => Some x end.

Definition over (max : nat) (iov : msg) : Prop := bytes iov <= max \/ exists a b, iov = a ++ [b] /\ bytes a < max.
Definition full (iovmax max : nat) (iov : msg) : bool := Nat.eqb (length iov) iovmax || negb (bytes iov <? max).

Section Inv.
Variable iovmax : nat.

Definition finv (f : fst_) (s : st) : Prop :=
  match f with
  | FLoad | FRest | FNext _ _ => exists c r, live s = c :: r /\ head s = Some c
  | FGather h cur iov max => (exists r, live s = h :: r) /\ head s = Some h /\ 0 < max /\ over max iov /\
      match cur with
      | Some c => exists pre post, live s = pre ++ c :: post /\ (forall x, In x pre -> nxt (mem s) x <> None) /\ begins (concat iov) (lb (mem s) pre) /\
          (full iovmax max iov = false -> concat iov = lb (mem s) pre)
      | None => begins (concat iov) (lbytes (mem s) (live s))
      end
  | FWrite h iov max => (exists r, live s = h :: r) /\ head s = Some h /\ 0 < max /\ over max iov /\ begins (concat iov) (lbytes (mem s) (live s))
  | FSub h rc total => (exists r, live s = h :: r) /\ rc <= total /\ total <= length (lbytes (mem s) (live s))
  | FRewind c fl rc total => (exists r, live s = c :: r) /\ rc <= total /\ fl + (total - rc) <= length (lbytes (mem s) (live s))
  | FCas c rc total => (exists r, live s = c :: r) /\ rc = total
  | FSpin c rc total => (exists d r, live s = c :: d :: r)
  end.
Definition kf (m : nat -> option node) (fs : list fst_) : nat :=
  match fs with FSub _ rc _ :: _ => rc | FRewind _ fl _ _ :: _ => fl | FCas c _ _ :: _ | FSpin c _ _ :: _ => length (nbuf m c) | _ => 0 end.
Definition ks (m : nat -> option node) (fs : list fst_) : nat :=
  match fs with FRewind _ fl _ _ :: _ => fl | FCas c _ _ :: _ | FSpin c _ _ :: _ => length (nbuf m c) | _ => 0 end.
Definition popped (fs : list fst_) : bool := match fs with FCas _ _ _ :: _ | FSpin _ _ _ :: _ => true | _ => false end.

Record Inv (s : st) : Prop := {
  i_live : forall c, In c (live s) -> mem s c <> None;
  i_nodup : NoDup (live s);
  i_own : NoDup (flat_map own (prods s));
  i_new : forall id, In (PXchg id) (prods s) -> ~ In id (live s) /\ exists m, mem s id = Some {| n_next := None; n_buf := m; n_msg := m |};
  i_first : forall id, In (PLink id None) (prods s) -> exists r, live s = id :: r;
  i_link : forall id q, In (PLink id (Some q)) (prods s) -> nxt (mem s) q = None /\ exists l1 l2, live s = l1 ++ q :: id :: l2;
  i_chain : chain (mem s) (prods s) (live s);
  i_tail : tail s = lastn (live s);
  i_msgs : forall c, In c (live s) -> length (nbuf (mem s) c) <= bytes (nmsg (mem s) c);
  i_count : length (flushers s) + length (filter first (prods s)) = if dead s then 0 else match live s with [] => 0 | _ => 1 end;
  i_dead : dead s = true -> live s <> [];
  i_flush : forall f, In f (flushers s) -> finv f s;
  i_bytes : concat (map (@concat nat) (sent s)) = written s ++ skipn (kf (mem s) (flushers s)) (lb (mem s) (live s));
  i_sent : sent s = finished s ++ map (nmsg (mem s)) (if popped (flushers s) then tl (live s) else live s);
  i_size : size s + ks (mem s) (flushers s) = length (lb (mem s) (live s)) + inflight (mem s) (prods s);
  i_crash : crash s = false }.

(** ** Lists *)
Lemma begins_refl {A} (a : list A) : begins a a.
Proof. exists []. symmetry. apply app_nil_r. Qed.
Lemma begins_app {A} (a b c : list A) : begins a b -> begins a (b ++ c).
Proof. intros (r & ->). exists (r ++ c). apply app_assoc_reverse. Qed.
Lemma begins_trans {A} (a b c : list A) : begins a b -> begins b c -> begins a c.
Proof. intros (x & ->) (y & ->). exists (x ++ y). apply app_assoc_reverse. Qed.
Lemma begins_len {A} (a b : list A) : begins a b -> length a <= length b.
Proof. intros (r & ->). rewrite app_length. lia. Qed.
Lemma begins_firstn {A} n (a b : list A) : begins a b -> n <= length a -> firstn n a = firstn n b.
Proof. intros (r & ->) L. rewrite firstn_app. replace (n - length a) with 0 by lia. cbn. rewrite app_nil_r. reflexivity. Qed.

Lemma lastn_app l x : lastn (l ++ [x]) = Some x.
Proof. unfold lastn. rewrite rev_app_distr. reflexivity. Qed.
Lemma lastn_some l q : lastn l = Some q -> exists r, l = r ++ [q].
Proof.
  unfold lastn. destruct (rev l) as [|x r] eqn:E; [discriminate|]. intros [= ->]. exists (rev r). rewrite <- (rev_involutive l), E. reflexivity.
Qed.
Lemma lastn_none l : lastn l = None -> l = [].
Proof. unfold lastn. destruct (rev l) as [|x r] eqn:E; [|discriminate]. intros _. rewrite <- (rev_involutive l), E. reflexivity. Qed.
Lemma lastn_cons a b r : lastn (a :: b :: r) = lastn (b :: r).
Proof. unfold lastn. cbn. rewrite <- app_assoc. destruct (rev r) as [|x y]; reflexivity. Qed.

Lemma lb_app m a b : lb m (a ++ b) = lb m a ++ lb m b.
Proof. apply flat_map_app. Qed.
Lemma lb_cons m a l : lb m (a :: l) = nbuf m a ++ lb m l.
Proof. reflexivity. Qed.
Lemma lb_ext m m' l : (forall c, In c l -> nbuf m' c = nbuf m c) -> lb m' l = lb m l.
Proof. intros H. induction l as [|a l IH]; [reflexivity|]. cbn. rewrite H by (left; reflexivity). f_equal. apply IH. intros c C. apply H. right. exact C. Qed.
Lemma map_nmsg_ext m m' l : (forall c, In c l -> nmsg m' c = nmsg m c) -> map (nmsg m') l = map (nmsg m) l.
Proof. apply map_ext_in. Qed.

Lemma lbytes_begins m l : begins (lbytes m l) (lb m l).
Proof.
  induction l as [|a l IH]; [apply begins_refl|]. rewrite lb_cons. cbn [lbytes]. destruct (nxt m a); [|rewrite app_nil_r; apply begins_app, begins_refl].
  destruct IH as (r & ->). exists r. apply app_assoc.
Qed.
Lemma lbytes_ext m m' l : (forall c, In c l -> nbuf m' c = nbuf m c /\ nxt m' c = nxt m c) -> lbytes m' l = lbytes m l.
Proof.
  intros H. induction l as [|a l IH]; [reflexivity|]. cbn. destruct (H a (or_introl eq_refl)) as [-> ->]. rewrite IH; [reflexivity|].
  intros c C. apply H. right. exact C.
Qed.
Lemma lbytes_linked m pre rest : (forall x, In x pre -> nxt m x <> None) -> begins (lb m pre) (lbytes m (pre ++ rest)).
Proof.
  induction pre as [|a pre IH]; intros H; [exists (lbytes m rest); reflexivity|]. rewrite lb_cons. cbn [lbytes app].
  destruct (nxt m a) eqn:N; [|destruct (H a (or_introl eq_refl) N)].
  destruct IH as (r & ->); [intros x X; apply H; right; exact X|]. exists r. apply app_assoc.
Qed.
(** Linking a node makes more bytes reachable. *)
Lemma lbytes_link m m' l : (forall c, In c l -> nbuf m' c = nbuf m c /\ (nxt m c <> None -> nxt m' c <> None)) -> begins (lbytes m l) (lbytes m' l).
Proof.
  induction l as [|a l IH]; intros H; [apply begins_refl|]. cbn. destruct (H a (or_introl eq_refl)) as [-> B].
  destruct (nxt m a) eqn:E.
  - destruct (nxt m' a) eqn:E'; [|destruct (B ltac:(discriminate) eq_refl)]. destruct IH as (r & ->); [intros c C; apply H; right; exact C|].
    exists r. apply app_assoc.
  - rewrite app_nil_r. apply begins_app, begins_refl.
Qed.
Lemma lbytes_more m l x : begins (lbytes m l) (lbytes m (l ++ x)).
Proof.
  induction l as [|a l IH]; [exists (lbytes m x); reflexivity|]. cbn. destruct (nxt m a); [|apply begins_refl].
  destruct IH as (r & ->). exists r. apply app_assoc.
Qed.

(** ** Chains *)
Lemma chain_ext m m' ps ps' l : (forall c, In c l -> nxt m' c = nxt m c) -> (forall a b, In b l -> In (PLink b (Some a)) ps -> In (PLink b (Some a)) ps') ->
  chain m ps l -> chain m' ps' l.
Proof.
  revert ps ps'. induction l as [|a l IH]; intros ps ps' H G; [exact (fun x => x)|]. cbn. destruct l as [|b l].
  - rewrite H by (left; reflexivity). exact (fun x => x).
  - intros [A B]. rewrite H by (left; reflexivity). split.
    + destruct A as [A|[A1 A2]]; [left; exact A|right]. split; [exact A1|]. apply G; [right; left; reflexivity|exact A2].
    + apply (IH ps ps'); [intros c C; apply H; right; exact C| |exact B]. intros x y Y. apply G. right. exact Y.
Qed.
Lemma chain_tail m ps a l : chain m ps (a :: l) -> chain m ps l.
Proof. destruct l; [cbn; auto|intros [_ B]; exact B]. Qed.
Lemma chain_last m ps l q : chain m ps (l ++ [q]) -> nxt m q = None.
Proof. induction l as [|a l IH]; intros H; [exact H|]. cbn [app] in H. apply chain_tail in H. exact (IH H). Qed.
Lemma chain_snoc m ps l q x : chain m ps (l ++ [q]) -> nxt m x = None -> In (PLink x (Some q)) ps -> chain m ps (l ++ [q; x]).
Proof.
  induction l as [|a l IH]; cbn [app]; intros H N I.
  - split; [right; split; [exact H|exact I]|exact N].
  - destruct l as [|b l]; cbn [app] in *.
    + destruct H as [H1 H2]. split; [exact H1|]. apply IH; assumption.
    + destruct H as [H1 H2]. split; [exact H1|]. apply IH; assumption.
Qed.
Lemma chain_next m ps l1 a b l2 : chain m ps (l1 ++ a :: b :: l2) -> nxt m a = Some b \/ nxt m a = None /\ In (PLink b (Some a)) ps.
Proof. induction l1 as [|c l1 IH]; intros H; [apply H|]. cbn [app] in H. apply chain_tail in H. exact (IH H). Qed.
(** The node behind a linked one *)
Lemma chain_some m ps l1 a l2 d : chain m ps (l1 ++ a :: l2) -> nxt m a = Some d -> exists r, l2 = d :: r.
Proof.
  destruct l2 as [|b l2]; intros H N.
  - apply chain_last in H. congruence.
  - destruct (chain_next _ _ _ _ _ _ H) as [E|[E _]]; [|congruence]. exists l2. congruence.
Qed.

(** ** The pool *)
Lemma upd_same m i x : upd m i x i = x.
Proof. unfold upd. rewrite Nat.eqb_refl. reflexivity. Qed.
Lemma upd_other m i x j : j <> i -> upd m i x j = m j.
Proof. unfold upd. intros H. destruct (Nat.eqb_spec j i); [contradiction|reflexivity]. Qed.
Lemma nbuf_other m i x j : j <> i -> nbuf (upd m i x) j = nbuf m j.
Proof. intros H. unfold nbuf. rewrite upd_other by exact H. reflexivity. Qed.
Lemma nxt_other m i x j : j <> i -> nxt (upd m i x) j = nxt m j.
Proof. intros H. unfold nxt. rewrite upd_other by exact H. reflexivity. Qed.
Lemma nmsg_other m i x j : j <> i -> nmsg (upd m i x) j = nmsg m j.
Proof. intros H. unfold nmsg. rewrite upd_other by exact H. reflexivity. Qed.

Lemma inflight_app m a b : inflight m (a ++ b) = inflight m a + inflight m b.
Proof. unfold inflight. rewrite map_app, list_sum_app. reflexivity. Qed.
Lemma inflight_mid m a p b : inflight m (a ++ p :: b) = infl m p + inflight m (a ++ b).
Proof. rewrite !inflight_app. change (inflight m (p :: b)) with (infl m p + inflight m b). lia. Qed.
Lemma inflight_ext m m' ps : (forall i, In (PXchg i) ps -> nbuf m' i = nbuf m i) -> inflight m' ps = inflight m ps.
Proof.
  intros H. unfold inflight. f_equal. apply map_ext_in. intros p P. destruct p; cbn; try reflexivity. rewrite H by exact P. reflexivity.
Qed.

(** ** Who is who *)
Lemma in_mid {A} (x p : A) l1 l2 : In x (l1 ++ p :: l2) <-> x = p \/ In x (l1 ++ l2).
Proof. rewrite !in_app_iff. cbn. intuition auto. Qed.
Lemma own_mid l1 p l2 : NoDup (flat_map own (l1 ++ p :: l2)) -> NoDup (flat_map own (l1 ++ l2)) /\
  forall i, In i (own p) -> ~ In i (flat_map own (l1 ++ l2)).
Proof.
  intros H. destruct (own p) as [|i [|? ?]] eqn:E.
  - split; [|intros i []]. rewrite flat_map_app in *. cbn in H. rewrite E in H. exact H.
  - rewrite flat_map_app in *. cbn in H. rewrite E in H. apply NoDup_remove in H. destruct H as [H1 H2]. split; [exact H1|].
    intros j [<-|[]]. exact H2.
  - destruct p; discriminate.
Qed.
Lemma own_put l1 p l2 : NoDup (flat_map own (l1 ++ l2)) -> (forall i, In i (own p) -> ~ In i (flat_map own (l1 ++ l2))) ->
  NoDup (flat_map own (l1 ++ p :: l2)).
Proof.
  intros H G. rewrite flat_map_app in *. cbn. destruct (own p) as [|i [|? ?]] eqn:E; [exact H| |destruct p; discriminate].
  apply NoDup_Add with (a := i) (l := flat_map own l1 ++ flat_map own l2).
  - change ([i] ++ flat_map own l2) with (i :: flat_map own l2). apply Add_app.
  - split; [exact H|]. apply G. left. reflexivity.
Qed.
Lemma in_own i ps : In i (flat_map own ps) <-> In (PXchg i) ps \/ exists q, In (PLink i q) ps.
Proof.
  rewrite in_flat_map. split.
  - intros (p & P & I). destruct p; cbn in I; try contradiction; destruct I as [<-|[]]; [left; exact P|right; eexists; exact P].
  - intros [H|(q & H)]; [exists (PXchg i)|exists (PLink i q)]; cbn; auto.
Qed.

(** A step that touches no node *)
Lemma act_in p ps : act p = true -> In p ps <-> In p (filter act ps).
Proof. intros A. rewrite filter_In. tauto. Qed.
Lemma own_act ps : flat_map own ps = flat_map own (filter act ps).
Proof. induction ps as [|p ps IH]; [reflexivity|]. destruct p; cbn; rewrite IH; reflexivity. Qed.
Lemma first_act ps : filter first ps = filter first (filter act ps).
Proof. induction ps as [|p ps IH]; [reflexivity|]. destruct p; cbn; rewrite ?IH; try reflexivity; destruct prev; cbn; rewrite IH; reflexivity. Qed.

Definition same (s s' : st) : Prop :=
  head s' = head s /\ tail s' = tail s /\ mem s' = mem s /\ flushers s' = flushers s /\ live s' = live s /\ sent s' = sent s /\
  written s' = written s /\ finished s' = finished s /\ dead s' = dead s /\ crash s' = crash s.

Lemma inert s s' : Inv s -> same s s' -> filter act (prods s') = filter act (prods s) ->
  size s' + inflight (mem s) (prods s) = size s + inflight (mem s) (prods s') -> Inv s'.
Proof.
  intros I (E1 & E2 & E3 & E4 & E5 & E6 & E7 & E8 & E9 & E10) F Z.
  assert (M : forall p, act p = true -> In p (prods s') -> In p (prods s)).
  { intros p A P. rewrite act_in in P |- * by exact A. rewrite <- F. exact P. }
  assert (M' : forall p, act p = true -> In p (prods s) -> In p (prods s')).
  { intros p A P. rewrite act_in in P |- * by exact A. rewrite F. exact P. }
  destruct I. constructor; rewrite ?E1, ?E2, ?E3, ?E4, ?E5, ?E6, ?E7, ?E8, ?E9, ?E10; try assumption.
  - rewrite own_act, F, <- own_act. assumption.
  - intros id H. apply i_new0. apply M; [reflexivity|exact H].
  - intros id H. apply i_first0. apply M; [reflexivity|exact H].
  - intros id q H. apply i_link0. apply M; [reflexivity|exact H].
  - eapply chain_ext; [reflexivity| |eassumption]. intros a b B. apply M'. reflexivity.
  - rewrite first_act, F, <- first_act. assumption.
  - intros f H. specialize (i_flush0 f H). destruct f; cbn in *; rewrite ?E1, ?E3, ?E5; exact i_flush0.
  - lia.
Qed.

Ltac sm := cbn [head tail mem size stopped prods flushers live sent written finished dead crash set_head set_tail set_mem set_size set_stopped
  set_prods set_flushers set_live set_sent set_written set_finished set_dead set_crash].

(** ** Append *)
Lemma step_new s l1 m l2 i : Inv s -> prods s = l1 ++ PNew m :: l2 -> mem s i = None ->
  Inv (set_prods (l1 ++ PXchg i :: l2) (set_mem (upd (mem s) i (Some {| n_next := None; n_buf := m; n_msg := m |})) s)).
Proof.
  intros I P N.
  assert (NL : ~ In i (live s)) by (intros H; exact (i_live _ I i H N)).
  assert (NI : forall c, In c (live s) -> c <> i) by (intros c C ->; contradiction).
  assert (NO : ~ In i (flat_map own (l1 ++ l2))).
  { intros H. apply in_own in H. destruct H as [H|(q & H)].
    - destruct (i_new _ I i) as (_ & x & X); [rewrite P; apply in_mid; right; exact H|congruence].
    - apply NL. destruct q as [q|].
      + destruct (i_link _ I i q) as (_ & a & b & ->); [rewrite P; apply in_mid; right; exact H|]. apply in_or_app. right. right. left. reflexivity.
      + destruct (i_first _ I i) as (r & ->); [rewrite P; apply in_mid; right; exact H|]. left. reflexivity. }
  assert (NX : forall j, In (PXchg j) (l1 ++ l2) -> j <> i).
  { intros j J ->. apply NO. apply in_own. left. exact J. }
  assert (B : forall c, In c (live s) -> nbuf (upd (mem s) i (Some {| n_next := None; n_buf := m; n_msg := m |})) c = nbuf (mem s) c).
  { intros c C. apply nbuf_other, NI, C. }
  assert (X : forall c, In c (live s) -> nxt (upd (mem s) i (Some {| n_next := None; n_buf := m; n_msg := m |})) c = nxt (mem s) c).
  { intros c C. apply nxt_other, NI, C. }
  assert (G : forall c, In c (live s) -> nmsg (upd (mem s) i (Some {| n_next := None; n_buf := m; n_msg := m |})) c = nmsg (mem s) c).
  { intros c C. apply nmsg_other, NI, C. }
  assert (LB : forall l, (forall c, In c l -> In c (live s)) -> lb (upd (mem s) i (Some {| n_next := None; n_buf := m; n_msg := m |})) l = lb (mem s) l).
  { intros l L. apply lb_ext. auto. }
  assert (LY : lbytes (upd (mem s) i (Some {| n_next := None; n_buf := m; n_msg := m |})) (live s) = lbytes (mem s) (live s)).
  { apply lbytes_ext. auto. }
  set (m' := upd (mem s) i _) in *.
  assert (K : kf m' (flushers s) = kf (mem s) (flushers s) /\ ks m' (flushers s) = ks (mem s) (flushers s)).
  { destruct (flushers s) as [|f fs] eqn:E; [split; reflexivity|]. pose proof (i_flush _ I f) as F. rewrite E in F. specialize (F (or_introl eq_refl)).
    destruct f; cbn in F |- *; try (split; reflexivity).
    - destruct F as ((r & F) & _). split; (rewrite B; [reflexivity|rewrite F; left; reflexivity]).
    - destruct F as (d & r & F). split; (rewrite B; [reflexivity|rewrite F; left; reflexivity]). }
  destruct K as [K1 K2].
  pose proof (i_own _ I) as IO. rewrite P in IO. destruct (own_mid _ _ _ IO) as [IO1 IO2].
  constructor; sm; fold m'.
  - intros c C. unfold m'. rewrite upd_other by (apply NI, C). apply (i_live _ I), C.
  - apply (i_nodup _ I).
  - apply own_put; [exact IO1|]. intros j [<-|[]]. exact NO.
  - intros id H. apply in_mid in H. destruct H as [H|H].
    + injection H as ->. split; [exact NL|]. exists m. unfold m'. apply upd_same.
    + destruct (i_new _ I id) as (A & x & Y); [rewrite P; apply in_mid; right; exact H|]. split; [exact A|]. exists x. unfold m'.
      rewrite upd_other by (apply NX, H). exact Y.
  - intros id H. apply in_mid in H. destruct H as [H|H]; [discriminate|]. apply (i_first _ I). rewrite P. apply in_mid. right. exact H.
  - intros id q H. apply in_mid in H. destruct H as [H|H]; [discriminate|].
    destruct (i_link _ I id q) as (A & a & b & C); [rewrite P; apply in_mid; right; exact H|].
    split; [|exists a, b; exact C]. rewrite X; [exact A|]. rewrite C. apply in_or_app. right. left. reflexivity.
  - apply (chain_ext (mem s) m' (prods s)); [exact X| |apply (i_chain _ I)]. intros a b Y H. rewrite P in H. apply in_mid in H. apply in_mid.
    destruct H as [H|H]; [discriminate|right; exact H].
  - apply (i_tail _ I).
  - intros c C. rewrite B, G by exact C. apply (i_msgs _ I), C.
  - pose proof (i_count _ I) as H. rewrite P, filter_app in H. cbn in H. rewrite filter_app. exact H.
  - apply (i_dead _ I).
  - intros f F. pose proof (i_flush _ I f F) as H. destruct f; cbn [finv] in H |- *; sm; fold m'; rewrite ?LY; try exact H.
    destruct cur as [c|]; [|exact H]. destruct H as (H1 & H2 & H3 & H4 & pre & post & H5 & H6 & H7 & H8).
    assert (SB : forall x, In x pre -> In x (live s)) by (intros x Y; rewrite H5; apply in_or_app; left; exact Y).
    repeat (split; [assumption|]). exists pre, post. rewrite (LB pre SB). repeat (split; [assumption|]). split; [|auto].
    intros x Y. rewrite X by (apply SB, Y). apply H6, Y.
  - rewrite K1, LB by auto. apply (i_bytes _ I).
  - rewrite (map_nmsg_ext (mem s) m'); [apply (i_sent _ I)|]. intros c C. apply G. destruct (popped (flushers s)); [|exact C].
    destruct (live s); [exact C|right; exact C].
  - rewrite K2, LB by auto. pose proof (i_size _ I) as H. rewrite P, inflight_mid in H. rewrite inflight_mid, (inflight_ext (mem s) m').
    + cbn -[nbuf] in H |- *. unfold m' at 1, nbuf at 1. rewrite upd_same. cbn. unfold bytes in H. lia.
    + intros j J. apply nbuf_other, NX, J.
  - apply (i_crash _ I).
Qed.
End Inv.
