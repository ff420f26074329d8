(** Proofs about the condition variable. *)
From Coq Require Import Lia.
From Verif.Lib Require Import Base ListX Count.
From Verif.FiberSync Require Import ModelCv SpecCv.
Local Open Scope Z_scope.

Definition wr (k : nat) (c : pc) : bool := match c with NRes _ _ j _ => (j =? k)%nat | _ => false end.
Definition ww (k : nat) (c : pc) : bool := match c with NWake _ _ j _ => (j =? k)%nat | _ => false end.
Definition ws (k : nat) (c : pc) : bool := match c with NSys _ _ j _ => (j =? k)%nat | _ => false end.
Notation CN f s := (zc (fun t => f (t_pc t)) (c_ths s)).
Notation A k s := (CN (wr k) s).
Notation B k s := (CN (ww k) s).
Notation C k s := (CN (ws k) s).
Definition lk (k : nat) (l : list (nat * nat)) : bool := existsb (fun p => (fst p =? k)%nat) l.
(** Whom a thread is about to wake. *)
Definition tgt (c : pc) : option (nat * nat) := match c with NRes _ _ j g | NWake _ _ j g | NSys _ _ j g => Some (j, g) | _ => None end.
Definition hflag (c : pc) : option bool := match c with NGo h _ | NRes h _ _ _ | NWake h _ _ _ | NSys h _ _ _ => Some h | _ => None end.
Definition futex (c : pc) : bool := match c with NWake _ _ _ _ | NSys _ _ _ _ => true | _ => false end.
Definition isp (c : pc) : bool := match c with PAdd _ | PGot _ | PUn _ | PWait _ | PRet _ _ | PLock _ _ => true | _ => false end.
Definition flag (c : pc) : option bool := match c with FIn t | FUn t | FSusp t | FRun t | FClean t _ => Some t | _ => None end.

(** What holds of a thread, given whether it is in the chain and how many are about to wake it. *)
Definition fpart (f : bool) (t : thr) (L : bool) (a b c : Z) : Prop :=
  t_fib t = true /\ b = 0 /\ c = 0 /\
  (t_sat t = false /\ L = true /\ a = 0 /\ t_tm t = (if f then TSet else TNone) \/ t_sat t = true /\ t_tm t = TRes /\ a = 0 /\ f = true \/
   t_sat t = true /\ t_tm t <> TRes /\ a = 1 /\ L = false).
Definition ok (t : thr) (L : bool) (a b c : Z) : Prop :=
  (t_tm t = TSet -> flag (t_pc t) = Some true) /\
  match t_pc t with
  | FIn f | FUn f | FSusp f => fpart f t L a b c
  | FRun f => t_fib t = true /\ t_sat t = true /\ a = 0 /\ b = 0 /\ c = 0 /\ t_tm t <> TRes /\ (L = true -> f = true)
  | FClean f r => t_fib t = true /\ t_sat t = true /\ a = 0 /\ b = 0 /\ c = 0 /\ t_tm t <> TRes /\ L = false /\ (r = false -> f = true)
  | FLock f r => a = 0 /\ b = 0 /\ c = 0 /\ t_tm t = TNone /\ L = false /\ (r = false -> f = true)
  | PAdd _ => t_fib t = false /\ t_tm t = TNone /\ L = true /\ t_val t = 0 /\ a = 0 /\ b = 0 /\ c = 0
  | PGot _ => t_fib t = false /\ t_tm t = TNone /\ L = true /\ t_val t = 0 /\ t_st t = 0 /\ a = 0 /\ b = 0 /\ c = 0
  | PUn _ => t_fib t = false /\ t_tm t = TNone /\ a = 0 /\ t_st t = 0 /\
      (L = true /\ t_val t = 0 /\ b = 0 /\ c = 0 \/ L = false /\ t_val t = 0 /\ b = 1 /\ c = 0 \/ L = false /\ t_val t = 2 /\ b = 0)
  | PWait _ => t_fib t = false /\ t_tm t = TNone /\ a = 0 /\ t_st t = 0 /\
      (L = true /\ t_val t = 0 /\ b = 0 /\ c = 0 \/ L = false /\ t_val t = 0 /\ b = 1 /\ c = 0 \/ L = false /\ t_val t = 2 /\ b = 0 /\ 1 <= c)
  | PRet f r => t_fib t = false /\ t_tm t = TNone /\ a = 0 /\ (L = true -> b = 0 /\ c = 0) /\ (r = false -> f = true)
  | PLock f r => t_fib t = false /\ t_tm t = TNone /\ a = 0 /\ L = false /\ (r = false -> f = true)
  | Crash => False
  | _ => a = 0 /\ b = 0 /\ c = 0 /\ t_tm t = TNone /\ L = false
  end.

Lemma tm_f (f : bool) : (if f then TSet else TNone) <> TRes. Proof. destruct f; discriminate. Qed.
Lemma tm_s (f : bool) : (if f then TSet else TNone) = TSet -> f = true. Proof. destruct f; [auto|discriminate]. Qed.
Section Inv.
Variables pth locked : bool.
Hypothesis Hl : pth = true -> locked = true.

Record inv (s : cv) : Prop := {
  v_mx : CN owns s = bz (c_mx s);
  v_nodup : NoDup (map fst (c_chain s));
  v_chain : forall j g, In (j, g) (c_chain s) -> (j < length (c_ths s))%nat /\ t_gen (th j s) = g;
  v_tgt : forall i j g, (i < length (c_ths s))%nat -> tgt (t_pc (th i s)) = Some (j, g) -> (j < length (c_ths s))%nat /\ t_gen (th j s) = g;
  v_lk : locked = true -> forall i, (i < length (c_ths s))%nat -> hflag (t_pc (th i s)) <> Some false;
  v_fx : forall i, (i < length (c_ths s))%nat -> futex (t_pc (th i s)) = true -> hflag (t_pc (th i s)) = Some true;
  v_pt : pth = false -> forall i, (i < length (c_ths s))%nat -> isp (t_pc (th i s)) = false;
  v_ok : forall k, (k < length (c_ths s))%nat -> ok (th k s) (lk k (c_chain s)) (A k s) (B k s) (C k s) }.

Lemma init_inv n : inv (cv_new n).
Proof.
  assert (E : forall i, th i (cv_new n) = t0) by (intros i; unfold th, cv_new; cbn; apply nth_repeat).
  constructor; try (intros; rewrite E in *; cbn in *; congruence).
  - cbn [cv_new c_mx c_ths]. rewrite zc_repeat by reflexivity. reflexivity.
  - constructor.
  - intros j g [].
  - intros k L. rewrite E. cbn [cv_new c_ths c_chain]. rewrite !zc_repeat by reflexivity. cbn. repeat split; try reflexivity; discriminate.
Qed.

Lemma lk_in k l : lk k l = true <-> exists g, In (k, g) l.
Proof.
  unfold lk. rewrite existsb_exists. split.
  - intros ((j, g) & I & E). apply Nat.eqb_eq in E. cbn in E. subst. eauto.
  - intros (g & I). exists (k, g). split; [exact I|]. apply Nat.eqb_refl.
Qed.
Lemma lk_out k l : lk k l = false <-> ~ In k (map fst l).
Proof.
  split.
  - intros E I. apply in_map_iff in I. destruct I as ((j, g) & E2 & I). cbn in E2. subst. assert (lk k l = true) by (apply lk_in; eauto). congruence.
  - intros N. destruct (lk k l) eqn:E; [|reflexivity]. elim N. apply lk_in in E. destruct E as (g & I). apply (in_map fst) in I. exact I.
Qed.
Lemma lk_app k a b : lk k (a ++ b) = lk k a || lk k b.
Proof. apply existsb_app. Qed.

(** At most as many wake thread k through its futex as have the mutex. *)
Lemma futex_owns k s : inv s -> B k s + C k s <= bz (c_mx s).
Proof.
  intros H. rewrite <- (v_mx s H). pose proof (v_fx s H) as F. unfold zc, th in *. revert F. generalize (c_ths s). intros l F.
  enough (cnt (fun t => ww k (t_pc t)) l + cnt (fun t => ws k (t_pc t)) l <= cnt (fun t => owns (t_pc t)) l)%nat by lia.
  induction l as [|t l IH]; cbn [cnt]; [lia|]. assert (IH' := IH ltac:(intros i L; apply (F (S i)); cbn; lia)). specialize (F 0%nat ltac:(cbn; lia)). cbn [nth] in F.
  destruct (t_pc t) as [| | | | | | | | | | | | | | | |h a j g|h a j g|]; cbn [ww ws owns b2n futex hflag] in *; try lia; specialize (F eq_refl); injection F as ->; cbn [b2n]; destruct (j =? k)%nat; cbn [b2n]; lia.
Qed.

Lemma dropped_ok t L a b c : ok t L a b c -> t_fib t = true -> t_sat t = true -> ok t false a b c.
Proof.
  intros (O1 & O) F S. split; [exact O1|]. revert O. unfold fpart. destruct (t_pc t); intros O; try exact O; try (exfalso; intuition congruence); try (intuition congruence).
Qed.
(** One thread moves. *)
Lemma move1 s i t' l' mx' : inv s -> (i < length (c_ths s))%nat ->
  bz mx' = bz (c_mx s) - bz (owns (t_pc (th i s))) + bz (owns (t_pc t')) ->
  tgt (t_pc (th i s)) = None -> tgt (t_pc t') = None ->
  (t_gen t' = t_gen (th i s) \/ A i s = 0 /\ B i s = 0 /\ C i s = 0) ->
  NoDup (map fst l') ->
  (forall j g, In (j, g) l' -> In (j, g) (c_chain s) /\ t_gen t' = t_gen (th i s) \/ In (j, g) (c_chain s) /\ j <> i \/ j = i /\ g = t_gen t') ->
  (forall k, (k < length (c_ths s))%nat -> k <> i -> lk k l' = lk k (c_chain s) \/ lk k l' = false /\ t_fib (th k s) = true /\ t_sat (th k s) = true) ->
  (locked = true -> hflag (t_pc t') <> Some false) -> (pth = false -> isp (t_pc t') = false) ->
  ok t' (lk i l') (A i s) (B i s) (C i s) ->
  inv {| c_chain := l'; c_mx := mx'; c_ths := lset (c_ths s) i t' |}.
Proof.
  intros H L Hm T T' Hg Hn Hc Hk Hh Hp Hok.
  assert (Th : forall k, nth k (lset (c_ths s) i t') t0 = if (k =? i)%nat then t' else th k s).
  { intros k. destruct (Nat.eqb_spec k i) as [->|Ne]; [apply nth_lset_same; exact L|apply nth_lset_other; congruence]. }
  assert (Cn : forall f, f (t_pc (th i s)) = f (t_pc t') -> zc (fun t => f (t_pc t)) (lset (c_ths s) i t') = CN f s).
  { intros f E. rewrite (zc_lset _ _ i t' t0 L). fold (th i s). rewrite E. lia. }
  assert (Wr : forall k f, f = wr k \/ f = ww k \/ f = ws k -> f (t_pc (th i s)) = f (t_pc t')).
  { intros k f [->|[->| ->]]; destruct (t_pc (th i s)); try discriminate T; destruct (t_pc t'); try discriminate T'; reflexivity. }
  constructor; unfold th; cbn [c_chain c_mx c_ths]; rewrite ?lset_length.
  - rewrite (zc_lset _ _ i t' t0 L). fold (th i s). rewrite (v_mx s H). lia.
  - exact Hn.
  - intros j g I. rewrite Th. destruct (Hc j g I) as [(I1 & G)|[(I1 & Ne)|(-> & ->)]].
    + destruct (v_chain s H j g I1) as (Lj & Gj). split; [exact Lj|]. destruct (Nat.eqb_spec j i) as [->|]; congruence.
    + destruct (v_chain s H j g I1) as (Lj & Gj). split; [exact Lj|]. destruct (Nat.eqb_spec j i) as [->|]; congruence.
    + rewrite Nat.eqb_refl. split; [exact L|reflexivity].
  - intros a j g La. rewrite !Th. destruct (Nat.eqb_spec a i) as [->|Na]; [congruence|]. intros E. destruct (v_tgt s H a j g La E) as (Lj & Gj). split; [exact Lj|].
    destruct (Nat.eqb_spec j i) as [->|]; [|exact Gj]. destruct Hg as [Hg|(Z1 & Z2 & Z3)]; [congruence|]. exfalso.
    assert (K : forall f, f (t_pc (th a s)) = true -> 1 <= CN f s) by (intros f Ef; apply (zc_nth _ _ a t0 La); exact Ef).
    destruct (t_pc (th a s)) eqn:Ea; try discriminate; injection E as -> ->;
      [pose proof (K (wr i))|pose proof (K (ww i))|pose proof (K (ws i))]; cbn [wr ww ws] in *; rewrite Nat.eqb_refl in *; lia.
  - intros E a La. rewrite Th. destruct (Nat.eqb_spec a i) as [->|]; [auto|]. apply (v_lk s H E a La).
  - intros a La. rewrite Th. destruct (Nat.eqb_spec a i) as [->|]; [|apply (v_fx s H a La)]. destruct (t_pc t'); discriminate.
  - intros E a La. rewrite Th. destruct (Nat.eqb_spec a i) as [->|]; [auto|]. apply (v_pt s H E a La).
  - intros k Lk. rewrite Th. rewrite !Cn by (apply (Wr k); auto). destruct (Nat.eqb_spec k i) as [->|Ne]; [exact Hok|].
    pose proof (v_ok s H k Lk) as O. destruct (Hk k Lk Ne) as [E|(E1 & E2 & E3)]; [rewrite E; exact O|].
    rewrite E1. apply dropped_ok with (L := lk k (c_chain s)); assumption.
Qed.

(** A notifier and its target move. *)
Lemma move2 s i j ti' tj' l' mx' : inv s -> (i < length (c_ths s))%nat -> (j < length (c_ths s))%nat -> i <> j ->
  bz mx' = bz (c_mx s) - bz (owns (t_pc (th i s))) + bz (owns (t_pc ti')) - bz (owns (t_pc (th j s))) + bz (owns (t_pc tj')) ->
  (tgt (t_pc (th i s)) = None \/ exists g, tgt (t_pc (th i s)) = Some (j, g)) ->
  (tgt (t_pc ti') = None \/ tgt (t_pc ti') = Some (j, t_gen (th j s))) ->
  tgt (t_pc (th j s)) = None -> tgt (t_pc tj') = None ->
  t_gen ti' = t_gen (th i s) -> t_gen tj' = t_gen (th j s) ->
  NoDup (map fst l') -> (forall a g, In (a, g) l' -> In (a, g) (c_chain s)) ->
  (forall k, (k < length (c_ths s))%nat -> k <> j -> lk k l' = lk k (c_chain s) \/ lk k l' = false /\ t_fib (th k s) = true /\ t_sat (th k s) = true) ->
  (locked = true -> hflag (t_pc ti') <> Some false) -> (futex (t_pc ti') = true -> hflag (t_pc ti') = Some true) ->
  hflag (t_pc tj') = None -> (pth = false -> isp (t_pc ti') = false) -> (pth = false -> isp (t_pc tj') = false) ->
  ok ti' (lk i l') (A i s) (B i s) (C i s) ->
  ok tj' (lk j l') (A j s + bz (wr j (t_pc ti')) - bz (wr j (t_pc (th i s)))) (B j s + bz (ww j (t_pc ti')) - bz (ww j (t_pc (th i s))))
                   (C j s + bz (ws j (t_pc ti')) - bz (ws j (t_pc (th i s)))) ->
  inv {| c_chain := l'; c_mx := mx'; c_ths := lset (lset (c_ths s) j tj') i ti' |}.
Proof.
  intros H L Lj Ne Hm T T' Tj Tj' Hg Hgj Hn Hc Hk Hh Hf Hhj Hp Hpj Hok Hokj.
  assert (L1 : (i < length (lset (c_ths s) j tj'))%nat) by (rewrite lset_length; exact L).
  assert (Th : forall k, nth k (lset (lset (c_ths s) j tj') i ti') t0 = if (k =? i)%nat then ti' else if (k =? j)%nat then tj' else th k s).
  { intros k. destruct (Nat.eqb_spec k i) as [->|N1]; [apply nth_lset_same; exact L1|]. rewrite nth_lset_other by congruence.
    destruct (Nat.eqb_spec k j) as [->|N2]; [apply nth_lset_same; exact Lj|apply nth_lset_other; congruence]. }
  assert (Cn : forall f, zc (fun t => f (t_pc t)) (lset (lset (c_ths s) j tj') i ti') =
                         CN f s + bz (f (t_pc tj')) - bz (f (t_pc (th j s))) + bz (f (t_pc ti')) - bz (f (t_pc (th i s)))).
  { intros f. rewrite (zc_lset _ _ i ti' t0 L1), (zc_lset _ _ j tj' t0 Lj). rewrite nth_lset_other by congruence. fold (th i s). fold (th j s). lia. }
  assert (Wj : forall k f, f = wr k \/ f = ww k \/ f = ws k -> f (t_pc (th j s)) = false /\ f (t_pc tj') = false).
  { intros k f E. split.
    - destruct E as [->|[->| ->]]; destruct (t_pc (th j s)); try discriminate Tj; reflexivity.
    - destruct E as [->|[->| ->]]; destruct (t_pc tj'); try discriminate Tj'; reflexivity. }
  assert (Wi : forall k f, k <> j -> f = wr k \/ f = ww k \/ f = ws k -> f (t_pc (th i s)) = false /\ f (t_pc ti') = false).
  { intros k f Nk E. split.
    - destruct T as [T|(g & T)]; destruct E as [->|[->| ->]]; destruct (t_pc (th i s)); try discriminate T; try reflexivity;
        injection T as -> ->; cbn [wr ww ws]; apply Nat.eqb_neq; congruence.
    - destruct T' as [T'|T']; destruct E as [->|[->| ->]]; destruct (t_pc ti'); try discriminate T'; try reflexivity;
        injection T' as -> ->; cbn [wr ww ws]; apply Nat.eqb_neq; congruence. }
  constructor; unfold th; cbn [c_chain c_mx c_ths]; rewrite ?lset_length.
  - rewrite Cn, (v_mx s H). lia.
  - exact Hn.
  - intros a g I. rewrite Th. destruct (v_chain s H a g (Hc a g I)) as (La & Ga). split; [exact La|].
    destruct (Nat.eqb_spec a i) as [->|]; [congruence|]. destruct (Nat.eqb_spec a j) as [->|]; congruence.
  - intros a b g La. rewrite !Th. assert (K : forall t, tgt (t_pc t) = Some (b, g) -> (b < length (c_ths s))%nat /\ t_gen (th b s) = g ->
      (b < length (c_ths s))%nat /\ t_gen (if (b =? i)%nat then ti' else if (b =? j)%nat then tj' else th b s) = g).
    { intros t _ (Lb & Gb). split; [exact Lb|]. destruct (Nat.eqb_spec b i) as [->|]; [congruence|]. destruct (Nat.eqb_spec b j) as [->|]; congruence. }
    destruct (Nat.eqb_spec a i) as [->|Na].
    + intros E. apply (K ti' E). destruct T' as [T'|T']; rewrite E in T'; [discriminate|]. injection T' as -> ->. split; [exact Lj|reflexivity].
    + destruct (Nat.eqb_spec a j) as [->|Nj]; [congruence|]. intros E. apply (K _ E). apply (v_tgt s H a b g La E).
  - intros E a La. rewrite Th. destruct (Nat.eqb_spec a i) as [->|]; [auto|]. destruct (Nat.eqb_spec a j) as [->|]; [rewrite Hhj; discriminate|]. apply (v_lk s H E a La).
  - intros a La. rewrite Th. destruct (Nat.eqb_spec a i) as [->|]; [auto|]. destruct (Nat.eqb_spec a j) as [->|]; [|apply (v_fx s H a La)].
    destruct (t_pc tj'); try discriminate.
  - intros E a La. rewrite Th. destruct (Nat.eqb_spec a i) as [->|]; [auto|]. destruct (Nat.eqb_spec a j) as [->|]; [auto|]. apply (v_pt s H E a La).
  - intros k Lk. rewrite Th, !Cn.
    destruct (Wj k (wr k)) as (-> & ->); [auto|]. destruct (Wj k (ww k)) as (-> & ->); [auto|]. destruct (Wj k (ws k)) as (-> & ->); [auto|]. cbn [bz].
    rewrite !Z.add_0_r, !Z.sub_0_r.
    destruct (Nat.eqb_spec k j) as [->|Nj].
    { destruct (Nat.eqb_spec j i); [congruence|]. exact Hokj. }
    destruct (Wi k (wr k)) as (-> & ->); [auto..|]. destruct (Wi k (ww k)) as (-> & ->); [auto..|]. destruct (Wi k (ws k)) as (-> & ->); [auto..|]. cbn [bz].
    rewrite !Z.add_0_r, !Z.sub_0_r.
    destruct (Nat.eqb_spec k i) as [->|Ni]; [exact Hok|].
    pose proof (v_ok s H k Lk) as O. destruct (Hk k Lk Nj) as [E|(E1 & E2 & E3)]; [rewrite E; exact O|].
    rewrite E1. apply dropped_ok with (L := lk k (c_chain s)); assumption.
Qed.

(** WakeOne *)
Lemma ok_live t L a b c : ok t L a b c -> L = true -> in_wait (t_pc t) = true /\ owns (t_pc t) = (match t_pc t with FIn _ | PAdd _ | PGot _ => true | _ => false end).
Proof. intros (_ & O) ->. destruct (t_pc t); try reflexivity; intuition (congruence || reflexivity || auto). Qed.
Lemma chain_live s j g : inv s -> In (j, g) (c_chain s) -> live j g s = true.
Proof.
  intros H I. destruct (v_chain s H j g I) as (L & G). unfold live. rewrite G, Nat.eqb_refl. cbn.
  apply (ok_live _ _ _ _ _ (v_ok s H j L)). apply lk_in. eauto.
Qed.
Lemma wake_spec s l w r : (forall j g, In (j, g) l -> live j g s = true) -> wake_one l s = (w, r) ->
  match w with
  | WBad => False
  | WNone => r = [] /\ forall j g, In (j, g) l -> t_fib (th j s) = true /\ t_sat (th j s) = true
  | WOne j g => exists p, l = p ++ (j, g) :: r /\ (forall a b, In (a, b) p -> t_fib (th a s) = true /\ t_sat (th a s) = true) /\ (t_fib (th j s) = true -> t_sat (th j s) = false)
  end.
Proof.
  induction l as [|(j, g) l IH]; cbn [wake_one]; intros Hv E.
  - injection E as <- <-. split; [reflexivity|]. intros j g [].
  - rewrite (Hv j g (or_introl eq_refl)) in E. destruct (t_fib (th j s) && t_sat (th j s)) eqn:F.
    + apply Bool.andb_true_iff in F. specialize (IH (fun a b I => Hv a b (or_intror I)) E). destruct w as [| |a b]; [|exact IH|].
      * destruct IH as (-> & K). split; [reflexivity|]. intros a b [I|I]; [injection I as <- <-; exact F|exact (K a b I)].
      * destruct IH as (p & -> & K & Q). exists ((j, g) :: p). split; [reflexivity|]. split; [|exact Q]. intros c d [I|I]; [injection I as <- <-; exact F|exact (K c d I)].
    + injection E as <- <-. exists []. split; [reflexivity|]. split; [intros a b []|]. intros K. rewrite K in F. exact F.
Qed.
Lemma nodup_app (p q : list (nat * nat)) : NoDup (map fst (p ++ q)) -> NoDup (map fst q) /\ forall k, lk k p = true -> lk k q = false.
Proof.
  rewrite map_app. induction p as [|(a, b) p IH]; cbn [map app]; intros D; [split; [exact D|discriminate]|].
  inversion D as [|x l N D2]. subst. destruct (IH D2) as (D3 & K). split; [exact D3|]. intros k. cbn [lk existsb fst]. intros E. apply Bool.orb_true_iff in E.
  destruct E as [E|E]; [|exact (K k E)]. apply Nat.eqb_eq in E. subst. apply lk_out. intros I. apply N. apply in_or_app. auto.
Qed.

Lemma lset_twice {X} (l : list X) i (x y : X) : lset (lset l i x) i y = lset l i y.
Proof. revert i; induction l as [|z l IH]; intros [|i]; cbn; auto. rewrite IH. reflexivity. Qed.
Lemma lset_nth {X} (l : list X) i (d : X) : (i < length l)%nat -> lset l i (nth i l d) = l.
Proof. revert i; induction l as [|z l IH]; intros [|i]; cbn; intros L; try lia; auto. rewrite IH by lia. reflexivity. Qed.
Lemma upd_upd i f g s : (i < length (c_ths s))%nat -> upd i f (upd i g s) = upd i (fun t => f (g t)) s.
Proof. intros L. unfold upd, th. cbn [c_chain c_mx c_ths]. rewrite nth_lset_same, lset_twice by exact L. reflexivity. Qed.

Lemma lk_filter i s : inv s -> lk i (filter (fun p => negb (mine i (t_gen (th i s)) p)) (c_chain s)) = false /\
  forall k, k <> i -> lk k (filter (fun p => negb (mine i (t_gen (th i s)) p)) (c_chain s)) = lk k (c_chain s).
Proof.
  intros H. split.
  - destruct (lk i _) eqn:E; [|reflexivity]. apply lk_in in E. destruct E as (g & I). apply filter_In in I. destruct I as (I & M).
    destruct (v_chain s H i g I) as (_ & G). unfold mine in M. cbn in M. rewrite G, !Nat.eqb_refl in M. discriminate.
  - intros k Ne. unfold lk. induction (c_chain s) as [|(a, b) l IH]; [reflexivity|]. cbn [filter existsb fst].
    destruct (negb (mine i (t_gen (th i s)) (a, b))) eqn:M; cbn [existsb fst]; rewrite IH; [reflexivity|].
    unfold mine in M. cbn in M. destruct (Nat.eqb_spec a i) as [->|]; [|discriminate]. destruct (Nat.eqb_spec i k); [congruence|reflexivity].
Qed.
Lemma nodup_filter (f : nat * nat -> bool) l : NoDup (map fst l) -> NoDup (map fst (filter f l)).
Proof.
  induction l as [|(a, b) l IH]; cbn [map filter]; intros D; [exact D|]. inversion D as [|x m N D2]. subst. destruct (f (a, b)); [|auto]. cbn [map fst]. constructor; [|auto].
  intros I. apply N. apply in_map_iff in I. destruct I as ((c, d) & E & I). cbn in E. subst. apply filter_In in I. destruct I as (I & _). apply (in_map fst) in I. exact I.
Qed.
Lemma linked_lk i s : inv s -> linked i s = lk i (c_chain s).
Proof.
  intros H. apply Bool.eq_iff_eq_true. unfold linked. rewrite existsb_exists, lk_in. split.
  - intros ((a, b) & I & M). unfold mine in M. cbn in M. apply Bool.andb_true_iff in M. destruct M as (M1 & M2). apply Nat.eqb_eq in M1. subst. eauto.
  - intros (g & I). exists (i, g). split; [exact I|]. destruct (v_chain s H i g I) as (_ & G). unfold mine. cbn. rewrite G, !Nat.eqb_refl. reflexivity.
Qed.

Ltac one A := 
  match type of A with at_pc ?i _ ?s =>
    let L := fresh "L" in let E := fresh "E" in pose proof A as (L & E);
    lazymatch goal with H : inv s |- _ =>
      let O := fresh "O" in pose proof (v_ok s H i L) as O;
      assert (Fo : owns (t_pc (th i s)) = true -> 1 <= CN owns s) by exact (zc_nth (fun t => owns (t_pc t)) _ i t0 L); pose proof (v_mx s H) as Mx;
      pose proof (v_lk s H) as Hlk; pose proof (v_pt s H) as Hpt; specialize (fun e => Hlk e i L); specialize (fun e => Hpt e i L); rewrite E in Fo, Hlk, Hpt;
      unfold go; rewrite ?upd_upd by exact L;
      refine (move1 s i _ _ _ H L _ _ _ _ _ _ _ _ _ _); cbn [set_mx set_chain remove add upd c_mx c_chain c_ths set_pc set_sat set_tm set_val set_st set_ret block t_pc t_gen t_fib t_sat t_val t_st t_tm t_ret owns tgt hflag isp];
      rewrite ?E; cbn [owns tgt hflag isp bz back next];
      repeat match goal with |- context [th i ?u] => lazymatch u with s => fail | _ => change (th i u) with (th i s) end end;
      unfold ok, fpart in *; cbn [set_mx set_chain remove add upd c_mx c_chain c_ths set_pc set_sat set_tm set_val set_st set_ret block t_pc t_gen t_fib t_sat t_val t_st t_tm t_ret] in *; rewrite ?E in *; cbn [flag] in *;
      try apply (v_nodup s H); try exact (or_introl eq_refl); try reflexivity; try discriminate; try (intros; left; split; [assumption|reflexivity]); try (intros; left; reflexivity); auto;
      repeat match goal with K : c_mx _ = _ |- _ => rewrite K in *; clear K end; cbn [bz] in *; try (clear - Fo Mx; lia);
      try (specialize (Fo eq_refl); clear - Fo Mx; destruct (c_mx s); cbn [bz] in *; lia);
      clear Fo Mx Hlk Hpt; try clear Hl; repeat match goal with f : bool |- _ => lazymatch goal with K : (if f then TSet else TNone) <> TRes |- _ => fail | _ => pose proof (tm_f f) end end; try (intuition (congruence || lia))
    end
  end.
Lemma add_upd i c f s : (i < length (c_ths s))%nat -> go i c (add i (upd i f s)) =
  {| c_chain := c_chain s ++ [(i, t_gen (f (th i s)))]; c_mx := c_mx s; c_ths := lset (c_ths s) i (set_pc c (f (th i s))) |}.
Proof. intros L. unfold go, add, upd, set_chain, th. cbn [c_chain c_mx c_ths]. rewrite !nth_lset_same, lset_twice by exact L. reflexivity. Qed.
Lemma add_facts s i g : inv s -> lk i (c_chain s) = false ->
  NoDup (map fst (c_chain s ++ [(i, g)])) /\ lk i (c_chain s ++ [(i, g)]) = true /\ (forall k, k <> i -> lk k (c_chain s ++ [(i, g)]) = lk k (c_chain s)) /\
  forall j h, In (j, h) (c_chain s ++ [(i, g)]) -> In (j, h) (c_chain s) /\ j <> i \/ j = i /\ h = g.
Proof.
  intros H F. apply lk_out in F. split; [|split; [|split]].
  - rewrite map_app. pose proof (v_nodup s H) as D. revert F D. generalize (map fst (c_chain s)). intros l F D. cbn [map fst].
    induction l as [|x l IH]; cbn; [constructor; [intros []|constructor]|]. inversion D. subst. constructor; [|apply IH; [intros I; apply F; right; exact I|assumption]].
    intros I. apply in_app_or in I. destruct I as [I|[<-|[]]]; [contradiction|]. apply F. left. reflexivity.
  - rewrite lk_app. apply Bool.orb_true_iff. right. cbn. rewrite Nat.eqb_refl. reflexivity.
  - intros k Ne. rewrite lk_app. cbn [lk existsb fst]. destruct (Nat.eqb_spec i k); [congruence|]. rewrite !Bool.orb_false_r. reflexivity.
  - intros j h I. apply in_app_or in I. destruct I as [I|[E|[]]]; [|injection E as <- <-; right; split; reflexivity].
    left. split; [exact I|]. intros ->. apply F. apply (in_map fst) in I. exact I.
Qed.

Lemma go_upd i j c f l s : i <> j -> go i c (set_chain l (upd j f s)) =
  {| c_chain := l; c_mx := c_mx s; c_ths := lset (lset (c_ths s) j (f (th j s))) i (set_pc c (th i s)) |}.
Proof. intros Ne. unfold go, upd, set_chain, th. cbn [c_chain c_mx c_ths]. rewrite nth_lset_other by congruence. reflexivity. Qed.
Lemma go_same i j c l s : i <> j -> (j < length (c_ths s))%nat -> go i c (set_chain l s) =
  {| c_chain := l; c_mx := c_mx s; c_ths := lset (lset (c_ths s) j (th j s)) i (set_pc c (th i s)) |}.
Proof. intros Ne L. unfold go, upd, set_chain, th. cbn [c_chain c_mx c_ths]. rewrite lset_nth by exact L. reflexivity. Qed.
Lemma set_same s : set_chain (c_chain s) s = s.
Proof. destruct s. reflexivity. Qed.
Lemma tgt_next h a : tgt (next h a) = None /\ owns (next h a) = h /\ isp (next h a) = false /\ futex (next h a) = false /\ (hflag (next h a) = Some h \/ hflag (next h a) = None) /\
  wr = wr /\ forall k, wr k (next h a) = false /\ ww k (next h a) = false /\ ws k (next h a) = false.
Proof. destruct h, a; cbn; repeat split; auto. Qed.
Lemma next_ok h a t L x y z : ok t L x y z -> tgt (t_pc t) <> None -> t_pc t <> Crash -> ok (set_pc (next h a) t) L x y z.
Proof.
  intros (O1 & O2) T Nc. destruct (t_pc t) eqn:E; cbn in T; try congruence; unfold ok; cbn [set_pc t_pc t_tm]; (destruct h, a; cbn [next back flag]; split; first [exact O1|exact O2]).
Qed.
Ltac okt := unfold ok, fpart; cbn [set_pc set_sat set_val set_tm t_pc t_gen t_fib t_sat t_val t_st t_tm t_ret flag].
Lemma ok_taken_f t a b c : ok t true a b c -> t_fib t = true -> t_sat t = false ->
  (exists f, t_pc t = FIn f \/ t_pc t = FUn f \/ t_pc t = FSusp f) /\ ok (set_sat t) false (a + 1) b c.
Proof.
  okt. intros (O1 & O) F S. rewrite F, S in O. rewrite F.
  destruct (t_pc t) eqn:E; try (exfalso; intuition congruence); (split; [eexists; auto|split; [exact O1|]]); match goal with f : bool |- _ => pose proof (tm_f f) end; intuition (congruence || lia).
Qed.
Lemma ok_taken_p t a b c : ok t true a b c -> t_fib t = false -> isp (t_pc t) = true /\ (owns (t_pc t) = false -> ok t false a (b + 1) c).
Proof.
  okt. intros (O1 & O) F. rewrite F in O. rewrite ?F.
  destruct (t_pc t) eqn:E; try (exfalso; intuition congruence); (split; [reflexivity|]); cbn [owns]; intros W; try discriminate W; (split; [exact O1|]); intuition (congruence || lia).
Qed.
Lemma ok_resumed t f L a b c : ok t L a b c -> t_pc t = FSusp f -> 1 <= a -> ok (set_pc (FRun f) t) L (a - 1) b c.
Proof. okt. intros (O1 & O) E. rewrite E in *. cbn [flag] in *. intuition (congruence || lia). Qed.
Lemma ok_res t L a b c : ok t L a b c -> 1 <= a -> exists f, t_pc t = FIn f \/ t_pc t = FUn f \/ t_pc t = FSusp f.
Proof. okt. intros (O1 & O) A1. destruct (t_pc t); try (exfalso; intuition lia); eexists; auto. Qed.
Lemma ok_wake t L a b c : ok t L a b c -> 1 <= b -> b + c <= 1 ->
  in_wait (t_pc t) = true /\ owns (t_pc t) = false /\ isp (t_pc t) = true /\ ok (set_val (t_val t + 2) t) L a (b - 1) (c + 1).
Proof.
  okt. intros (O1 & O) B1 Bc. destruct (t_pc t) eqn:E; try (exfalso; intuition lia); (split; [reflexivity|split; [reflexivity|split; [reflexivity|split; [exact O1|]]]]); intuition (congruence || lia).
Qed.
Lemma ok_sys t L a b c f : ok t L a b c -> t_pc t = PWait f -> 1 <= c -> ok (set_pc (PRet f true) t) L a b (c - 1).
Proof. okt. intros (O1 & O) E. rewrite E in *. cbn [flag] in *. intuition (congruence || lia). Qed.
Lemma ok_sys0 t L a b c : ok t L a b c -> 1 <= c -> b + c <= 1 -> (forall f, t_pc t <> PWait f) -> 0 <= b -> tgt (t_pc t) = None /\ hflag (t_pc t) = None /\ ok t L a b (c - 1).
Proof.
  okt. intros (O1 & O) C1 Bc N B0. destruct (t_pc t) eqn:E; try (exfalso; intuition lia); try (elim (N _ eq_refl)); (split; [reflexivity|split; [reflexivity|split; [exact O1|]]]); intuition (congruence || lia).
Qed.
Ltac two s i j H Li Lj Ne Ei :=
  refine (move2 s i j _ _ _ _ H Li Lj Ne _ _ _ _ _ _ _ _ _ _ _ _ _ _ _ _ _);
  cbn [set_pc set_sat set_tm set_val set_st set_ret t_pc t_gen t_fib t_sat t_val t_st t_tm t_ret]; rewrite ?Ei; cbn [owns tgt hflag isp futex wr ww ws bz]; rewrite ?Nat.eqb_refl;
  try reflexivity; try discriminate; try (clear; lia); try assumption; auto.

Lemma one_inv s i h a j g r : inv s -> at_pc i (NGo h a) s -> wake_one (c_chain s) s = (WOne j g, r) ->
  inv (go i (if t_fib (th j s) then NRes h a j g else NWake h a j g) (taken j r s)).
Proof.
  intros H H0 H1.
  destruct (wake_spec s _ _ _ (fun j g => chain_live s j g H) H1) as (p & Ep & K & Q).
      assert (Ij : In (j, g) (c_chain s)) by (rewrite Ep; apply in_or_app; right; left; reflexivity).
      destruct (v_chain s H j g Ij) as (Lj & Gj). pose proof H0 as (Li & Ei).
      assert (Lkj : lk j (c_chain s) = true) by (apply lk_in; eauto). pose proof (v_ok s H j Lj) as Oj. pose proof (v_ok s H i Li) as Oi. rewrite Lkj in Oj.
      assert (Ne : i <> j) by (intros ->; destruct Oj as (_ & Oj); rewrite Ei in Oj; intuition congruence).
      pose proof (v_nodup s H) as D. rewrite Ep in D. destruct (nodup_app _ _ D) as (D2 & Dp). cbn [map fst] in D2. inversion D2 as [|x m N1 D3]. subst.
      assert (Rj : lk j r = false) by (apply lk_out; exact N1).
      assert (Rk : forall k, k <> j -> lk k r = lk k (c_chain s) \/ lk k r = false /\ t_fib (th k s) = true /\ t_sat (th k s) = true).
      { intros k Nk. rewrite Ep, lk_app. change ((j, t_gen (th j s)) :: r) with ([(j, t_gen (th j s))] ++ r). rewrite lk_app. cbn [lk existsb fst].
        destruct (Nat.eqb_spec j k) as [e|]; [elim Nk; symmetry; exact e|]. cbn [orb]. fold (lk k p). destruct (lk k p) eqn:Ek; [|auto]. right. pose proof (Dp k Ek) as Dk.
        change ((j, t_gen (th j s)) :: r) with ([(j, t_gen (th j s))] ++ r) in Dk. rewrite lk_app in Dk. apply Bool.orb_false_iff in Dk. split; [apply Dk|].
        apply lk_in in Ek. destruct Ek as (g & I). exact (K k g I). }
      assert (Ri : lk i r = lk i (c_chain s)).
      { destruct (Rk i Ne) as [E|(E & _)]; [exact E|]. rewrite E. symmetry. destruct Oi as (_ & Oi). rewrite Ei in Oi. apply Oi. }
      assert (Ow : isp (t_pc (th j s)) = true -> h = true /\ owns (t_pc (th j s)) = false).
      { intros P. assert (Lc : locked = true) by (destruct pth eqn:Ept; [auto|]; rewrite (v_pt s H Ept j Lj) in P; discriminate).
        pose proof (v_lk s H Lc i Li) as Hh. rewrite Ei in Hh. cbn in Hh. destruct h; [|congruence]. split; [reflexivity|].
        destruct (owns (t_pc (th j s))) eqn:O; [|reflexivity]. exfalso. pose proof (v_mx s H) as M. unfold zc in M.
        pose proof (cnt_two (fun t => owns (t_pc t)) (c_ths s) i j t0 Li Lj Ne) as C2. fold (th i s) in C2. fold (th j s) in C2. cbv beta in C2. rewrite Ei, O in C2. specialize (C2 eq_refl eq_refl).
        clear - M C2. destruct (c_mx s); cbn [bz] in M; lia. }
      unfold taken. destruct (t_fib (th j s)) eqn:Ef.
      + specialize (Q eq_refl). rewrite go_upd by exact Ne. destruct (ok_taken_f _ _ _ _ Oj Ef Q) as (Pj & Oj2).
        pose proof (v_lk s H) as Hh. specialize (fun e => Hh e i Li). rewrite Ei in Hh.
        two s i j H Li Lj Ne Ei.
        * destruct Pj as (f & [E|[E|E]]); rewrite E; reflexivity.
        * destruct Pj as (f & [E|[E|E]]); rewrite E; reflexivity.
        * intros x y I. rewrite Ep. apply in_or_app. right. right. exact I.
        * destruct Pj as (f & [E|[E|E]]); rewrite E; reflexivity.
        * exact (fun e => v_pt s H e j Lj).
        * rewrite Ri. unfold ok in *. cbn [t_tm t_pc flag]. rewrite Ei in Oi. exact Oi.
        * rewrite Rj. cbn [bz]. rewrite !Z.add_0_r, !Z.sub_0_r. exact Oj2.
      + rewrite (go_same i j) by assumption. destruct (ok_taken_p _ _ _ _ Oj Ef) as (Pj & Oj2).
        destruct (Ow Pj) as (-> & Oj3). specialize (Oj2 Oj3).
        two s i j H Li Lj Ne Ei.
        * destruct (t_pc (th j s)); try discriminate; reflexivity.
        * destruct (t_pc (th j s)); try discriminate; reflexivity.
        * intros x y I. rewrite Ep. apply in_or_app. right. right. exact I.
        * destruct (t_pc (th j s)); try discriminate; reflexivity.
        * exact (fun e => v_pt s H e j Lj).
        * rewrite Ri. unfold ok in *. cbn [t_tm t_pc flag]. rewrite Ei in Oi. exact Oi.
        * rewrite Rj. cbn [bz]. rewrite !Z.add_0_r, !Z.sub_0_r. exact Oj2.
Qed.

(** The notifier has done with thread j. *)
Lemma done2 s i j h a g tj' : inv s -> (i < length (c_ths s))%nat -> (j < length (c_ths s))%nat -> i <> j ->
  tgt (t_pc (th i s)) = Some (j, g) -> hflag (t_pc (th i s)) = Some h ->
  owns (t_pc tj') = owns (t_pc (th j s)) -> tgt (t_pc (th j s)) = None -> tgt (t_pc tj') = None -> t_gen tj' = t_gen (th j s) -> hflag (t_pc tj') = None ->
  (pth = false -> isp (t_pc tj') = false) ->
  ok tj' (lk j (c_chain s)) (A j s - bz (wr j (t_pc (th i s)))) (B j s - bz (ww j (t_pc (th i s)))) (C j s - bz (ws j (t_pc (th i s)))) ->
  inv {| c_chain := c_chain s; c_mx := c_mx s; c_ths := lset (lset (c_ths s) j tj') i (set_pc (next h a) (th i s)) |}.
Proof.
  intros H Li Lj Ne T Hf Ow Tj Tj' Gj Hj Pj Oj. destruct (tgt_next h a) as (N1 & N2 & N3 & N4 & N5 & _ & N6). destruct (N6 j) as (N7 & N8 & N9).
  assert (Oi : owns (t_pc (th i s)) = h) by (destruct (t_pc (th i s)); try discriminate; injection Hf as ->; reflexivity).
  refine (move2 s i j _ _ _ _ H Li Lj Ne _ _ _ _ _ _ _ _ _ _ _ _ _ _ _ _ _); cbn [set_pc t_pc t_gen]; rewrite ?N1, ?N3, ?N4, ?N7, ?N8, ?N9; cbn [bz]; rewrite ?Z.add_0_r; auto; try discriminate.
  - rewrite N2, Oi, Ow. clear. lia.
  - right. eauto.
  - exact (v_nodup s H).
  - intros Hl'. pose proof (v_lk s H Hl' i Li) as K. rewrite Hf in K. destruct N5 as [-> | ->]; [exact K|discriminate].
  - apply next_ok; [exact (v_ok s H i Li)|congruence|intros E; rewrite E in T; discriminate].
Qed.
Lemma resume_inv s i h a j g t : inv s -> at_pc i (NRes h a j g) s -> at_pc j (FSusp t) s -> inv (go i (next h a) (go j (FRun t) s)).
Proof.
  intros H (Li & Ei) (Lj & Ej). assert (Ne : i <> j) by (intros ->; congruence). rewrite <- (set_same (go j (FRun t) s)). unfold go at 2. change (c_chain (go j (FRun t) s)) with (c_chain s).
  unfold go at 2. rewrite go_upd by exact Ne. pose proof (zc_nth (fun t => wr j (t_pc t)) _ i t0 Li) as A1. fold (th i s) in A1. cbv beta in A1. rewrite Ei in A1. cbn [wr] in A1. specialize (A1 (Nat.eqb_refl j)).
  apply (done2 s i j h a g); auto; rewrite ?Ei, ?Ej; cbn [set_pc t_pc t_gen owns tgt hflag isp wr ww ws bz]; rewrite ?Nat.eqb_refl; cbn [bz]; rewrite ?Z.sub_0_r; auto.
  apply ok_resumed; [exact (v_ok s H j Lj)|exact Ej|exact A1].
Qed.
Lemma fx_hold s i : inv s -> (i < length (c_ths s))%nat -> futex (t_pc (th i s)) = true -> c_mx s = true.
Proof.
  intros H Li F. pose proof (v_fx s H i Li F) as Hf. pose proof (zc_nth (fun t => owns (t_pc t)) _ i t0 Li) as K. fold (th i s) in K. cbv beta in K. rewrite (v_mx s H) in K.
  destruct (c_mx s); [reflexivity|]. cbn [bz] in K. exfalso. destruct (t_pc (th i s)); try discriminate; injection Hf as ->; specialize (K eq_refl); lia.
Qed.
Lemma wake_facts s i h a j g : inv s -> at_pc i (NWake h a j g) s ->
  live j g s = true /\ inv (go i (NSys h a j g) (upd j (set_val (t_val (th j s) + 2)) s)).
Proof.
  intros H (Li & Ei). pose proof (v_tgt s H i j g Li) as T. rewrite Ei in T. destruct (T eq_refl) as (Lj & Gj). clear T.
  pose proof (zc_nth (fun t => ww j (t_pc t)) _ i t0 Li) as B1. fold (th i s) in B1. cbv beta in B1. rewrite Ei in B1. cbn [ww] in B1. specialize (B1 (Nat.eqb_refl j)).
  pose proof (futex_owns j s H) as Fx. assert (Bc : B j s + C j s <= 1) by (destruct (c_mx s); cbn [bz] in Fx; lia). clear Fx.
  destruct (ok_wake _ _ _ _ _ (v_ok s H j Lj) B1 Bc) as (W1 & W2 & W3 & W4).
  assert (Ne : i <> j) by (intros ->; rewrite Ei in W1; discriminate).
  split; [unfold live; rewrite Gj, W1, Nat.eqb_refl; reflexivity|].
  rewrite <- (set_same (upd j _ s)). change (c_chain (upd j (set_val (t_val (th j s) + 2)) s)) with (c_chain s). rewrite go_upd by exact Ne.
  pose proof (v_lk s H) as Hh. specialize (fun e => Hh e i Li). pose proof (v_fx s H i Li) as Hx. rewrite Ei in Hh, Hx.
  refine (move2 s i j _ _ _ _ H Li Lj Ne _ _ _ _ _ _ _ _ _ _ _ _ _ _ _ _ _); cbn [set_pc set_val t_pc t_gen]; rewrite ?Ei; cbn [owns tgt hflag isp futex wr ww ws bz]; rewrite ?Nat.eqb_refl; cbn [bz]; rewrite ?Z.add_0_r, ?Z.sub_0_r; auto.
  - clear. lia.
  - right. eauto.
  - right. rewrite Gj. reflexivity.
  - destruct (t_pc (th j s)); try discriminate; reflexivity.
  - destruct (t_pc (th j s)); try discriminate; reflexivity.
  - exact (v_nodup s H).
  - destruct (t_pc (th j s)); try discriminate; reflexivity.
  - exact (fun e => v_pt s H e j Lj).
  - pose proof (v_ok s H i Li) as Oi. unfold ok in *. cbn [set_pc t_tm t_pc flag]. rewrite Ei in Oi. exact Oi.
Qed.
Lemma sys_facts s i h a j g : inv s -> at_pc i (NSys h a j g) s ->
  (forall t, at_pc j (PWait t) s -> t_val (th j s) <> t_st (th j s) /\ inv (go i (next h a) (go j (PRet t true) s))) /\
  (t_gen (th j s) <> g \/ (forall t, t_pc (th j s) <> PWait t) -> inv (go i (next h a) s)).
Proof.
  intros H (Li & Ei). pose proof (v_tgt s H i j g Li) as T. rewrite Ei in T. destruct (T eq_refl) as (Lj & Gj). clear T.
  pose proof (zc_nth (fun t => ws j (t_pc t)) _ i t0 Li) as C1. fold (th i s) in C1. cbv beta in C1. rewrite Ei in C1. cbn [ws] in C1. specialize (C1 (Nat.eqb_refl j)).
  pose proof (futex_owns j s H) as Fx. assert (Bc : B j s + C j s <= 1) by (destruct (c_mx s); cbn [bz] in Fx; lia). clear Fx.
  pose proof (v_fx s H i Li) as Hx. rewrite Ei in Hx. specialize (Hx eq_refl). cbn [hflag] in Hx. pose proof (zc_pos (fun t => ww j (t_pc t)) (c_ths s)) as B0.
  split.
  - intros t (_ & Ej). assert (Ne : i <> j) by (intros ->; congruence).
    split; [pose proof (v_ok s H j Lj) as (_ & O); rewrite Ej in O; clear - O C1; intuition lia|]. rewrite <- (set_same (go j _ s)). unfold go at 2. change (c_chain (go j (PRet t true) s)) with (c_chain s).
    unfold go at 2. rewrite go_upd by exact Ne.
    apply (done2 s i j h a g); auto; rewrite ?Ei, ?Ej; cbn [set_pc t_pc t_gen owns tgt hflag isp wr ww ws bz]; rewrite ?Nat.eqb_refl; cbn [bz]; rewrite ?Z.sub_0_r; auto.
    + intros e. pose proof (v_pt s H e j Lj) as P. rewrite Ej in P. discriminate.
    + apply ok_sys; [exact (v_ok s H j Lj)|exact Ej|exact C1].
  - intros N. assert (Nw : forall t, t_pc (th j s) <> PWait t) by (destruct N; [contradiction|assumption]). clear N.
    destruct (ok_sys0 _ _ _ _ _ (v_ok s H j Lj) C1 Bc Nw B0) as (T & Hf & O).
    assert (Ne : i <> j) by (intros ->; rewrite Ei in T; discriminate).
    rewrite <- (set_same s) at 1. rewrite (go_same i j) by assumption.
    apply (done2 s i j h a g); auto; rewrite ?Ei; cbn [tgt hflag wr ww ws bz]; rewrite ?Nat.eqb_refl; cbn [bz]; rewrite ?Z.sub_0_r; auto.
    exact (fun e => v_pt s H e j Lj).
Qed.

Lemma res_facts s i h a j g : inv s -> at_pc i (NRes h a j g) s -> live j g s = true /\ exists t, t_pc (th j s) = FIn t \/ t_pc (th j s) = FUn t \/ t_pc (th j s) = FSusp t.
Proof.
  intros H (Li & Ei). pose proof (v_tgt s H i j g Li) as T. rewrite Ei in T. destruct (T eq_refl) as (Lj & Gj). clear T.
  pose proof (zc_nth (fun t => wr j (t_pc t)) _ i t0 Li) as A1. fold (th i s) in A1. cbv beta in A1. rewrite Ei in A1. cbn [wr] in A1. specialize (A1 (Nat.eqb_refl j)).
  pose proof (ok_res _ _ _ _ _ (v_ok s H j Lj) A1) as (f & F). split; [|exists f; exact F]. unfold live. rewrite Gj, Nat.eqb_refl.
  destruct F as [E|[E|E]]; rewrite E; reflexivity.
Qed.
Lemma wait_inv s i fib m c : inv s -> at_pc i Hold s -> (owns c = true /\ tgt c = None /\ hflag c = None) -> (pth = false -> isp c = false) ->
  (forall t, t_fib t = fib -> t_tm t = m -> t_pc t = c -> t_sat t = false -> t_val t = 0 -> ok t true 0 0 0) ->
  inv (go i c (add i (upd i (block fib m) s))).
Proof.
  intros H (L & E) (C1 & C2 & C3) P K. rewrite add_upd by exact L.
  pose proof (v_ok s H i L) as O. unfold ok in O. rewrite E in O. destruct O as (_ & Oa & Ob & Oc & _ & Ol).
  destruct (add_facts s i (t_gen (block fib m (th i s))) H Ol) as (F1 & F2 & F3 & F4).
  apply (move1 s i _ _ _ H L); cbn [set_pc t_pc t_gen block]; rewrite ?E, ?C1, ?C2, ?C3; auto; try discriminate.
  - cbn. lia.
  - cbn [block t_gen] in F2. rewrite F2, Oa, Ob, Oc. apply K; reflexivity.
Qed.
Lemma step_inv s s' : inv s -> step pth locked s s' -> inv s'.
Proof.
  intros H St. destruct St as [i s s' T| | | | | | ].
  { destruct T.
    all: try match goal with A : at_pc _ (NRes _ _ _ _) _ |- _ => fail 1 | A : at_pc _ (NWake _ _ _ _) _ |- _ => fail 1 | A : at_pc _ (NSys _ _ _ _) _ |- _ => fail 1
                        | A : at_pc _ (NGo _ _) _ |- _ => fail 1 | A : at_pc _ (FRun _) _ |- _ => fail 1 | A : at_pc _ (PRet _ _) _ |- _ => fail 1 | A : at_pc _ (PLock _ _) _ |- _ => fail 1
                        | A : at_pc _ ?c _ |- _ => is_var c; fail 1 | A : at_pc _ _ _ |- _ => solve [one A] end.
    - (* f_remove *) destruct (lk_filter i s H) as (F1 & F2). rewrite (linked_lk i s H). one H0.
      + apply nodup_filter, H.
      + intros j g I. apply filter_In in I. destruct I as (I & _). auto.
    - (* m_late *) destruct c; try discriminate; one H0.
    - (* m_fire *) destruct c; try discriminate; one H0.
    - (* m_dead *) exfalso. destruct H0 as (L & E). destruct (v_ok s H i L) as (O & _). specialize (O H1). rewrite E in O. destruct c; discriminate.
    - (* m_bad *) exfalso. destruct H1 as (L & E). destruct (v_ok s H i L) as (_ & O). rewrite E in O. destruct (H2 true) as (N1 & N2 & N3), (H2 false) as (N4 & N5 & N6).
      destruct c as [| |[]|[]|[]| | | | | | | | | | | | | |]; intuition congruence.
    - (* p_remove *) destruct (lk_filter i s H) as (F1 & F2). one H0.
      + apply nodup_filter, H.
      + intros j g I. apply filter_In in I. destruct I as (I & _). auto.
    - (* p_lock *) pose proof (futex_owns i s H) as Fx. rewrite H1 in Fx. pose proof (zc_pos (fun t => ww i (t_pc t)) (c_ths s)). pose proof (zc_pos (fun t => ws i (t_pc t)) (c_ths s)). cbn [bz] in Fx. one H0.
    - (* n_none *) destruct (wake_spec s _ _ _ (fun j g => chain_live s j g H) H1) as (-> & K).
assert (Kk : forall k, lk k [] = lk k (c_chain s) \/ lk k [] = false /\ t_fib (th k s) = true /\ t_sat (th k s) = true).
      { intros k. destruct (lk k (c_chain s)) eqn:Ek; [|auto]. right. apply lk_in in Ek. destruct Ek as (g & I). split; [reflexivity|exact (K k g I)]. }
      assert (Kn : forall j g : nat, In (j, g) [] -> In (j, g) (c_chain s)) by (intros j g []).
      destruct h; one H0.
    - (* n_bad *) elim (wake_spec s _ _ _ (fun j g => chain_live s j g H) H1).
    - exact (one_inv s i h a j g r H H0 H1).
    - exact (resume_inv s i h a j g t H H0 H2).
    - exfalso. destruct (res_facts s i h a j g H H0) as (Lv & t & F). destruct H1 as [H1|H1]; [congruence|]. destruct (H1 t) as (N1 & N2 & N3). tauto.
    - exact (proj2 (wake_facts s i h a j g H H0)).
    - exfalso. destruct (wake_facts s i h a j g H H0) as (Lv & _). congruence.
    - destruct (proj1 (sys_facts s i h a j g H H0) t H2) as (Nv & K). apply Z.eqb_neq in Nv. rewrite Nv. exact K.
    - exact (proj2 (sys_facts s i h a j g H H0) H1). }
  - one H0.
  - one H0.
  - apply wait_inv; auto. intros u F M E S V. unfold ok, fpart. rewrite E, F, M, S. destruct t; cbn; intuition congruence.
  - apply wait_inv; auto; [intros e; congruence|]. intros u F M E S V. unfold ok. rewrite E, F, M, V. intuition congruence.
  - one H0.
  - destruct h; one H1.
Qed.
End Inv.
