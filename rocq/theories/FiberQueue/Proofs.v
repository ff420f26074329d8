(** Proofs about the blocking queue: the invariants. *)
From Coq Require Import Lia.
From Verif.Lib Require Import Base ListX Count.
From Verif.FiberQueue Require Import Model Spec.
Local Open Scope Z_scope.

Definition hold (c : pc) : bool := match c with UIn _ _ | UGo _ _ | UPut _ | OIn _ | OGo _ | OTake => true | _ => false end.
Definition otk (c : pc) : bool := match c with OTake => true | _ => false end.
Definition cr (c : pc) : bool := match c with Crash => true | _ => false end.
Definition ogo (c : pc) : bool := match c with OGo _ => true | _ => false end.
Definition osl (c : pc) : bool := match c with OSleep _ => true | _ => false end.
Definition unot (c : pc) : bool := match c with UNot => true | _ => false end.
Definition ow (c : pc) : bool := match c with OWant _ | OIn _ | OTake => true | _ => false end.
Definition ugo (c : pc) : bool := match c with UGo _ _ => true | _ => false end.
Definition usl (c : pc) : bool := match c with USleep _ _ => true | _ => false end.
Definition onot (c : pc) : bool := match c with ONot => true | _ => false end.
Definition uw (c : pc) : bool := match c with UWant _ _ | UIn _ _ | UPut _ => true | _ => false end.
Definition hoth (c : pc) : bool := match c with UIn _ _ | UPut _ | OIn _ => true | _ => false end.
Notation N f s := (zc f (q_pcs s)).
Notation len l := (Z.of_nat (length l)).

Lemma parts l : zc hoth l + zc ugo l + zc ogo l + zc otk l = zc hold l /\ zc otk l <= zc ow l.
Proof. unfold zc. induction l as [|[] l IH]; cbn [cnt hoth ugo ogo otk hold ow b2n]; lia. Qed.
Lemma bz_le b : 0 <= bz b <= 1.
Proof. destruct b; cbn; lia. Qed.
Lemma total_app szf a b : total szf (a ++ b) = total szf a + total szf b.
Proof. induction a as [|x a IH]; cbn [total app]; lia. Qed.
Lemma total_pos szf l : (forall x, 0 <= szf x) -> 0 <= total szf l.
Proof. intros H. induction l as [|x l IH]; cbn [total]; [lia|]. specialize (H x). lia. Qed.

Ltac simp := cbn [go set_mx set_stop set_cap put take q_items q_size q_cap q_stop q_mx q_pcs q_in q_out] in *.
Ltac zl := xlia zchecker.

Section Inv.
Variables (szf : nat -> Z) (stops resizes : bool) (top : Z).
Hypothesis Hs : sane szf top.
Notation step := (step szf stops resizes top).

Record inv (s : bq) : Prop := {
  b_mx : N hold s = bz (q_mx s);
  b_fifo : q_in s = q_out s ++ q_items s;
  b_size : q_size s = total szf (q_items s);
  b_top : 0 <= q_size s <= top;
  b_cap : 0 <= q_cap s <= top;
  b_take : q_stop s = false -> 1 <= N otk s -> 1 <= len (q_items s);
  b_put : forall i x, at_pc i (UPut x) s -> q_stop s = false -> szf x + q_size s <= top /\ (resizes = false -> szf x + q_size s <= q_cap s);
  b_bound : resizes = false -> q_size s <= q_cap s;
  b_stop : stops = false -> q_stop s = false;
  b_cr : N cr s = 0;
  (* poppers *)
  b_ogo : q_stop s = false -> 1 <= N ogo s -> len (q_items s) = 0;
  b_osl : q_stop s = false -> 1 <= N osl s -> len (q_items s) <= N unot s + N ow s }.

Lemma init_inv cap n : 0 <= cap <= top -> inv (bq_new cap n).
Proof.
  intros Hc. constructor; cbn [bq_new q_items q_size q_cap q_stop q_mx q_pcs q_in q_out]; rewrite ?zc_repeat by reflexivity; cbn; try lia; auto.
  intros i x (L & E). cbn in E. rewrite nth_repeat in E. discriminate.
Qed.

Lemma u64_small x : 0 <= x < 2 ^ 64 -> u64 x = x.
Proof. intros H. apply Z.mod_small. exact H. Qed.

(** Only one fiber has the mutex. *)
Lemma alone s i j : inv s -> (i < length (q_pcs s))%nat -> (j < length (q_pcs s))%nat -> hold (nth i (q_pcs s) Idle) = true -> hold (nth j (q_pcs s) Idle) = true -> i = j.
Proof.
  intros H Li Lj Hi Hj. destruct (Nat.eq_dec i j) as [|Ne]; [assumption|exfalso].
  pose proof (cnt_two hold (q_pcs s) i j Idle Li Lj Ne Hi Hj). pose proof (b_mx s H) as F. unfold zc in F. pose proof (bz_le (q_mx s)). lia.
Qed.
(** Fiber i, in the mutex or about to enter the free mutex, moves to a pc other than UPut. *)
Lemma put_held s i c s' : inv s -> (i < length (q_pcs s))%nat -> (hold (nth i (q_pcs s) Idle) = true \/ q_mx s = false) -> (forall x, c <> UPut x) ->
  q_pcs s' = lset (q_pcs s) i c -> forall j x, ~ at_pc j (UPut x) s'.
Proof.
  intros H Li K Nc E j x (Lj & Ej). rewrite E in *. rewrite lset_length in Lj. rewrite nth_lset in Ej by exact Li.
  destruct (Nat.eqb_spec j i) as [->|Ne]; [elim (Nc x Ej)|]. destruct K as [K|K].
  - apply Ne. apply (alone s j i H Lj Li); [rewrite Ej; reflexivity|exact K].
  - pose proof (b_mx s H) as F. rewrite K in F. cbn [bz] in F. pose proof (zc_nth hold (q_pcs s) j Idle Lj ltac:(rewrite Ej; reflexivity)). lia.
Qed.
Lemma put_back s i c s' j x : (i < length (q_pcs s))%nat -> (forall y, c <> UPut y) -> q_pcs s' = lset (q_pcs s) i c -> at_pc j (UPut x) s' -> at_pc j (UPut x) s.
Proof.
  intros Li Nc E (Lj & Ej). rewrite E in *. rewrite lset_length in Lj. rewrite nth_lset in Ej by exact Li.
  destruct (Nat.eqb_spec j i) as [->|Ne]; [elim (Nc x Ej)|split; assumption].
Qed.

Ltac facts H s :=
  pose proof (b_mx s H) as Fmx; pose proof (b_top s H) as Ftop; pose proof (b_cap s H) as Fcap; pose proof (b_cr s H) as Fcr;
  pose proof (b_osl s H) as Fosl; pose proof (b_ogo s H) as Fogo; pose proof (b_take s H) as Ftake; pose proof (b_size s H) as Fsize;
  pose proof (parts (q_pcs s)) as (G1 & G2); pose proof (bz_le (q_mx s)) as B1;
  pose proof (zc_pos hold (q_pcs s)) as Phold; pose proof (zc_pos otk (q_pcs s)) as Potk; pose proof (zc_pos ogo (q_pcs s)) as Pogo;
  pose proof (zc_pos osl (q_pcs s)) as Posl; pose proof (zc_pos unot (q_pcs s)) as Punot; pose proof (zc_pos ow (q_pcs s)) as Pow;
  pose proof (zc_pos ugo (q_pcs s)) as Pugo; pose proof (zc_pos usl (q_pcs s)) as Pusl; pose proof (zc_pos onot (q_pcs s)) as Ponot;
  pose proof (zc_pos uw (q_pcs s)) as Puw; pose proof (zc_pos hoth (q_pcs s)) as Photh.
Ltac mine c0 s i L E :=
  let M := fresh in
  assert (M : forall f, f c0 = true -> 1 <= zc f (q_pcs s)) by (intros ? ?; apply (zc_nth _ _ i Idle L); rewrite E; assumption);
  try pose proof (M hold eq_refl) as Mhold; try pose proof (M otk eq_refl) as Motk; try pose proof (M ogo eq_refl) as Mogo;
  try pose proof (M osl eq_refl) as Mosl; try pose proof (M unot eq_refl) as Munot; try pose proof (M ow eq_refl) as Mow;
  try pose proof (M ugo eq_refl) as Mugo; try pose proof (M usl eq_refl) as Musl; try pose proof (M onot eq_refl) as Monot;
  try pose proof (M uw eq_refl) as Muw; try pose proof (M hoth eq_refl) as Mhoth; try pose proof (M cr eq_refl) as Mcr; clear M.
Lemma can_push_spec s x : inv s -> q_stop s = false -> can_push szf x s = (szf x + q_size s <=? q_cap s).
Proof.
  intros H E. unfold can_push. destruct (Hs x) as (S1 & S2). pose proof (b_top s H). rewrite u64_small by lia. rewrite E. apply orb_false_r.
Qed.
Lemma can_pop_spec s : q_stop s = false -> (can_pop s = true -> 1 <= len (q_items s)) /\ (can_pop s = false -> len (q_items s) = 0).
Proof. intros E. unfold can_pop. destruct (q_items s); cbn [length]; split; intros; try congruence; lia. Qed.

Ltac putgoal s i c H L E :=
  let j := fresh "j" in let x := fresh "x" in let K := fresh "K" in
  intros j x K;
  first [ exfalso; refine (put_held s i c _ H L _ _ _ j x K); [first [left; rewrite E; reflexivity|right; assumption]|discriminate|reflexivity]
        | match type of K with at_pc _ _ ?t => apply (put_back s i c t j x L ltac:(intros ?; discriminate) eq_refl) in K end; exact (b_put s H j x K)
        | match type of K with at_pc _ _ ?t => apply (put_back s i c t j x L ltac:(intros ?; discriminate) eq_refl) in K end;
          let B := fresh in intro B; destruct (b_put s H j x K B); split; [assumption|congruence]
        | intros; discriminate ].
Ltac ordinary :=
  match goal with
  | A : at_pc ?i ?c0 ?s, H : inv ?s |- inv (go ?i ?c _) =>
      let L := fresh "L" in let E := fresh "E" in
      pose proof A as (L & E); mine c0 s i L E; facts H s;
      constructor; simp; rewrite ?(zc_lset _ (q_pcs s) i c Idle L), ?E; cbn [hold otk cr ogo osl unot ow bz];
      [ .. | putgoal s i c H L E | | | | | ];
      repeat match goal with K : q_mx _ = _ |- _ => rewrite K in *; clear K end; cbn [bz] in *;
      try apply H; try zl;
      destruct (q_stop s) eqn:ES; try (intros; discriminate);
      repeat match goal with K : false = false -> _ |- _ => specialize (K eq_refl) end; try (intros; zl)
  end.
Lemma at_other s i j c c' : at_pc i c s -> i <> j -> at_pc i c (go j c' s).
Proof. intros (L & E) Ne. split; cbn; [rewrite lset_length; exact L|]. rewrite nth_lset_other by congruence. exact E. Qed.
Lemma told s i : inv s -> (q_stop s = false -> 1 <= N osl s -> len (q_items s) + 1 <= N unot s + N ow s) -> at_pc i UNot s -> inv (go i Idle s).
Proof. intros H K A. ordinary. Qed.
Lemma wake_popper s j k : inv s -> at_pc j (OSleep k) s -> inv (go j (OWant k) s).
Proof. intros H A. ordinary. Qed.
Lemma wake_pusher s j k x : inv s -> at_pc j (USleep k x) s -> inv (go j (UWant k x) s).
Proof. intros H A. ordinary. Qed.
Lemma no_osl s : (forall j k, nth j (q_pcs s) Idle <> OSleep k) -> N osl s = 0.
Proof. intros K. unfold zc. rewrite (cnt_none _ _ Idle); [reflexivity|]. intros j Hj. destruct (nth j (q_pcs s) Idle) eqn:E; try reflexivity. elim (K j _ E). Qed.
Ltac rest := try (let ES := fresh in let K := fresh in intros ES K; repeat match goal with F : q_stop _ = false -> _ |- _ => specialize (F ES) end; lia).
Lemma step_inv s s' : inv s -> step s s' -> inv s'.
Proof.
  intros H St. destruct St as [i s s' T| | | | ].
  { destruct T.
    all: try match goal with K : can_pop ?s = true |- _ => pose proof (fun e => proj1 (can_pop_spec s e) K) as Cp
                           | K : can_pop ?s = false |- _ => pose proof (fun e => proj2 (can_pop_spec s e) K) as Cp
                           | K : forall _ _, nth _ _ _ <> OSleep _ |- _ => pose proof (no_osl s K)
                           | K : q_items _ = [] |- _ => pose proof (f_equal (fun l => len l) K); cbn [length] in * end.
    all: try (match goal with |- inv (go _ _ (go _ _ _)) => fail 1 | |- inv (go _ (UPut _) _) => fail 1 
                            | |- inv (go _ _ (set_mx _ (put _ _ _))) => fail 1 | |- inv (go _ _ (set_mx _ (take _ _ _ _))) => fail 1 | _ => idtac end; ordinary; fail).
    - (* u_room *) destruct H0 as (L & E). assert (A : at_pc i (UIn k x) s) by (split; assumption). mine (UIn k x) s i L E. facts H s.
      constructor; simp; rewrite ?(zc_lset _ (q_pcs s) i (UPut x) Idle L), ?E; cbn [hold otk cr ogo osl unot ow bz]; try apply H; try zl; rest.
      + intros j y (Lj & Ej) ES. rewrite (can_push_spec s x H ES) in H1. simp. rewrite nth_lset in Ej by exact L. rewrite lset_length in Lj.
        destruct (Nat.eqb_spec j i) as [->|Ne]; [injection Ej as ->; lia|].
        exfalso. apply Ne, (alone s j i H Lj L); [rewrite Ej|rewrite E]; reflexivity.
    - (* u_put *) destruct H0 as (L & E). pose proof (b_put s H i x (conj L E) H1) as (Q1 & Q2). destruct (Hs x) as (Z1 & Z2).
      pose proof (b_top s H) as Q3. assert (Eu : u64 (q_size s + szf x) = q_size s + szf x) by (apply u64_small; lia).
      mine (UPut x) s i L E. facts H s. 
      constructor; simp; rewrite ?(zc_lset _ (q_pcs s) i UNot Idle L), ?E, ?Eu, ?app_length; cbn [hold otk cr ogo osl unot ow bz length]; try apply H; try zl; rest.
      + rewrite (b_fifo s H), app_assoc. reflexivity.
      + rewrite total_app. cbn [total]. lia.
      + intros j y K. exfalso. refine (put_held s i UNot _ H L _ _ _ j y K); [left; rewrite E; reflexivity|discriminate|reflexivity].
      + intros K. specialize (Q2 K). lia.
    - (* u_notify *) destruct (Nat.eq_dec i j) as [->|Ne]; [destruct H0, H1; congruence|]. apply told; [exact (wake_popper s j k H H1)| |apply at_other; assumption].
      simp. intros ES K. pose proof H1 as (L & E). facts H s. pose proof (zc_nth osl (q_pcs s) j Idle L ltac:(rewrite E; reflexivity)).
      rewrite !(zc_lset _ (q_pcs s) j (OWant k) Idle L), !E in *. cbn [osl unot ow bz] in *. specialize (Fosl ES). lia.
    - (* o_take *) destruct H0 as (L & E). destruct (Hs x) as (Z1 & Z2). assert (Zp : 0 <= total szf r) by (apply total_pos; intros y; apply Hs).
      pose proof (b_top s H) as Q3. pose proof (b_size s H) as Q4. rewrite H2 in Q4. cbn [total] in Q4.
      assert (Eu : u64 (q_size s - szf x) = q_size s - szf x) by (apply u64_small; lia). 
      mine OTake s i L E. facts H s. rewrite H2 in *. cbn [length total] in *.
      constructor; simp; rewrite ?(zc_lset _ (q_pcs s) i ONot Idle L), ?E, ?Eu; cbn [hold otk cr ogo osl unot ow bz length]; try apply H; try zl; rest.
      + rewrite (b_fifo s H), H2, <- app_assoc. reflexivity.
      + intros j y K. exfalso. refine (put_held s i ONot _ H L _ _ _ j y K); [left; rewrite E; reflexivity|discriminate|reflexivity].
      + intros K. pose proof (b_bound s H K). lia.
    - exfalso. destruct H0 as (L & E). pose proof (zc_nth otk (q_pcs s) i Idle L ltac:(rewrite E; reflexivity)) as K. pose proof (b_take s H H1 K). lia.
    - destruct (Nat.eq_dec i j) as [->|Ne]; [destruct H0, H1; congruence|]. pose proof (wake_pusher s j k x H H1) as H2.
      pose proof (at_other s i j _ (UWant k x) H0 Ne) as A. clear H0 H1 H. remember (go j (UWant k x) s) as t. clear Heqt. ordinary.
    - destruct (Nat.eq_dec i j) as [->|Ne]; [destruct H0, H1; congruence|]. pose proof (wake_pusher s j k x H H1) as H2.
      pose proof (at_other s i j _ (UWant k x) H0 Ne) as A. clear H0 H1 H. remember (go j (UWant k x) s) as t. clear Heqt. ordinary. }
  - ordinary.
  - ordinary.
  - ordinary; intros; congruence.
  - destruct (q_cap s <? c); ordinary; intros; congruence.
Qed.
Lemma step_len s s' : step s s' -> length (q_pcs s') = length (q_pcs s).
Proof. intros St. destruct St as [i s s' T| | | | ]; [destruct T|..]; simp; rewrite ?lset_length; reflexivity. Qed.
Lemma run_inv cap n s : 0 <= cap <= top -> run szf stops resizes top cap n s -> inv s /\ length (q_pcs s) = n.
Proof.
  intros Hc R. induction R as [|s s' R IH St].
  - split; [apply init_inv; exact Hc|]. apply repeat_length.
  - destruct IH as (H & L). split; [exact (step_inv s s' H St)|]. rewrite (step_len s s' St). exact L.
Qed.
End Inv.
