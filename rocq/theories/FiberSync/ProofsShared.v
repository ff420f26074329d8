(** Proofs about the fiber shared mutex. *)
From Coq Require Import Lia.
From Verif.Lib Require Import Base ListX Count.
From Verif.FiberSync Require Import ModelShared SpecShared.
Local Open Scope Z_scope.

Definition wlh (c : pc) : bool := match c with WTry | WSub | WWant _ | WAdd _ | WChk | WGo | WSleep | WRe | WRel | Writing | WU1 _ | WU2 _ | WU2b | WU3 | WU4 => true | _ => false end.
Definition wkh (c : pc) : bool := match c with RChk | RGo | RRel | RWk2 | WAdd _ | WChk | WGo | WRel | WU2 _ | WU2b => true | _ => false end.
Definition rd (c : pc) : bool := match c with Reading | RRel => true | _ => false end.
Definition dd (c : pc) : bool := match c with RDec => true | _ => false end.
Definition wt (c : pc) : bool := match c with RWant | RChk | RGo | RSleep => true | _ => false end.
Definition pre (c : pc) : bool := match c with WWant _ | WAdd _ => true | _ => false end.
Definition post (c : pc) : bool := match c with WChk | WGo | WSleep | WRe => true | _ => false end.
Definition inn (c : pc) : bool := match c with WRel | Writing => true | _ => false end.
Definition ung (c : pc) : bool := match c with WU1 _ | WU2 _ => true | _ => false end.
Definition rsl (c : pc) : bool := match c with RSleep => true | _ => false end.
Definition rgo (c : pc) : bool := match c with RGo => true | _ => false end.
Definition nt (c : pc) : bool := match c with WU2b | WU3 => true | _ => false end.
Definition wsl (c : pc) : bool := match c with WSleep => true | _ => false end.
Definition wgo (c : pc) : bool := match c with WGo => true | _ => false end.
Definition wk1 (c : pc) : bool := match c with RWk1 => true | _ => false end.
Definition wkk (c : pc) : bool := match c with RWk1 | RWk2 | RWk3 => true | _ => false end.
Definition cr (c : pc) : bool := match c with Crash => true | _ => false end.
Definition oth (c : pc) : bool := match c with WTry | WSub | WU4 => true | _ => false end.
Definition wko (c : pc) : bool := match c with RChk | RRel | RWk2 | WAdd _ | WChk | WRel | WU2 _ | WU2b => true | _ => false end.
Definition idl (c : pc) : bool := match c with Idle => true | _ => false end.
Definition sp (c : pc) : Z := match c with WWant p | WAdd p => p | _ => 0 end.
Definition sw (c : pc) : Z := match c with WU1 w | WU2 w => - w | _ => 0 end.
Notation N f s := (zc f (x_pcs s)).

Record inv (s : shm) : Prop := {
  i_wl : N wlh s = bz (x_wl s);
  i_wk : N wkh s = bz (x_wk s);
  i_quota : x_quota s = kmax - kmax * (N pre s + N post s + N inn s) - (N rd s + N wt s);
  i_g : 0 <= x_granted s <= N wt s;
  i_idle : imp (N pre s + N post s = 0) (N dd s = 0 /\ x_pend s = 0);
  i_pend : imp (1 <= N pre s + N post s) (x_pend s = N rd s + x_granted s + N dd s - zsum sp (x_pcs s));
  i_in : imp (1 <= N inn s) (N rd s = 0 /\ x_granted s = 0);
  i_ung : imp (1 <= N ung s) (x_granted s = 0 /\ N wt s = zsum sw (x_pcs s));
  i_all : imp (N pre s + N post s + N inn s + N ung s = 0) (N wt s = x_granted s);
  i_rgo : imp (1 <= N rgo s) (x_granted s = 0);
  i_rsl : imp (1 <= N rsl s /\ 0 < x_granted s) (1 <= N nt s);
  i_wgo : imp (1 <= N wgo s /\ x_pend s = 0) (1 <= N wk1 s);
  i_wsl : imp (1 <= N wsl s /\ x_pend s = 0) (1 <= N wkk s);
  i_sp : imp (N pre s = 0) (zsum sp (x_pcs s) = 0);
  i_sw : imp (N ung s = 0) (zsum sw (x_pcs s) = 0);
  i_cr : N cr s = 0;
  i_cap : imp (1 <= N pre s) (N rd s + x_granted s + N dd s <= zsum sp (x_pcs s) <= Z.of_nat (length (x_pcs s))) }.

(** What holds of any list of program counters. *)
Lemma parts l : let n f := zc f l in
  n pre + n post + n inn + n ung + n nt + n oth = n wlh /\ n rgo + n wgo + n wko = n wkh /\ n rgo + n rsl <= n wt /\ n wgo + n wsl <= n post /\
  n wk1 <= n wkk /\ n rd + n wt + n dd + n wlh + n wkk + n cr + n idl <= Z.of_nat (length l).
Proof. cbv zeta. unfold zc. induction l as [|[] l IH]; cbn [cnt length wlh wkh rd dd wt pre post inn ung rsl rgo nt wsl wgo wk1 wkk cr oth wko idl b2n]; lia. Qed.
Lemma bz_le b : 0 <= bz b <= 1.
Proof. destruct b; cbn; lia. Qed.
Lemma six w a b c d e f : w <= 1 -> a + b + c + d + e + f = w -> 0 <= a -> 0 <= b -> 0 <= c -> 0 <= d -> 0 <= e -> 0 <= f ->
  (a = 0 /\ b = 0 /\ c = 0 /\ d = 0 /\ e = 0) \/ (a = 1 /\ b = 0 /\ c = 0 /\ d = 0 /\ e = 0) \/ (a = 0 /\ b = 1 /\ c = 0 /\ d = 0 /\ e = 0) \/
  (a = 0 /\ b = 0 /\ c = 1 /\ d = 0 /\ e = 0) \/ (a = 0 /\ b = 0 /\ c = 0 /\ d = 1 /\ e = 0) \/ (a = 0 /\ b = 0 /\ c = 0 /\ d = 0 /\ e = 1).
Proof.
  intros. destruct (Z.le_gt_cases 1 a); [right; left; repeat split; lia|]. destruct (Z.le_gt_cases 1 b); [right; right; left; repeat split; lia|].
  destruct (Z.le_gt_cases 1 c); [right; right; right; left; repeat split; lia|]. destruct (Z.le_gt_cases 1 d); [right; right; right; right; left; repeat split; lia|].
  destruct (Z.le_gt_cases 1 e); [right; right; right; right; right; repeat split; lia|]. left; repeat split; lia.
Qed.
(** A sum over at most one element. *)
Lemma zsum_supp0 (f : pc -> Z) g l : (forall x, g x = false -> f x = 0) -> zc g l = 0 -> zsum f l = 0.
Proof.
  intros S. unfold zc. induction l as [|x l IH]; cbn [cnt zsum]; intros H; [reflexivity|].
  destruct (g x) eqn:E; cbn [b2n] in H; [lia|]. rewrite (S x E), IH; lia.
Qed.
Lemma zsum_supp1 (f : pc -> Z) g l i : (forall x, g x = false -> f x = 0) -> g Idle = false -> (i < length l)%nat -> g (nth i l Idle) = true ->
  zc g l = 1 -> zsum f l = f (nth i l Idle).
Proof.
  intros S Gi L Gx H. pose proof (zsum_lset f l i Idle Idle L) as A. pose proof (zc_lset g l i Idle Idle L) as B.
  rewrite Gi, Gx, H in B. cbn [bz] in B. rewrite (zsum_supp0 f g (lset l i Idle) S) in A by lia. rewrite (S Idle Gi) in A. lia.
Qed.

Lemma init_inv n : inv (shm_new n).
Proof. constructor; cbn [shm_new x_quota x_pend x_granted x_wk x_wl x_pcs]; unfold imp; rewrite ?zc_repeat, ?zsum_repeat by reflexivity; cbn; lia. Qed.

Ltac simp := cbn [go set_pcs set_quota set_pend set_granted set_wk set_wl x_quota x_pend x_granted x_wk x_wl x_pcs] in *.
(** Use or drop the implications whose premise is decided. *)
Ltac zl := xlia zchecker.
Ltac decide_imps :=
  repeat match goal with
  | F : imp ?P ?Q |- _ =>
      first [ let K := fresh in assert (K : P) by (clear; zl); apply F in K; clear F; rename K into F
            | let K := fresh in assert (K : ~ P) by (clear; zl); clear K F
            | let K := fresh in assert (K : P) by zl; apply F in K; clear F; rename K into F
            | let K := fresh in assert (K : ~ P) by zl; clear K F ]
  end.
Ltac facts H s :=
  pose proof (i_wl s H) as Fwl; pose proof (i_wk s H) as Fwk; pose proof (i_quota s H) as Fquota; pose proof (i_g s H) as Fg; pose proof (i_idle s H) as Fidle; pose proof (i_pend s H) as Fpend; pose proof (i_in s H) as Fin; pose proof (i_ung s H) as Fung; pose proof (i_all s H) as Fall; pose proof (i_rgo s H) as Frgo; pose proof (i_rsl s H) as Frsl; pose proof (i_wgo s H) as Fwgo; pose proof (i_wsl s H) as Fwsl; pose proof (i_sp s H) as Fsp; pose proof (i_sw s H) as Fsw; pose proof (i_cr s H) as Fcr; pose proof (i_cap s H) as Fcap;
  pose proof (zc_pos wlh (x_pcs s)) as Pwlh; pose proof (zc_pos wkh (x_pcs s)) as Pwkh; pose proof (zc_pos rd (x_pcs s)) as Prd; pose proof (zc_pos dd (x_pcs s)) as Pdd; pose proof (zc_pos wt (x_pcs s)) as Pwt; pose proof (zc_pos pre (x_pcs s)) as Ppre; pose proof (zc_pos post (x_pcs s)) as Ppost; pose proof (zc_pos inn (x_pcs s)) as Pinn; pose proof (zc_pos ung (x_pcs s)) as Pung; pose proof (zc_pos rsl (x_pcs s)) as Prsl; pose proof (zc_pos rgo (x_pcs s)) as Prgo; pose proof (zc_pos nt (x_pcs s)) as Pnt; pose proof (zc_pos wsl (x_pcs s)) as Pwsl; pose proof (zc_pos wgo (x_pcs s)) as Pwgo; pose proof (zc_pos wk1 (x_pcs s)) as Pwk1; pose proof (zc_pos wkk (x_pcs s)) as Pwkk; pose proof (zc_pos cr (x_pcs s)) as Pcr; pose proof (zc_pos oth (x_pcs s)) as Poth; pose proof (zc_pos wko (x_pcs s)) as Pwko; pose proof (zc_pos idl (x_pcs s)) as Pidl;
  pose proof (parts (x_pcs s)) as G; cbv zeta in G; destruct G as (G1 & G2 & G3 & G4 & G5 & G6); pose proof (bz_le (x_wl s)) as B1; pose proof (bz_le (x_wk s)) as B2;
  let PH := fresh "PH" in
  assert (PH := six (zc wlh (x_pcs s)) (zc pre (x_pcs s)) (zc post (x_pcs s)) (zc inn (x_pcs s)) (zc ung (x_pcs s)) (zc nt (x_pcs s)) (zc oth (x_pcs s)) ltac:(zl) G1 Ppre Ppost Pinn Pung Pnt Poth);
  destruct PH as [PH|[PH|[PH|[PH|[PH|PH]]]]]; destruct PH as (PH1 & PH2 & PH3 & PH4 & PH5); rewrite PH1, PH2, PH3, PH4, PH5 in *.
(** Fiber i moves from c0 to c. *)
Ltac ordinary :=
  match goal with
  | A : at_pc ?i ?c0 ?s, H : inv ?s |- inv (go ?i ?c _) =>
      let L := fresh "L" in let E := fresh "E" in
      pose proof A as (L & E);
      pose proof (zsum_lset_eq sp (x_pcs s) i c Idle L) as Csp; pose proof (zsum_lset_eq sw (x_pcs s) i c Idle L) as Csw;
      rewrite E in Csp, Csw; cbn [sp sw] in Csp, Csw;
      assert (M : forall f, f c0 = true -> 1 <= zc f (x_pcs s)) by (intros f Hf; apply (zc_nth f _ i Idle L); rewrite E; exact Hf);
      try pose proof (M wlh eq_refl) as Mwlh;
      try pose proof (M wkh eq_refl) as Mwkh;
      try pose proof (M rd eq_refl) as Mrd;
      try pose proof (M dd eq_refl) as Mdd;
      try pose proof (M wt eq_refl) as Mwt;
      try pose proof (M pre eq_refl) as Mpre;
      try pose proof (M post eq_refl) as Mpost;
      try pose proof (M inn eq_refl) as Minn;
      try pose proof (M ung eq_refl) as Mung;
      try pose proof (M rsl eq_refl) as Mrsl;
      try pose proof (M rgo eq_refl) as Mrgo;
      try pose proof (M nt eq_refl) as Mnt;
      try pose proof (M wsl eq_refl) as Mwsl;
      try pose proof (M wgo eq_refl) as Mwgo;
      try pose proof (M wk1 eq_refl) as Mwk1;
      try pose proof (M wkk eq_refl) as Mwkk;
      try pose proof (M cr eq_refl) as Mcr;
      try pose proof (M oth eq_refl) as Moth;
      try pose proof (M wko eq_refl) as Mwko;
      try pose proof (M idl eq_refl) as Midl;
      clear M; facts H s; try zl; decide_imps; 
      constructor; simp;
      rewrite ?(zc_lset _ (x_pcs s) i c Idle L), ?E; cbn [wlh wkh rd dd wt pre post inn ung rsl rgo nt wsl wgo wk1 wkk cr oth wko idl sp sw bz];
      rewrite ?Csp, ?Csw, ?lset_length; clear Csp Csw A H;
      repeat match goal with K : x_wk _ = _ |- _ => rewrite K in *; clear K | K : x_wl _ = _ |- _ => rewrite K in *; clear K end; cbn [bz] in *;
      unfold kmax in *;
      rewrite ?Z.add_0_r, ?Z.sub_0_r; try assumption;
      try match goal with |- imp _ _ => let K := fresh in intro K; try (exfalso; clear -K; zl); try zl; decide_imps end; try zl
  end.

Lemma sp_is s i p : at_pc i (WAdd p) s -> N pre s = 1 -> zsum sp (x_pcs s) = p.
Proof. intros (L & E) H. rewrite (zsum_supp1 sp pre _ i); rewrite ?E; auto. intros []; cbn; congruence. Qed.
Lemma sw_is s i w : at_pc i (WU2 w) s -> N ung s = 1 -> zsum sw (x_pcs s) = - w.
Proof. intros (L & E) H. rewrite (zsum_supp1 sw ung _ i); rewrite ?E; auto. intros []; cbn; congruence. Qed.
Lemma pre_one s i c : inv s -> at_pc i c s -> pre c = true -> N pre s = 1.
Proof.
  intros H (L & E) C. assert (M : 1 <= N pre s) by (apply (zc_nth pre _ i Idle L); rewrite E; exact C). facts H s; lia.
Qed.
Lemma ung_one s i c : inv s -> at_pc i c s -> ung c = true -> N ung s = 1.
Proof.
  intros H (L & E) C. assert (M : 1 <= N ung s) by (apply (zc_nth ung _ i Idle L); rewrite E; exact C). facts H s; lia.
Qed.
Lemma notified s i : inv s -> N wsl s = 0 -> at_pc i RWk3 s -> inv (go i Idle s).
Proof. intros H Hw A. ordinary. Qed.
Lemma told s i : inv s -> N rsl s = 0 -> at_pc i WU3 s -> inv (go i WU4 s).
Proof. intros H Hw A. ordinary. Qed.
Lemma wake_one s j : inv s -> at_pc j WSleep s -> inv (go j WRe s) /\ N wsl (go j WRe s) = 0.
Proof.
  intros H A. split; [ordinary|]. destruct A as (L & E). assert (M : 1 <= N wsl s) by (apply (zc_nth wsl _ j Idle L); rewrite E; reflexivity).
  simp. rewrite (zc_lset wsl _ j WRe Idle L), E. cbn [wsl bz]. facts H s; lia.
Qed.
Lemma wake_all s : inv s -> inv (set_pcs (map wake_reader (x_pcs s)) s) /\ N rsl (set_pcs (map wake_reader (x_pcs s)) s) = 0.
Proof.
  intros H. assert (R : zc rsl (map wake_reader (x_pcs s)) = 0).
  { unfold zc. clear H. induction (x_pcs s) as [|[] l IH]; cbn in *; auto. }
  split; [|exact R].
  destruct H. constructor; simp; rewrite ?R, ?zc_map, ?zsum_map, ?map_length;
    repeat match goal with
    | |- context [zc (fun x => ?f (wake_reader x)) (x_pcs s)] => rewrite (zc_ext (fun x => f (wake_reader x)) f (x_pcs s)) by (intros []; reflexivity)
    | |- context [zsum (fun x => ?f (wake_reader x)) (x_pcs s)] => rewrite (zsum_ext (fun x => f (wake_reader x)) f (x_pcs s)) by (intros []; reflexivity)
    end; try assumption. intros K. lia.
Qed.

Lemma step_inv s s' : inv s -> Z.of_nat (length (x_pcs s)) < kmax -> step s s' -> inv s'.
Proof.
  intros H Hn St. destruct St as [i s s' T| | | | | | | | | | | | ].
  { destruct T.
    all: try match goal with A : at_pc _ (WAdd _) _ |- _ => pose proof (sp_is _ _ _ A (pre_one _ _ _ H A eq_refl)) end.
    all: try match goal with A : at_pc _ (WU2 _) _ |- _ => pose proof (sw_is _ _ _ A (ung_one _ _ _ H A eq_refl)) end.
    all: try (match goal with |- inv (go _ _ (go _ _ _)) => fail 1 | |- inv (go _ _ (set_pcs _ _)) => fail 1 | _ => idtac end; solve [ordinary]).
    + destruct (wake_one s j H H1) as (H2 & H3). apply notified; auto. destruct H0 as (L & E), H1 as (L1 & E1). split; simp; [rewrite lset_length; exact L|].
      destruct (Nat.eq_dec i j) as [->|Ne]; [congruence|]. rewrite nth_lset_other by congruence. exact E.
    + apply notified; auto. unfold zc. rewrite (cnt_none _ _ Idle); [reflexivity|]. intros j Hj. destruct (nth j (x_pcs s) Idle) eqn:E; try reflexivity. elim (H1 j E).
    + destruct (wake_all s H) as (H2 & H3). apply told; auto. destruct H0 as (L & E). split; simp; [rewrite map_length; exact L|].
      change Idle with (wake_reader Idle). rewrite map_nth, E. reflexivity. }
  all: solve [ordinary].
Qed.

Lemma step_len s s' : step s s' -> length (x_pcs s') = length (x_pcs s).
Proof. intros St. destruct St as [i s s' T| | | | | | | | | | | | ]; [destruct T|..]; simp; rewrite ?lset_length, ?map_length; reflexivity. Qed.
Lemma run_inv n s : Z.of_nat n < kmax -> run n s -> inv s /\ length (x_pcs s) = n.
Proof.
  intros Hn R. induction R as [|s s' R IH St].
  - split; [apply init_inv|]. cbn. apply repeat_length.
  - destruct IH as (H & L). split; [|rewrite (step_len s s' St); exact L]. apply (step_inv s s' H); [lia|exact St].
Qed.
