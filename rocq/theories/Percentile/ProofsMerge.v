(** Merging intervals. *)
From Coq Require Import List ZArith Bool Lia Permutation.
From Verif.Lib Require Import Base ListX Count.
From Verif.Percentile Require Import Model Spec.
Import ListNotations.
Open Scope Z_scope.

Lemma len_app {A} (l m : list A) : len (l ++ m) = len l + len m.
Proof. unfold len. rewrite app_length. lia. Qed.
Lemma len_pos {A} (l : list A) : 0 <= len l.
Proof. unfold len. lia. Qed.

Lemma rand_range o b : 0 < b -> 0 <= fst (rand o b) < b.
Proof.
  intros B. destruct o as [|x o]; cbn [rand fst]; [lia|]. destruct (Z.eqb_spec b 0); [lia|]. cbn [fst]. apply Z.mod_pos_bound. exact B.
Qed.

Lemma round_range o a b : 0 < b -> 0 <= a -> a / b <= fst (round_of o a b) <= a / b + 1 /\ (a mod b = 0 -> fst (round_of o a b) = a / b).
Proof.
  intros B A. unfold round_of. destruct (Z.eqb_spec b 0); [lia|]. pose proof (rand_range o b B) as R. destruct (rand o b) as [r o1]. cbn [fst] in *.
  destruct (Z.ltb_spec r (a mod b)); split; lia.
Qed.

Lemma exists_last_or {A} (l : list A) : l = [] \/ exists m y, l = m ++ [y].
Proof. destruct l as [|x l]; [left; reflexivity|right]. destruct (@exists_last _ (x :: l)) as (m & y & E); [discriminate|]. exists m, y. exact E. Qed.

Lemma drop_perm i (l : list Z) : (i < length l)%nat -> Permutation l (nth i l 0 :: drop_at i l).
Proof.
  intros L. destruct (nth_split l 0 L) as (l1 & l2 & E & F). set (x := nth i l 0) in *. clearbody x. subst l i. unfold drop_at. clear L.
  destruct (exists_last_or l2) as [->|(l3 & y & ->)].
  - rewrite last_last. assert (H : lset (l1 ++ [x]) (length l1) x = l1 ++ [x]) by (clear; induction l1; cbn; congruence).
    rewrite H, removelast_last. apply Permutation_sym, Permutation_cons_append.
  - change (l1 ++ x :: l3 ++ [y]) with (l1 ++ (x :: l3) ++ [y]). rewrite app_assoc, last_last.
    assert (H : lset ((l1 ++ x :: l3) ++ [y]) (length l1) y = (l1 ++ y :: l3) ++ [y]) by (clear; induction l1; cbn; [reflexivity|congruence]).
    rewrite H, removelast_last. rewrite <- app_assoc. cbn [app]. 
    eapply Permutation_trans; [apply Permutation_sym, Permutation_middle|]. apply perm_skip.
    apply Permutation_app_head. apply Permutation_sym, Permutation_cons_append.
Qed.
Lemma drop_length i (l : list Z) : (i < length l)%nat -> length (drop_at i l) = (length l - 1)%nat.
Proof. intros L. pose proof (Permutation_length (drop_perm i l L)) as P. cbn [length] in P. lia. Qed.

Lemma rand_index o (l : list Z) : l <> [] -> (Z.to_nat (fst (rand o (Z.of_nat (length l)))) < length l)%nat.
Proof. intros N. assert (0 < length l)%nat by (destruct l; [contradiction|cbn; lia]). pose proof (rand_range o (Z.of_nat (length l)) ltac:(lia)). lia. Qed.

Lemma shrink_spec k : forall l o, (k <= length l)%nat ->
  exists rest, Permutation l (fst (shrink k l o) ++ rest) /\ length (fst (shrink k l o)) = (length l - k)%nat.
Proof.
  induction k as [|k IH]; intros l o L; cbn [shrink].
  - exists []. cbn [fst]. rewrite app_nil_r. split; [reflexivity|lia].
  - assert (N : l <> []) by (destruct l; [cbn in L; lia|discriminate]). pose proof (rand_index o l N) as R. destruct (rand o (Z.of_nat (length l))) as [r o1]. cbn [fst] in R.
    destruct (IH (drop_at (Z.to_nat r) l) o1) as (rest & P & Q); [rewrite drop_length by exact R; lia|].
    exists (nth (Z.to_nat r) l 0 :: rest). split; [|rewrite Q, drop_length by exact R; lia].
    eapply Permutation_trans; [apply (drop_perm _ l R)|]. eapply Permutation_trans; [apply perm_skip; exact P|]. apply Permutation_middle.
Qed.

Lemma pick_spec k : forall l o, (k <= length l)%nat ->
  exists rest, Permutation l (fst (pick k l o) ++ rest) /\ length (fst (pick k l o)) = k.
Proof.
  induction k as [|k IH]; intros l o L; cbn [pick].
  - exists l. split; reflexivity.
  - assert (N : l <> []) by (destruct l; [cbn in L; lia|discriminate]). pose proof (rand_index o l N) as R. destruct (rand o (Z.of_nat (length l))) as [r o1]. cbn [fst] in R.
    destruct (IH (drop_at (Z.to_nat r) l) o1) as (rest & P & Q); [rewrite drop_length by exact R; lia|].
    destruct (pick k (drop_at (Z.to_nat r) l) o1) as [m o2]. cbn [fst] in *. exists rest. split; [|cbn [length]; lia].
    eapply Permutation_trans; [apply (drop_perm _ l R)|]. cbn [app]. apply perm_skip. exact P.
Qed.

Lemma lset_perm (s : list Z) q x : (q < length s)%nat -> Permutation (x :: s) (nth q s 0 :: lset s q x).
Proof.
  revert q. induction s as [|y s IH]; intros [|q] L; cbn [length nth lset] in *; try lia.
  - apply perm_swap.
  - eapply Permutation_trans; [apply perm_swap|]. eapply Permutation_trans; [apply perm_skip, (IH q); lia|]. apply perm_swap.
Qed.

Lemma draw_spec n k : 0 < n -> forall l s o, (k <= length l)%nat -> len s <= n ->
  exists rest, Permutation (s ++ l) (fst (draw n k l s o) ++ rest) /\ len (fst (draw n k l s o)) = Z.min n (len s + Z.of_nat k).
Proof.
  intros N0. induction k as [|k IH]; intros l s o L S; cbn [draw].
  - exists l. split; [reflexivity|]. cbn [fst]. lia.
  - assert (N : l <> []) by (destruct l; [cbn in L; lia|discriminate]). pose proof (rand_index o l N) as R. destruct (rand o (Z.of_nat (length l))) as [r o1]. cbn [fst] in R.
    fold (len s). destruct (Z.ltb_spec (len s) n) as [C|C].
    + destruct (IH (drop_at (Z.to_nat r) l) (s ++ [nth (Z.to_nat r) l 0]) o1) as (rest & P & Q); [rewrite drop_length by exact R; lia|rewrite len_app; change (len [nth (Z.to_nat r) l 0]) with 1; lia|].
      exists rest. split; [|rewrite Q, len_app; change (len [nth (Z.to_nat r) l 0]) with 1; lia].
      eapply Permutation_trans; [|exact P]. rewrite <- app_assoc. apply Permutation_app_head. apply (drop_perm _ l R).
    + assert (NS : s <> []) by (intros ->; change (len []) with 0 in C; lia). pose proof (rand_index o1 s NS) as R2. fold (len s) in R2. destruct (rand o1 (len s)) as [q o2]. cbn [fst] in R2.
      destruct (IH (drop_at (Z.to_nat r) l) (lset s (Z.to_nat q) (nth (Z.to_nat r) l 0)) o2) as (rest & P & Q); [rewrite drop_length by exact R; lia|unfold len; rewrite lset_length; exact S|].
      exists (nth (Z.to_nat q) s 0 :: rest). split.
      * eapply Permutation_trans; [apply Permutation_app_head, (drop_perm _ l R)|]. eapply Permutation_trans; [apply Permutation_sym, Permutation_middle|].
        eapply Permutation_trans; [apply (Permutation_app_tail (drop_at (Z.to_nat r) l) (lset_perm s (Z.to_nat q) (nth (Z.to_nat r) l 0) R2))|].
        cbn [app]. eapply Permutation_trans; [apply perm_skip; exact P|]. apply Permutation_middle.
      * rewrite Q. unfold len in *. rewrite lset_length. lia.
Qed.

Lemma sampled_fresh n : 0 <= n -> sampled n [] fresh.
Proof. intros N. repeat split. - change (len (@nil Z)) with 0. change (len (samples fresh)) with 0. lia. - exists []. reflexivity. Qed.

Lemma sampled_perm n l m v : Permutation l m -> sampled n l v -> sampled n m v.
Proof.
  intros P (A & B & C & rest & D). assert (E : len m = len l) by (unfold len; rewrite (Permutation_length P); reflexivity).
  repeat split; [congruence|congruence|exact C|]. exists rest. eapply Permutation_trans; [apply Permutation_sym; exact P|exact D].
Qed.

Lemma full_sampled n l v : sampled n l v -> len l <= n -> Permutation l (samples v).
Proof.
  intros (A & B & _ & rest & D) L. pose proof (Permutation_length D) as E. rewrite app_length in E. unfold len in *.
  assert (rest = []) as -> by (destruct rest; [reflexivity|cbn in E; lia]). rewrite app_nil_r in D. exact D.
Qed.

Lemma add32_spec n x l v : sampled n l v -> len l < n -> len l + 1 < 2 ^ 32 -> sampled n (l ++ [x]) (add32 n x v).
Proof.
  intros H L W. pose proof (full_sampled _ _ _ H ltac:(lia)) as P. destruct H as (A & B & C & _). unfold add32, size. fold (len (samples v)).
  destruct (Z.leb_spec n (len (samples v))); [lia|]. pose proof (len_pos l).
  repeat split; cbn [added samples sorted].
  - rewrite A, len_app. change (len [x]) with 1. unfold u32, two32. apply Z.mod_small. lia.
  - rewrite !len_app. change (len [x]) with 1. lia.
  - exact C.
  - exists []. rewrite app_nil_r. apply Permutation_app_tail. exact P.
Qed.

Lemma expect a s n : 0 <= a -> 0 < s -> 0 <= n -> a * n / (a + s) <= n.
Proof. intros A S N. apply Z.div_le_upper_bound; nia. Qed.

Lemma merge_spec n n2 l m v w o : sampled n l v -> sampled n2 m w -> len m <= n2 -> n2 <= n -> len l + len m < 2 ^ 32 ->
  exists v' o', merge n v w o = Ok (v', o') /\ sampled n (l ++ m) v'.
Proof.
  intros HV HW M N W. pose proof (full_sampled _ _ _ HW M) as PW. pose proof (len_pos l). pose proof (len_pos m).
  destruct HW as (A2 & B2 & C2 & _). unfold merge, size. fold (len (samples v)) (len (samples w)). cbv zeta. rewrite A2, B2. rewrite (Z.min_l (len m)) by exact M.
  destruct (Z.eqb_spec (len m) 0) as [E|E].
  { assert (m = []) as -> by (destruct m; [reflexivity|unfold len in E; cbn in E; lia]). rewrite app_nil_r. eauto. }
  rewrite Z.eqb_refl. cbn [negb]. pose proof HV as HV'. destruct HV as (A1 & B1 & C1 & rest & D1).
  assert (SU : u32 (added v + len m) = len l + len m) by (rewrite A1; apply Z.mod_small; unfold two32; lia). rewrite SU, A1, B1.
  destruct (Z.leb_spec (len l + len m) n) as [F|F].
  - rewrite Z.min_l by lia. rewrite Z.eqb_refl. cbn [negb]. eexists _, _. split; [reflexivity|].
    pose proof (full_sampled _ _ _ HV' ltac:(lia)) as PV. repeat split; cbn [added samples sorted].
    + rewrite len_app. reflexivity.
    + rewrite !len_app, B1, B2. lia.
    + exact C1.
    + exists []. rewrite app_nil_r. apply Permutation_app; assumption.
  - assert (LN : 0 < len l + len m) by lia. assert (AN : 0 <= len l * n) by nia.
    destruct (round_range o (len l * n) (len l + len m) LN AN) as (R & R0).
    destruct (round_of o (len l * n) (len l + len m)) as [remain o1]. cbn [fst] in *.
    pose proof (Z.div_mod (len l * n) (len l + len m) ltac:(lia)) as DM. pose proof (Z.mod_pos_bound (len l * n) (len l + len m) LN) as MB.
    set (q := len l * n / (len l + len m)) in *. set (r := (len l * n) mod (len l + len m)) in *. clearbody q r.
    assert (U1 : remain <= Z.min (len l) n).
    { assert (L0 : len l <> 0) by lia. assert (q < len l) by nia. assert (q < n) by nia. lia. }
    assert (U2 : n - remain <= len m). { assert (n - len m <= q) by nia. lia. }
    assert (U3 : 0 <= remain) by nia.
    destruct (Z.ltb_spec (Z.min (len l) n) remain); [lia|].
    destruct (shrink_spec (Z.to_nat (Z.min (len l) n - remain)) (samples v) o1) as (r1 & P1 & Q1); [unfold len in *; lia|].
    destruct (shrink (Z.to_nat (Z.min (len l) n - remain)) (samples v) o1) as [l1 o2]. cbn [fst] in *.
    destruct (Z.ltb_spec n remain); [lia|]. destruct (Z.ltb_spec (len m) (n - remain)); [lia|]. cbn [orb].
    destruct (pick_spec (Z.to_nat (n - remain)) (samples w) o2) as (r2 & P2 & Q2); [unfold len in *; lia|].
    destruct (pick (Z.to_nat (n - remain)) (samples w) o2) as [m1 o3]. cbn [fst] in *.
    eexists _, _. split; [reflexivity|]. repeat split; cbn [added samples sorted].
    + rewrite len_app. reflexivity.
    + rewrite !len_app. unfold len in *. lia.
    + exact C1.
    + exists ((r1 ++ rest) ++ r2). eapply Permutation_trans; [apply Permutation_app; [exact D1|exact PW]|].
      eapply Permutation_trans; [apply Permutation_app; [apply Permutation_app_tail; exact P1|exact P2]|].
      rewrite <- !app_assoc. apply Permutation_app_head. rewrite !app_assoc.
      apply Permutation_app_tail. eapply Permutation_trans; [apply Permutation_app_comm|]. rewrite app_assoc. apply Permutation_refl.
Qed.
