(** The rings of a series. *)
From Coq Require Import List ZArith Bool Lia.
From Verif.Lib Require Import Base ListX.
From Verif.Window Require Import Model Spec.
Import ListNotations.
Open Scope nat_scope.

Lemma pos n N j : n < N -> j < N -> (n + N - 1 - j) mod N = if j <? n then n - 1 - j else n + N - 1 - j.
Proof.
  intros A B. destruct (Nat.ltb_spec j n) as [L|L]; [|apply Nat.mod_small; lia].
  replace (n + N - 1 - j) with (n - 1 - j + 1 * N) by lia. rewrite Nat.mod_add by lia. apply Nat.mod_small. lia.
Qed.

Lemma succ_mod n N : N <> 0 -> S n mod N = if S (n mod N) <? N then S (n mod N) else 0.
Proof.
  intros H. pose proof (Nat.div_mod n N H). pose proof (Nat.mod_upper_bound n N H). destruct (Nat.ltb_spec (S (n mod N)) N) as [L|L].
  - symmetry. apply Nat.mod_unique with (n / N); lia.
  - symmetry. apply Nat.mod_unique with (S (n / N)); lia.
Qed.
Lemma succ_div n N : N <> 0 -> S n / N = if S (n mod N) <? N then n / N else S (n / N).
Proof.
  intros H. pose proof (Nat.div_mod n N H). pose proof (Nat.mod_upper_bound n N H). destruct (Nat.ltb_spec (S (n mod N)) N) as [L|L].
  - symmetry. apply Nat.div_unique with (S (n mod N)); lia.
  - symmetry. apply Nat.div_unique with 0; lia.
Qed.

Section Ring.
Context {T : Type} (z : T) (op : T -> T -> T) (dv : T -> Z -> T).

Definition ring_ok (N b : nat) (a : list T) (n : nat) (l : list T) : Prop :=
  n = length l mod N /\ forall j, j < N -> nth (b + (n + N - 1 - j) mod N) a z = nth j (rev l) z.

Lemma ring_view N b a n l : ring_ok N b a n l -> ring z a b N n = latest z N l.
Proof.
  intros (_ & H). unfold ring, latest. apply nth_ext with z z.
  - rewrite map_length, seq_length, firstn_length, app_length, repeat_length. lia.
  - intros j J. rewrite map_length, seq_length in J. rewrite nth_map_seq by exact J. replace (n + N - 1 - j) with (n + N - 1 - j) by lia. rewrite (H j J).
    transitivity (nth j (rev l ++ repeat z N) z).
    + destruct (Nat.lt_ge_cases j (length (rev l))) as [L|L]; [rewrite app_nth1 by exact L; reflexivity|]. rewrite app_nth2 by exact L. rewrite nth_repeat. apply nth_overflow. exact L.
    + rewrite <- (firstn_skipn N (rev l ++ repeat z N)) at 1. rewrite app_nth1; [reflexivity|]. rewrite firstn_length, app_length, repeat_length. lia.
Qed.

Lemma ring_append N b a n l x : N <> 0 -> ring_ok N b a n l -> b + N <= length a ->
  ring_ok N b (lset a (b + n) x) (if N <=? S n then 0 else S n) (l ++ [x]).
Proof.
  intros N0 (E & H) L. pose proof (Nat.mod_upper_bound (length l) N N0) as U. rewrite <- E in U. split.
  - rewrite app_length. cbn [length]. rewrite Nat.add_1_r, succ_mod by exact N0. rewrite <- E. destruct (Nat.leb_spec N (S n)), (Nat.ltb_spec (S n) N); lia.
  - intros j J. set (n' := if N <=? S n then 0 else S n). assert (Hn : n' < N) by (unfold n'; destruct (Nat.leb_spec N (S n)); lia). rewrite rev_app_distr. cbn [rev app].
    rewrite (pos n' N j Hn J). destruct j as [|j]; cbn [nth].
    + replace (if 0 <? n' then n' - 1 - 0 else n' + N - 1 - 0) with n; [apply nth_lset_same; lia|]. unfold n'. destruct (Nat.leb_spec N (S n)); [cbn [Nat.ltb Nat.leb]|]; [lia|]. cbn [Nat.ltb Nat.leb]. lia.
    + assert (J' : j < N) by lia. rewrite <- (H j J'). rewrite (pos n N j U J').
      assert (Q : (if S j <? n' then n' - 1 - S j else n' + N - 1 - S j) = (if j <? n then n - 1 - j else n + N - 1 - j)).
      { unfold n'. destruct (Nat.leb_spec N (S n)); destruct (Nat.ltb_spec j n); [..|destruct (Nat.ltb_spec (S j) (S n)); lia|destruct (Nat.ltb_spec (S j) (S n)); lia]; cbn [Nat.ltb Nat.leb]; lia. }
      rewrite Q. apply nth_lset_other. destruct (Nat.ltb_spec j n); lia.
Qed.

Lemma ring_other N b a n l i x : N <> 0 -> ring_ok N b a n l -> i < b \/ b + N <= i -> ring_ok N b (lset a i x) n l.
Proof.
  intros N0 (E & H) O. split; [exact E|]. intros j J. rewrite nth_lset_other; [apply H; exact J|]. pose proof (Nat.mod_upper_bound (n + N - 1 - j) N N0). lia.
Qed.

Lemma skipn_nth (l : list T) k i : nth i (skipn k l) z = nth (k + i) l z.
Proof. revert l. induction k as [|k IH]; intros l; [reflexivity|]. destruct l as [|y l]; [destruct i; reflexivity|]. cbn [skipn Nat.add nth]. apply IH. Qed.

Lemma block_full N b a l : N <> 0 -> ring_ok N b a 0 l -> l <> [] -> dv (block z op a b N) (Z.of_nat N) = made op dv z (skipn (length l - N) l).
Proof.
  intros N0 (E & H) NE. assert (LL : N <= length l).
  { destruct (Nat.lt_ge_cases (length l) N) as [Q|Q]; [|exact Q]. rewrite Nat.mod_small in E by exact Q. destruct l; [congruence|discriminate E]. }
  assert (M : map (fun i => nth (b + i) a z) (seq 0 N) = skipn (length l - N) l).
  { apply nth_ext with z z; [rewrite map_length, seq_length, skipn_length; lia|]. intros i I. rewrite map_length, seq_length in I. rewrite nth_map_seq by exact I.
    rewrite skipn_nth. specialize (H (N - 1 - i) ltac:(lia)). cbn [Nat.add] in H. replace (N - 1 - (N - 1 - i)) with i in H by lia. rewrite Nat.mod_small in H by lia. rewrite H.
    rewrite rev_nth by lia. f_equal. lia. }
  rewrite <- M. destruct N as [|n]; [exfalso; apply N0; reflexivity|]. unfold made, block. cbn [seq map length]. rewrite map_length, seq_length, Nat.add_0_r. replace (S n - 1) with n by lia. reflexivity.
Qed.

Lemma blocks_snoc n (f : list T -> T) l x : n <> 0 ->
  blocks n f (l ++ [x]) = if S (length l mod n) <? n then blocks n f l else blocks n f l ++ [f (skipn (length (l ++ [x]) - n) (l ++ [x]))].
Proof.
  intros N. unfold blocks. rewrite app_length. cbn [length]. rewrite Nat.add_1_r, succ_div by exact N. pose proof (Nat.div_mod (length l) n N) as D. pose proof (Nat.mod_upper_bound (length l) n N) as U.
  assert (M : map (fun i => f (firstn n (skipn (i * n) (l ++ [x])))) (seq 0 (length l / n)) = map (fun i => f (firstn n (skipn (i * n) l))) (seq 0 (length l / n))).
  { apply map_ext_in. intros i I. apply in_seq in I. f_equal. rewrite skipn_app, firstn_app. assert (i * n + n <= length l) by nia. rewrite skipn_length.
    replace (n - (length l - i * n)) with 0 by lia. cbn [firstn]. apply app_nil_r. }
  destruct (Nat.ltb_spec (S (length l mod n)) n) as [L|L]; [exact M|]. rewrite seq_S, map_app, M. f_equal. cbn [map Nat.add]. f_equal. f_equal.
  assert (Q : length l / n * n = S (length l) - n).
  { clear M. rewrite (Nat.mul_comm (length l / n) n). generalize dependent (length l mod n). generalize (n * (length l / n)). intros. lia. }
  rewrite Q. apply firstn_all2. rewrite skipn_length, app_length. cbn [length]. lia.
Qed.
Lemma blocks_length n (f : list T -> T) l : length (blocks n f l) = length l / n.
Proof. unfold blocks. rewrite map_length, seq_length. reflexivity. Qed.

Notation F := (made op dv z).
Definition minutes h := blocks 60 F h.
Definition hours h := blocks 60 F (minutes h).
Definition days h := blocks 24 F (hours h).

Definition sinv (ls lm lh ld : list T) (s : series T) : Prop :=
  held s = false /\ length (arr s) = 174 /\ ring_ok 60 0 (arr s) (n_sec s) ls /\ ring_ok 60 60 (arr s) (n_min s) lm /\
  ring_ok 24 120 (arr s) (n_hour s) lh /\ ring_ok 30 144 (arr s) (n_day s) ld.

Lemma ring_bound N b a n l : N <> 0 -> ring_ok N b a n l -> n < N.
Proof. intros H (-> & _). apply Nat.mod_upper_bound. exact H. Qed.

Lemma day_inv ls lm lh ld s x : sinv ls lm lh ld s -> sinv ls lm lh (ld ++ [x]) (append_day s x).
Proof.
  intros (A & B & R1 & R2 & R3 & R4). pose proof (ring_bound 30 144 _ _ _ ltac:(lia) R4) as BD. unfold append_day, sinv. cbn [held arr n_sec n_min n_hour n_day]. rewrite lset_length.
  split; [exact A|]. split; [exact B|]. split; [apply ring_other; [lia|exact R1|lia]|]. split; [apply ring_other; [lia|exact R2|lia]|]. split; [apply ring_other; [lia|exact R3|lia]|].
  apply ring_append; [lia|exact R4|lia].
Qed.

Lemma wrapped N n : n < N -> (N <=? S n) = negb (S n <? N).
Proof. intros H. destruct (Nat.leb_spec N (S n)), (Nat.ltb_spec (S n) N); try reflexivity; lia. Qed.

Lemma hour_inv ls lm lh s x : sinv ls lm lh (blocks 24 F lh) s -> sinv ls lm (lh ++ [x]) (blocks 24 F (lh ++ [x])) (append_hour z op dv s x).
Proof.
  intros (A & B & R1 & R2 & R3 & R4). pose proof (ring_bound 24 120 _ _ _ ltac:(lia) R3) as BD. pose proof (ring_append 24 120 _ _ _ x ltac:(lia) R3 ltac:(lia)) as RA.
  rewrite blocks_snoc by lia. destruct R3 as (E3 & R3). rewrite <- E3. unfold append_hour. rewrite (wrapped 24 _ BD) in *.
  destruct (S (n_hour s) <? 24); cbn [negb] in *.
  - unfold sinv. cbn [held arr n_sec n_min n_hour n_day]. rewrite lset_length. split; [exact A|]. split; [exact B|]. split; [apply ring_other; [lia|exact R1|lia]|].
    split; [apply ring_other; [lia|exact R2|lia]|]. split; [exact RA|apply ring_other; [lia|exact R4|lia]].
  - change 24%Z with (Z.of_nat 24). rewrite (block_full 24 120 _ _ ltac:(lia) RA) by (destruct lh; discriminate). apply day_inv.
    unfold sinv. cbn [held arr n_sec n_min n_hour n_day]. rewrite lset_length. split; [exact A|]. split; [exact B|]. split; [apply ring_other; [lia|exact R1|lia]|].
    split; [apply ring_other; [lia|exact R2|lia]|]. split; [exact RA|apply ring_other; [lia|exact R4|lia]].
Qed.

Lemma minute_inv ls lm s x : sinv ls lm (blocks 60 F lm) (blocks 24 F (blocks 60 F lm)) s ->
  sinv ls (lm ++ [x]) (blocks 60 F (lm ++ [x])) (blocks 24 F (blocks 60 F (lm ++ [x]))) (append_minute z op dv s x).
Proof.
  intros (A & B & R1 & R2 & R3 & R4). pose proof (ring_bound 60 60 _ _ _ ltac:(lia) R2) as BD. pose proof (ring_append 60 60 _ _ _ x ltac:(lia) R2 ltac:(lia)) as RA.
  rewrite blocks_snoc by lia. destruct R2 as (E2 & R2). rewrite <- E2. unfold append_minute. rewrite (wrapped 60 _ BD) in *.
  destruct (S (n_min s) <? 60); cbn [negb] in *.
  - unfold sinv. cbn [held arr n_sec n_min n_hour n_day]. rewrite lset_length. split; [exact A|]. split; [exact B|]. split; [apply ring_other; [lia|exact R1|lia]|].
    split; [exact RA|]. split; [apply ring_other; [lia|exact R3|lia]|apply ring_other; [lia|exact R4|lia]].
  - change 60%Z with (Z.of_nat 60). rewrite (block_full 60 60 _ _ ltac:(lia) RA) by (destruct lm; discriminate). apply hour_inv.
    unfold sinv. cbn [held arr n_sec n_min n_hour n_day]. rewrite lset_length. split; [exact A|]. split; [exact B|]. split; [apply ring_other; [lia|exact R1|lia]|].
    split; [exact RA|]. split; [apply ring_other; [lia|exact R3|lia]|apply ring_other; [lia|exact R4|lia]].
Qed.

Lemma second_inv ls s x : sinv ls (minutes ls) (hours ls) (days ls) s -> sinv (ls ++ [x]) (minutes (ls ++ [x])) (hours (ls ++ [x])) (days (ls ++ [x])) (append z op dv s x).
Proof.
  unfold days, hours, minutes. intros (A & B & R1 & R2 & R3 & R4). pose proof (ring_bound 60 0 _ _ _ ltac:(lia) R1) as BD. pose proof (ring_append 60 0 _ _ _ x ltac:(lia) R1 ltac:(lia)) as RA.
  rewrite blocks_snoc by lia. destruct R1 as (E1 & R1). rewrite <- E1. unfold append. rewrite (wrapped 60 _ BD) in *. change (0 + n_sec s) with (n_sec s) in RA.
  destruct (S (n_sec s) <? 60); cbn [negb] in *.
  - unfold sinv. cbn [held arr n_sec n_min n_hour n_day]. rewrite lset_length. split; [exact A|]. split; [exact B|]. split; [exact RA|]. split; [apply ring_other; [lia|exact R2|lia]|].
    split; [apply ring_other; [lia|exact R3|lia]|apply ring_other; [lia|exact R4|lia]].
  - change 60%Z with (Z.of_nat 60). rewrite (block_full 60 0 _ _ ltac:(lia) RA) by (destruct ls; discriminate). apply minute_inv.
    unfold sinv. cbn [held arr n_sec n_min n_hour n_day]. rewrite lset_length. split; [exact A|]. split; [exact B|]. split; [exact RA|]. split; [apply ring_other; [lia|exact R2|lia]|].
    split; [apply ring_other; [lia|exact R3|lia]|apply ring_other; [lia|exact R4|lia]].
Qed.

Lemma ring_empty N b k : N <> 0 -> ring_ok N b (repeat z k) 0 [].
Proof. intros H. split; [symmetry; apply Nat.mod_small; cbn; lia|]. intros j J. rewrite nth_repeat. destruct j; reflexivity. Qed.

Lemma appends_inv h : sinv h (minutes h) (hours h) (days h) (appends z op dv h).
Proof.
  unfold appends. rewrite <- fold_left_rev_right. rewrite <- (rev_involutive h) at 1 2 3 4. induction (rev h) as [|x l IH].
  - split; [reflexivity|]. split; [reflexivity|]. change (minutes (rev [])) with (@nil T). change (hours (rev [])) with (@nil T). change (days (rev [])) with (@nil T).
    split; [apply ring_empty; lia|]. split; [apply ring_empty; lia|]. split; apply ring_empty; lia.
  - cbn [fold_right rev]. apply second_inv. exact IH.
Qed.

Lemma appends_vectors h : vectors z (appends z op dv h) =
  (latest z 60 h, latest z 60 (minutes h), latest z 24 (hours h), latest z 30 (days h), hd z (rev h)).
Proof.
  destruct (appends_inv h) as (A & B & R1 & R2 & R3 & R4). unfold vectors. rewrite (ring_view _ _ _ _ _ R1), (ring_view _ _ _ _ _ R2), (ring_view _ _ _ _ _ R3), (ring_view _ _ _ _ _ R4).
  f_equal. destruct R1 as (_ & R1). specialize (R1 0 ltac:(lia)). cbn [Nat.add] in R1. replace (n_sec (appends z op dv h) + 60 - 1 - 0) with (n_sec (appends z op dv h) + 59) in R1 by lia. rewrite R1. destruct (rev h); reflexivity.
Qed.

Lemma series_ub h : get_series z (appends z op dv h) = UB.
Proof. destruct (appends_inv h) as (A & _). unfold get_series, lock. rewrite A. reflexivity. Qed.
End Ring.
