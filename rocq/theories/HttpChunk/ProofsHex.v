(** The size line of a chunk, and that chunked bodies are read in one way only. *)
From Verif Require Import Lib.Base Lib.Bytes Lib.ListX Lib.Decimal HttpCodec.Model HttpChunk.Model HttpChunk.Spec.
From Coq Require Import Strings.Byte.
Open Scope Z_scope.

(** The digit of a value. *)
Definition hd (v : Z) : byte := z2b (if v <? 10 then 48 + v else 87 + v).

Lemma lut_ok : forall v, 0 <= v < 256 ->
  nth_error lut (Z.to_nat (v * 2)) = Some (hd (v / 16)) /\ nth_error lut (Z.to_nat (v * 2) + 1) = Some (hd (v mod 16)).
Proof.
  intros v H.
  assert (A : forallb (fun k => let v := Z.of_nat k in
     match nth_error lut (Z.to_nat (v * 2)), nth_error lut (Z.to_nat (v * 2) + 1) with
     | Some a, Some b => Byte.eqb a (hd (v / 16)) && Byte.eqb b (hd (v mod 16)) | _, _ => false end) (seq 0 256) = true)
    by (vm_compute; reflexivity).
  rewrite forallb_forall in A. specialize (A (Z.to_nat v)). cbv zeta in A. rewrite Z2Nat.id in A by lia.
  assert (I : In (Z.to_nat v) (seq 0 256)) by (apply in_seq; lia). specialize (A I).
  destruct (nth_error lut (Z.to_nat (v * 2))); [|discriminate].
  destruct (nth_error lut (Z.to_nat (v * 2) + 1)); [|discriminate].
  apply andb_true_iff in A. destruct A as [A B].
  destruct (byte_eqb_spec b (hd (v / 16))); [|discriminate]. destruct (byte_eqb_spec b0 (hd (v mod 16))); [|discriminate].
  subst. auto.
Qed.

(** The digits of a number, two for each of [k] bytes. *)
Fixpoint h2 (k : nat) (n : Z) : list byte :=
  match k with
  | O => []
  | S j => h2 j (n / 256) ++ [hd (n mod 256 / 16); hd (n mod 256 mod 16)]
  end.

Lemma h2_length k : forall n, length (h2 k n) = (2 * k)%nat.
Proof. induction k; intros n; cbn [h2]; [reflexivity|]. rewrite app_length, IHk. simpl. lia. Qed.

Lemma h2_zero k : h2 k 0 = repeat x30 (2 * k).
Proof.
  induction k; [reflexivity|]. cbn [h2]. change (0 / 256) with 0. rewrite IHk.
  change [hd (0 mod 256 / 16); hd (0 mod 256 mod 16)] with (repeat x30 2). rewrite <- repeat_app. f_equal. lia.
Qed.

Lemma lset_app {A} (a b : list A) i x : i = length a -> lset (a ++ b) i x = a ++ lset b 0 x.
Proof. intros ->. induction a; simpl; [reflexivity|]. now rewrite IHa. Qed.

Lemma repeat_snoc {A} (x : A) n : repeat x (S n) = repeat x n ++ [x].
Proof. induction n; simpl in *; [reflexivity|]. now rewrite <- IHn. Qed.

Lemma chunk_loop_ok k : forall fuel n tail, 0 <= n < 256 ^ Z.of_nat (S k) -> (S k <= fuel)%nat ->
  chunk_loop fuel n (2 * S k) (repeat x30 (2 * S k) ++ tail) = Ok (h2 (S k) n ++ tail).
Proof.
  induction k; intros fuel n tail H F; (destruct fuel as [|f]; [lia|]); cbn [chunk_loop].
  - change (2 * 1)%nat with 2%nat. cbn [dec_idx bind]. replace (Z.land n 255) with (n mod 256) by (symmetry; apply (Z.land_ones n 8); lia).
    destruct (lut_ok (n mod 256)) as [A B]; [apply Z.mod_pos_bound; lia|].
    unfold rd. rewrite A, B. cbn [bind]. unfold put. simpl length. cbn [Nat.ltb Nat.leb bind lset repeat app dec_idx].
    change (256 ^ Z.of_nat 1) with 256 in H.
    replace (Z.shiftr n 8) with 0 by (rewrite Z.shiftr_div_pow2 by lia; symmetry; apply Z.div_small; lia).
    reflexivity.
  - replace (2 * S (S k))%nat with (S (S (2 * S k))) by lia. cbn [dec_idx bind].
    replace (Z.land n 255) with (n mod 256) by (symmetry; apply (Z.land_ones n 8); lia).
    destruct (lut_ok (n mod 256)) as [A B]; [apply Z.mod_pos_bound; lia|].
    unfold rd. rewrite A, B. cbn [bind]. unfold put. rewrite !app_length, repeat_length.
    replace (S (2 * S k) <? S (S (2 * S k)) + length tail)%nat with true by (symmetry; apply Nat.ltb_lt; lia).
    cbn [bind]. rewrite lset_length, app_length, repeat_length.
    replace (2 * S k <? S (S (2 * S k)) + length tail)%nat with true by (symmetry; apply Nat.ltb_lt; lia).
    cbn [bind].
    set (w := (2 * S k)%nat). rewrite (repeat_snoc x30 (S w)), (repeat_snoc x30 w). rewrite <- !app_assoc.
    rewrite (app_assoc (repeat x30 w)). rewrite lset_app by (rewrite app_length, repeat_length; simpl; lia).
    rewrite <- app_assoc. rewrite lset_app by (rewrite repeat_length; lia).
    cbn [lset app]. rewrite Z.shiftr_div_pow2 by lia. change (2 ^ 8) with 256.
    destruct (n / 256 =? 0) eqn:E.
    + apply Z.eqb_eq in E. cbn [h2]. rewrite E.
      change (h2 k (0 / 256) ++ [hd (0 mod 256 / 16); hd (0 mod 256 mod 16)]) with (h2 (S k) 0).
      rewrite h2_zero. rewrite <- app_assoc. reflexivity.
    + unfold w. rewrite IHk.
      * cbn [h2]. rewrite <- !app_assoc. reflexivity.
      * split; [apply Z.div_pos; lia|]. apply Z.div_lt_upper_bound; [lia|].
        replace (256 ^ Z.of_nat (S (S k))) with (256 * 256 ^ Z.of_nat (S k)) in H
          by (rewrite (Nat2Z.inj_succ (S k)), Z.pow_succ_r by lia; reflexivity). lia.
      * lia.
Qed.

Lemma hd_val v : 0 <= v < 16 -> hex_digit (hd v) = Some v.
Proof.
  intros H. unfold hd, hex_digit. destruct (v <? 10) eqn:E; rewrite b2z_z2b, Z.mod_small by lia.
  - replace (48 <=? 48 + v) with true by lia. replace (48 + v <=? 57) with true by lia. cbn [andb]. f_equal. lia.
  - replace (87 + v <=? 57) with false by lia. rewrite andb_false_r.
    replace (87 + v <=? 70) with false by lia. rewrite andb_false_r.
    replace (97 <=? 87 + v) with true by lia. replace (87 + v <=? 102) with true by lia. cbn [andb]. f_equal. lia.
Qed.

Definition hstep (a : Z) (b : byte) : Z := 16 * a + match hex_digit b with Some v => v | None => 0 end.

Lemma h2_value k : forall n, 0 <= n < 256 ^ Z.of_nat k -> hex_value (h2 k n) = n.
Proof.
  induction k; intros n H.
  - change (256 ^ Z.of_nat 0) with 1 in H. replace n with 0 by lia. reflexivity.
  - cbn [h2]. unfold hex_value. rewrite fold_left_app. fold (hex_value (h2 k (n / 256))).
    rewrite IHk.
    + cbn [fold_left].
      pose proof (Z.mod_pos_bound n 256 ltac:(lia)) as B.
      pose proof (Z.mod_pos_bound (n mod 256) 16 ltac:(lia)) as C.
      pose proof (Z.div_mod n 256 ltac:(lia)). pose proof (Z.div_mod (n mod 256) 16 ltac:(lia)).
      rewrite !hd_val by lia. lia.
    + rewrite Nat2Z.inj_succ, Z.pow_succ_r in H by lia.
      split; [apply Z.div_pos; lia|apply Z.div_lt_upper_bound; lia].
Qed.

Lemma h2_hex k : forall n, Forall (fun b => hex_digit b <> None) (h2 k n).
Proof.
  induction k; intros n; cbn [h2]; [constructor|]. apply Forall_app. split; [apply IHk|].
  pose proof (Z.mod_pos_bound n 256 ltac:(lia)) as B.
  pose proof (Z.mod_pos_bound (n mod 256) 16 ltac:(lia)) as C.
  pose proof (Z.div_mod (n mod 256) 16 ltac:(lia)).
  repeat constructor; rewrite hd_val by lia; discriminate.
Qed.

Lemma hex_digit_0d : hex_digit x0d = None. Proof. reflexivity. Qed.

(** Leading zeros do not count. *)
Lemma skip_zeros l : forall t, Forall (fun b => hex_digit b <> None) l -> l <> [] ->
  exists i, first_not_zero (l ++ x0d :: t) = Some i /\ (i <= length l)%nat /\
    let j := Nat.min i (length l - 1) in
    exists ds, skipn j (l ++ x0d :: t) = ds ++ x0d :: t /\ ds <> [] /\ Forall (fun b => hex_digit b <> None) ds /\
      hex_value ds = hex_value l /\ (forall d r, ds = d :: r -> r <> [] -> d <> x30).
Proof.
  induction l as [|b l IH]; intros t F N; [congruence|]. inversion F as [|? ? F1 F2]; subst.
  cbn [app first_not_zero]. destruct (byte_eqb_spec b x30) as [->|Nb].
  - destruct l as [|c l'].
    + cbn [app first_not_zero]. replace (Byte.eqb x0d x30) with false by reflexivity. simpl option_map.
      exists 1%nat. split; [reflexivity|]. split; [simpl; lia|]. cbv zeta. exists [x30]. simpl.
      repeat split; try congruence; auto.
    + destruct (IH t F2 ltac:(discriminate)) as (i & E & L & ds & S1 & S2 & S3 & S4 & S5).
      cbn [app] in E. cbn [app]. rewrite E. simpl option_map. exists (S i).
      split; [reflexivity|]. split; [simpl in *; lia|]. cbv zeta.
      exists ds. replace (Nat.min (S i) (length (x30 :: c :: l') - 1)) with (S (Nat.min i (length (c :: l') - 1)))
        by (simpl; lia).
      cbn [skipn]. repeat split; auto; try exact S1.
  - exists O. split; [reflexivity|]. split; [lia|]. cbv zeta. rewrite Nat.min_0_l. exists (b :: l). cbn [skipn app].
    repeat split; auto; try discriminate. intros d r E. injection E as <- <-. auto.
Qed.

Lemma chunk_header_ok n : 0 <= n < 2 ^ 64 ->
  exists ds, chunk_header n = Ok (ds ++ crlf) /\ hexnum ds n /\
             (forall d r, ds = d :: r -> r <> [] -> d <> x30).
Proof.
  intros H. unfold chunk_header. cbv zeta.
  rewrite (chunk_loop_ok 7) by (try exact H; lia). cbn [bind].
  assert (N : h2 8 n <> []) by (intros E; apply (f_equal (@length byte)) in E; rewrite h2_length in E; discriminate).
  destruct (skip_zeros (h2 8 n) [x0a] (h2_hex 8 n) N) as (i & E & L & ds & S1 & S2 & S3 & S4 & S5).
  rewrite E. rewrite app_length, h2_length. rewrite h2_length in S1. simpl length.
  change (2 * 8 + 2 - 3)%nat with (2 * 8 - 1)%nat. rewrite S1.
  exists ds. split; [reflexivity|]. split; [|exact S5]. split; [exact S2|]. split; [exact S3|].
  rewrite S4. apply h2_value. exact H.
Qed.

Lemma chunk_ok item : size item < 2 ^ 64 ->
  exists ds, chunk item = Ok (ds ++ crlf ++ item ++ crlf) /\ hexnum ds (size item).
Proof.
  intros H. unfold chunk. assert (E : u64 (blen item) = size item).
  { unfold u64, blen, size in *. apply Z.mod_small. lia. }
  rewrite E. destruct (chunk_header_ok (size item)) as (ds & A & B & _); [unfold size in *; lia|].
  exists ds. rewrite A. cbn [bind]. split; [|exact B]. f_equal. rewrite <- app_assoc. reflexivity.
Qed.

(** ** Reading is unambiguous *)

Lemma hex_prefix a : forall b r s,
  Forall (fun x => hex_digit x <> None) a -> Forall (fun x => hex_digit x <> None) b ->
  a ++ crlf ++ r = b ++ crlf ++ s -> a = b /\ r = s.
Proof.
  induction a as [|x a IH]; intros b r s A B E; destruct b as [|y b]; cbn [app crlf] in E.
  - injection E as E. auto.
  - injection E as E _. inversion B as [|? ? B1 _]. rewrite <- E in B1. exfalso. apply B1. reflexivity.
  - injection E as E _. inversion A as [|? ? A1 _]. rewrite E in A1. exfalso. apply A1. reflexivity.
  - injection E as -> E. inversion A. inversion B. destruct (IH b r s) as [-> ->]; auto.
Qed.

Lemma size_app_split (a b r s : list byte) : size a = size b -> a ++ r = b ++ s -> a = b /\ r = s.
Proof.
  intros L E. assert (L1 : length a = length b) by (unfold size in L; lia). clear L.
  revert b L1 E. induction a as [|x a IH]; intros [|y b] L E; simpl in L; try lia; [auto|].
  simpl in E. injection E as -> E. destruct (IH b) as [-> ->]; auto; lia.
Qed.

Lemma size_nonempty (l : list byte) : l <> [] -> 0 < size l.
Proof. destruct l; [congruence|]. unfold size. simpl. lia. Qed.

Lemma chunked_inj c1 p1 : chunks c1 p1 -> forall c2 p2 z1 z2 r1 r2, chunks c2 p2 ->
  hexnum z1 0 -> hexnum z2 0 ->
  c1 ++ z1 ++ crlf ++ crlf ++ r1 = c2 ++ z2 ++ crlf ++ crlf ++ r2 ->
  p1 = p2 /\ c1 = c2 /\ z1 = z2 /\ r1 = r2.
Proof.
  intros H1. induction H1 as [|d1 x1 e1 q1 N1 M1 T1 IH]; intros c2 p2 z1 z2 r1 r2 H2 (A1 & A2 & A3) (B1 & B2 & B3) E.
  - destruct H2 as [|d2 x2 e2 q2 N2 M2 T2].
    + apply hex_prefix in E; auto. destruct E as [-> E]. repeat split; auto. injection E; auto.
    + exfalso. destruct N2 as (C1 & C2 & C3). cbn [app] in E. rewrite <- !app_assoc in E.
      apply hex_prefix in E; auto. destruct E as [-> _]. pose proof (size_nonempty _ M2). lia.
  - destruct H2 as [|d2 x2 e2 q2 N2 M2 T2].
    + exfalso. destruct N1 as (C1 & C2 & C3). cbn [app] in E. rewrite <- !app_assoc in E.
      apply hex_prefix in E; auto. destruct E as [-> _]. pose proof (size_nonempty _ M1). lia.
    + destruct N1 as (C1 & C2 & C3). destruct N2 as (D1 & D2 & D3). rewrite <- !app_assoc in E.
      apply hex_prefix in E; auto. destruct E as [-> E].
      apply size_app_split in E; [|lia]. destruct E as [-> E]. injection E as E.
      destruct (IH e2 q2 z1 z2 r1 r2) as (-> & -> & -> & ->); auto; repeat split; auto.
Qed.

Lemma unambiguous e1 p1 r1 e2 p2 r2 :
  chunked e1 p1 -> chunked e2 p2 -> e1 ++ r1 = e2 ++ r2 -> e1 = e2 /\ p1 = p2 /\ r1 = r2.
Proof.
  intros (c1 & z1 & A1 & B1 & ->) (c2 & z2 & A2 & B2 & ->) E. rewrite <- !app_assoc in E.
  destruct (chunked_inj c1 p1 A1 c2 p2 z1 z2 r1 r2 A2 B1 B2 E) as (-> & -> & -> & ->). auto.
Qed.

Lemma chunks_app a p b q : chunks a p -> chunks b q -> chunks (a ++ b) (p ++ q).
Proof.
  intros H1 H2. induction H1; [exact H2|]. rewrite <- !app_assoc. constructor; auto.
Qed.

Lemma chunks_one ds d : hexnum ds (size d) -> d <> [] -> chunks (ds ++ crlf ++ d ++ crlf) d.
Proof.
  intros A B. assert (C := chunks_cons ds d [] [] A B chunks_nil). rewrite !app_nil_r in C. exact C.
Qed.

Lemma end_chunked_ok c p : chunks c p -> chunked (c ++ s_end_chunked) p.
Proof.
  intros H. exists c, [x30]. split; [exact H|]. split; [|reflexivity].
  split; [discriminate|]. split; [|reflexivity]. constructor; [discriminate|constructor].
Qed.
