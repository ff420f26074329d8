(** Bytes and big-endian machine integers (no code of /repo; shared vocabulary). *)
From Verif.Lib Require Import Base.
From Coq Require Import Strings.Byte NArith.
Local Open Scope Z_scope.

Notation byte := Byte.byte.

(** Unsigned value of a byte. *)
Definition b2z (b : byte) : Z := Z.of_N (Byte.to_N b).

(** Byte with a given value modulo 256 (conversion of an integer to uint8_t). *)
Definition z2b (z : Z) : byte :=
  match Byte.of_N (Z.to_N (z mod 256)) with Some b => b | None => x00 end.

Lemma b2z_range (b : byte) : 0 <= b2z b < 256.
Proof. unfold b2z. pose proof (Byte.to_N_bounded b). lia. Qed.

Lemma b2z_z2b (z : Z) : b2z (z2b z) = z mod 256.
Proof.
  unfold b2z, z2b.
  assert (H : 0 <= z mod 256 < 256) by (apply Z.mod_pos_bound; lia).
  destruct (Byte.of_N (Z.to_N (z mod 256))) eqn:E.
  - apply Byte.to_of_N in E. rewrite E. lia.
  - apply Byte.of_N_None_iff in E. lia.
Qed.

Lemma z2b_b2z (b : byte) : z2b (b2z b) = b.
Proof.
  unfold z2b. rewrite Z.mod_small by apply b2z_range.
  unfold b2z. rewrite N2Z.id. rewrite Byte.of_to_N. reflexivity.
Qed.

Lemma b2z_inj (a b : byte) : b2z a = b2z b -> a = b.
Proof. intros H. rewrite <- (z2b_b2z a), <- (z2b_b2z b), H. reflexivity. Qed.

Lemma byte_eqb_spec (a b : byte) : reflect (a = b) (Byte.eqb a b).
Proof.
  destruct (Byte.eqb a b) eqn:E; constructor.
  - apply Byte.byte_dec_bl; exact E.
  - intros ->. rewrite (Byte.byte_dec_lb eq_refl) in E. discriminate.
Qed.

(** Big-endian encoding of the low [8*n] bits of [z]. *)
Fixpoint be_enc (n : nat) (z : Z) : list byte :=
  match n with
  | O => []
  | S k => be_enc k (z / 256) ++ [z2b z]
  end.

(** Value of a big-endian byte string. *)
Definition be_dec (l : list byte) : Z := fold_left (fun acc b => acc * 256 + b2z b) l 0.

Lemma be_enc_length n z : length (be_enc n z) = n.
Proof.
  revert z; induction n as [|n IH]; intros z; simpl; auto.
  rewrite app_length, IH. simpl. lia.
Qed.

Lemma be_dec_snoc l b : be_dec (l ++ [b]) = be_dec l * 256 + b2z b.
Proof. unfold be_dec. rewrite fold_left_app. reflexivity. Qed.

Lemma be_dec_enc n z : be_dec (be_enc n z) = z mod 256 ^ Z.of_nat n.
Proof.
  revert z; induction n as [|n IH]; intros z.
  - simpl. rewrite Z.mod_1_r. reflexivity.
  - cbn [be_enc]. rewrite be_dec_snoc, IH, b2z_z2b.
    rewrite Nat2Z.inj_succ, Z.pow_succ_r by lia.
    rewrite Z.rem_mul_r by lia. lia.
Qed.

Lemma be_dec_range l : 0 <= be_dec l < 256 ^ Z.of_nat (length l).
Proof.
  induction l as [|b l IH] using rev_ind.
  - simpl. unfold be_dec; simpl. lia.
  - rewrite be_dec_snoc, app_length. simpl length.
    pose proof (b2z_range b).
    replace (Z.of_nat (length l + 1)) with (Z.succ (Z.of_nat (length l))) by lia.
    rewrite Z.pow_succ_r by lia. lia.
Qed.

Lemma be_enc_dec l : be_enc (length l) (be_dec l) = l.
Proof.
  induction l as [|b l IH] using rev_ind.
  - reflexivity.
  - rewrite app_length. simpl length. rewrite Nat.add_1_r. cbn [be_enc].
    rewrite be_dec_snoc. pose proof (b2z_range b) as Hb.
    replace ((be_dec l * 256 + b2z b) / 256) with (be_dec l)
      by (rewrite Z.div_add_l by lia; rewrite Z.div_small by lia; lia).
    rewrite IH. f_equal. f_equal.
    apply b2z_inj. rewrite b2z_z2b.
    rewrite Z.add_comm, Z_mod_plus_full. apply Z.mod_small; lia.
Qed.
