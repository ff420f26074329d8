(** The sizes that survive the trip, exactly. *)
From Verif.Lib Require Import Base Bytes ListX.
From Verif.Buffer Require Import Model Spec Machine Proofs ProofsStreams ProofsMain.
From Verif.TrpcCodec Require Import Model Spec Machine Instance Proofs ProofsChecker ProofsMain.
Local Open Scope Z_scope.

Section X.
  Variable bmax : nat.
  Hypothesis bmax16 : (16 <= bmax)%nat.
  Variable H : Type.
  Variable ser : H -> list byte.
  Variable parse : list byte -> option H.
  Variable att_size : H -> Z.
  Variable set_att : H -> Z -> H.
  Variable m : message H.
  Hypothesis Hfh : fh_wf (m_fh _ m).
  Hypothesis Hb : nb_wf (m_body _ m).
  Hypothesis Ha : nb_wf (m_att _ m).

  Lemma sizes_wf a b : fh_wf (with_sizes (m_fh _ m) (u32 a) (u16 b)).
  Proof.
    unfold fh_wf in *. cbn. pose proof (Z.mod_pos_bound a (2 ^ 32) ltac:(lia)). pose proof (Z.mod_pos_bound b (2 ^ 16) ltac:(lia)).
    unfold u32, u16. tauto.
  Qed.

  (** What decoding the encoded bytes says about the sizes. *)
  Lemma dec_sizes strict fh h body att :
    dec_bytes H parse att_size strict (fh_encode (with_sizes (m_fh _ m) (u32 (enc_total H ser set_att m))
       (u16 (Z.of_nat (length (ser (enc_hdr H set_att m)))))) ++ ser (enc_hdr H set_att m) ++ content (m_body _ m) ++ content (m_att _ m))
      = Ok (Some (fh, h, body, att)) ->
    length body = length (content (m_body _ m)) -> length att = length (content (m_att _ m)) ->
    Z.of_nat (length (ser (enc_hdr H set_att m))) < 2 ^ 16 /\ (strict = true -> enc_total H ser set_att m < 2 ^ 32).
  Proof.
    set (pb := ser (enc_hdr H set_att m)). set (T := enc_total H ser set_att m). set (r := pb ++ content (m_body _ m) ++ content (m_att _ m)).
    pose proof (sizes_wf T (Z.of_nat (length pb))) as Wf. set (f := with_sizes _ _ _) in *.
    assert (Lf : length (fh_encode f) = 16%nat) by (apply fh_encode_length; apply Wf).
    assert (Et : T = 16 + Z.of_nat (length r)).
    { unfold T, enc_total, r. fold pb. destruct Hb as [B1 _], Ha as [A1 _]. rewrite B1, A1, !app_length. lia. }
    assert (Lr : length r = (length pb + (length (content (m_body _ m)) + length (content (m_att _ m))))%nat) by (unfold r; rewrite !app_length; reflexivity).
    clearbody r T. unfold dec_bytes. rewrite fh_parse_encode_wf by exact Wf. rewrite app_length, Lf.
    replace (16 + length r <? 16)%nat with false by (symmetry; apply Nat.ltb_ge; lia).
    replace (skipn 16 (fh_encode f ++ r)) with r by (rewrite <- Lf, skipn_app, skipn_all, Nat.sub_diag; reflexivity).
    change (pb_header_size f) with (u16 (Z.of_nat (length pb))). change (data_frame_size f) with (u32 T).
    assert (Pp : 0 <= u16 (Z.of_nat (length pb))) by (apply Z.mod_pos_bound; lia).
    set (p := u16 (Z.of_nat (length pb))) in *.
    destruct (Z.ltb_spec (Z.of_nat (length r)) p) as [L|L]; [discriminate|].
    destruct (strict && negb (u32 T =? Z.of_nat (16 + length r))) eqn:Es; [discriminate|].
    destruct (parse _) as [h1|]; [|discriminate]. destruct (_ <? _); [discriminate|]. intros E Lb La. injection E as <- <- <- <-.
    rewrite <- (firstn_skipn (length (skipn (Z.to_nat p) r) - Z.to_nat (att_size h1)) (skipn (Z.to_nat p) r)) in Lb at 2.
    assert (Ls : length (skipn (Z.to_nat p) r) = (length (content (m_body _ m)) + length (content (m_att _ m)))%nat).
    { rewrite <- (firstn_skipn (length (skipn (Z.to_nat p) r) - Z.to_nat (att_size h1)) (skipn (Z.to_nat p) r)) at 1. rewrite app_length, La.
      f_equal. rewrite <- Lb. f_equal. rewrite firstn_skipn. reflexivity. }
    rewrite skipn_length in Ls. assert (Ep : p = Z.of_nat (length pb)) by lia. split.
    - rewrite <- Ep. unfold p, u16. apply Z.mod_pos_bound. lia.
    - intros ->. cbn [andb] in Es. apply negb_false_iff, Z.eqb_eq in Es. assert (E32 : u32 T = T) by lia. rewrite <- E32. apply Z.mod_pos_bound. lia.
  Qed.

  Hypothesis Hps : forall h, parse (ser h) = Some h.
  Hypothesis Has : forall h z, 0 <= z < 2 ^ 32 -> att_size (set_att h z) = z.

  Lemma request_exact : exists b, req_encode bmax H ser set_att m = Ok b /\ nb_wf b /\
    forall b', nb_wf b' -> content b' = content b ->
    ((exists m1, req_decode H parse att_size b' = Ok (Some m1) /\ m_hdr _ m1 = enc_hdr H set_att m /\
        content (m_body _ m1) = content (m_body _ m) /\ content (m_att _ m1) = content (m_att _ m)) <->
     Z.of_nat (length (ser (enc_hdr H set_att m))) < 2 ^ 16 /\ enc_total H ser set_att m < 2 ^ 32).
  Proof.
    assert (Hr : length (reversed (m_fh _ m)) = 2%nat) by apply Hfh.
    destruct (req_encode_spec bmax bmax16 H ser set_att m Hr Hb Ha) as (b & E1 & E2 & E3). exists b. split; [exact E1|]. split; [exact E2|].
    intros b' Hw Hc. split.
    - intros (m1 & D & D1 & D2 & D3). destruct (decode_agrees H parse att_size b' Hw) as [A _]. rewrite D, Hc, E3 in A.
      destruct (dec_bytes H parse att_size true _) as [[[[[f h] bo] at1]|]| | |] eqn:Ed; cbn [dec_agrees] in A; try discriminate; try contradiction.
      destruct A as (m2 & [= <-] & A1 & A2 & A3 & A4 & _).
      destruct (dec_sizes _ _ _ _ _ Ed) as [X Y]; [congruence|congruence|]. auto.
    - intros [S1 S2]. destruct (request_roundtrip bmax H ser parse att_size set_att m bmax16 Hps Has Hfh Hb Ha S1 S2) as (b2 & F1 & F2 & F3 & F4).
      assert (b2 = b) by congruence. subst b2. destruct (F4 b' Hw Hc) as (m1 & G1 & G2 & G3 & G4 & _). exists m1. auto.
  Qed.

  (** The receiver's check and decoding together. *)
  Lemma transfer_exact mx : magic_value (m_fh _ m) = TRPC_MAGIC ->
    exists b, req_encode bmax H ser set_att m = Ok b /\
        ((exists rest frame m1, check_message (Some mx) b = Ok (PACKET_FULL, rest, [frame]) /\ content rest = [] /\
        req_decode H parse att_size frame = Ok (Some m1) /\ m_hdr _ m1 = enc_hdr H set_att m /\
        content (m_body _ m1) = content (m_body _ m) /\ content (m_att _ m1) = content (m_att _ m)) <->
     Z.of_nat (length (ser (enc_hdr H set_att m))) < 2 ^ 16 /\ enc_total H ser set_att m < 2 ^ 32 /\ enc_total H ser set_att m <= mx).
  Proof.
    intro Mg. destruct request_exact as (b & E1 & E2 & E3). exists b. split; [exact E1|]. split.
    - intros (rest & frame & m1 & C & R0 & D & D1 & D2 & D3).
      destruct (check_message_spec (Some mx) b E2) as (code & rest' & frames & C' & _ & W & Q & G & _). rewrite C in C'. injection C' as <- <- <-.
      cbn [map concat] in Q. rewrite R0, !app_nil_r in Q. inversion W as [|? ? W1 _]; subst. inversion G as [|? ? G1 _]; subst.
      destruct (proj1 (E3 frame W1 (eq_sym Q))) as [S1 S2]; [exists m1; auto|]. refine (conj S1 (conj S2 _)).
      destruct G1 as (_ & _ & G2 & _ & G3). rewrite G2, <- Q in G3.
      destruct (request_roundtrip bmax H ser parse att_size set_att m bmax16 Hps Has Hfh Hb Ha S1 S2) as (b2 & F1 & _ & F3 & _).
      assert (b2 = b) by congruence. subst b2. lia.
    - intros (S1 & S2 & S3). destruct (encoded_accepted bmax H ser parse att_size set_att m mx bmax16 Hps Has Hfh Mg Hb Ha S1 S2 S3)
        as (b2 & rest & frame & m1 & F1 & F2). assert (b2 = b) by congruence. subst b2. exists rest, frame, m1. exact F2.
  Qed.

  (** A response is not checked against its frame's size. *)
  Lemma response_sizes : exists b, rsp_encode bmax H ser set_att m = Ok b /\ nb_wf b /\
    forall b' m1, nb_wf b' -> content b' = content b -> rsp_decode H parse att_size b' = Ok (Some m1) ->
      content (m_body _ m1) = content (m_body _ m) -> content (m_att _ m1) = content (m_att _ m) ->
      Z.of_nat (length (ser (enc_hdr H set_att m))) < 2 ^ 16.
  Proof.
    assert (Hr : length (reversed (m_fh _ m)) = 2%nat) by apply Hfh.
    destruct (req_encode_spec bmax bmax16 H ser set_att m Hr Hb Ha) as (b & E1 & E2 & E3). exists b. rewrite rsp_encode_same by exact bmax16. split; [exact E1|]. split; [exact E2|].
    intros b' m1 Hw Hc D D2 D3. destruct (decode_agrees H parse att_size b' Hw) as [_ A]. rewrite D, Hc, E3 in A.
    destruct (dec_bytes H parse att_size false _) as [[[[[f h] bo] at1]|]| | |] eqn:Ed; cbn [dec_agrees] in A; try discriminate; try contradiction.
    destruct A as (m2 & [= <-] & A1 & A2 & A3 & A4 & _).
    destruct (dec_sizes _ _ _ _ _ Ed) as [X Y]; [congruence|congruence|]. auto.
  Qed.
End X.
