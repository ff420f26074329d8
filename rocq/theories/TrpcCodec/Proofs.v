(** Proofs about the tRPC codec. *)
From Verif.Lib Require Import Base Bytes ListX.
From Verif.Buffer Require Import Model Spec Machine Proofs ProofsStreams ProofsMain.
From Verif.TrpcCodec Require Import Model Spec Machine.
Local Open Scope Z_scope.

(** ** Slices. *)
Lemma slice_app_skip off n a b :
  (length a <= off)%nat -> slice off n (a ++ b) = slice (off - length a) n b.
Proof.
  intros Hl. unfold slice. rewrite skipn_app.
  rewrite skipn_all2 by lia. reflexivity.
Qed.

Lemma slice_app_exact n a b : length a = n -> slice 0 n (a ++ b) = a.
Proof.
  intros Hl. unfold slice. simpl. subst n.
  rewrite firstn_app, Nat.sub_diag, firstn_all. simpl. apply app_nil_r.
Qed.

Lemma slice_app_in off n a b :
  (off + n <= length a)%nat -> slice off n (a ++ b) = slice off n a.
Proof.
  intros Hl. unfold slice. rewrite skipn_app.
  replace (off - length a)%nat with O by lia. simpl.
  rewrite firstn_app, skipn_length. replace (n - (length a - off))%nat with O by lia.
  simpl. apply app_nil_r.
Qed.

Lemma slice_length off n l : (off + n <= length l)%nat -> length (slice off n l) = n.
Proof. intros H. unfold slice. rewrite firstn_length, skipn_length. lia. Qed.

Lemma fh_parse_app p q : (16 <= length p)%nat -> fh_parse (p ++ q) = fh_parse p.
Proof. intros H. unfold fh_parse. rewrite !slice_app_in by lia. reflexivity. Qed.

Lemma fh_encode_length h : length (reversed h) = 2%nat -> length (fh_encode h) = 16%nat.
Proof. intros H. unfold fh_encode. rewrite !app_length, !be_enc_length, H. reflexivity. Qed.

Lemma fh_parse_encode h q :
  length (reversed h) = 2%nat ->
  fh_parse (fh_encode h ++ q) =
  mk_fh (magic_value h mod 2 ^ 16) (data_frame_type h mod 2 ^ 8) (stream_frame_type h mod 2 ^ 8)
        (data_frame_size h mod 2 ^ 32) (pb_header_size h mod 2 ^ 16) (stream_id h mod 2 ^ 32)
        (reversed h).
Proof.
  intros H. unfold fh_parse, fh_encode. rewrite <- !app_assoc.
  pose proof (be_dec_enc 2 (magic_value h)) as D1. pose proof (be_enc_length 2 (magic_value h)) as L1.
  pose proof (be_dec_enc 1 (data_frame_type h)) as D2. pose proof (be_enc_length 1 (data_frame_type h)) as L2.
  pose proof (be_dec_enc 1 (stream_frame_type h)) as D3. pose proof (be_enc_length 1 (stream_frame_type h)) as L3.
  pose proof (be_dec_enc 4 (data_frame_size h)) as D4. pose proof (be_enc_length 4 (data_frame_size h)) as L4.
  pose proof (be_dec_enc 2 (pb_header_size h)) as D5. pose proof (be_enc_length 2 (pb_header_size h)) as L5.
  pose proof (be_dec_enc 4 (stream_id h)) as D6. pose proof (be_enc_length 4 (stream_id h)) as L6.
  revert D1 L1 D2 L2 D3 L3 D4 L4 D5 L5 D6 L6.
  generalize (be_enc 2 (magic_value h)) (be_enc 1 (data_frame_type h)) (be_enc 1 (stream_frame_type h))
    (be_enc 4 (data_frame_size h)) (be_enc 2 (pb_header_size h)) (be_enc 4 (stream_id h)).
  intros a1 a2 a3 a4 a5 a6 D1 L1 D2 L2 D3 L3 D4 L4 D5 L5 D6 L6.
  do 2 (destruct a1 as [|? a1]; [discriminate|]). destruct a1; [|discriminate].
  do 1 (destruct a2 as [|? a2]; [discriminate|]). destruct a2; [|discriminate].
  do 1 (destruct a3 as [|? a3]; [discriminate|]). destruct a3; [|discriminate].
  do 4 (destruct a4 as [|? a4]; [discriminate|]). destruct a4; [|discriminate].
  do 2 (destruct a5 as [|? a5]; [discriminate|]). destruct a5; [|discriminate].
  do 4 (destruct a6 as [|? a6]; [discriminate|]). destruct a6; [|discriminate].
  destruct (reversed h) as [|r1 [|r2 [|]]]; try discriminate.
  cbn [app]. unfold slice. cbn [skipn firstn].
  rewrite D1, D2, D3, D4, D5, D6. reflexivity.
Qed.

Lemma fh_parse_encode_wf h q : fh_wf h -> fh_parse (fh_encode h ++ q) = h.
Proof.
  intros (H1 & H2 & H3 & H4 & H5 & H6 & H7). rewrite fh_parse_encode by auto.
  rewrite !Z.mod_small by auto. destruct h; reflexivity.
Qed.

Lemma fh_encode_parse p : length p = 16%nat -> fh_encode (fh_parse p) = p.
Proof.
  intros H. do 16 (destruct p as [|? p]; [discriminate|]). destruct p; [|discriminate].
  unfold fh_encode, fh_parse, slice. cbn [skipn firstn magic_value data_frame_type
    stream_frame_type data_frame_size pb_header_size stream_id reversed].
  pose proof (be_enc_dec [b; b0]) as E1. pose proof (be_enc_dec [b1]) as E2.
  pose proof (be_enc_dec [b2]) as E3. pose proof (be_enc_dec [b3; b4; b5; b6]) as E4.
  pose proof (be_enc_dec [b7; b8]) as E5. pose proof (be_enc_dec [b9; b10; b11; b12]) as E6.
  cbn [length] in *. rewrite E1, E2, E3, E4, E5, E6. reflexivity.
Qed.

Lemma fh_parse_wf p : (16 <= length p)%nat -> fh_wf (fh_parse p).
Proof.
  intros H. unfold fh_wf, fh_parse; simpl.
  assert (R : forall off n, (off + n <= 16)%nat -> 0 <= be_dec (slice off n p) < 256 ^ Z.of_nat n).
  { intros off n Hn. pose proof (be_dec_range (slice off n p)) as R.
    rewrite slice_length in R by lia. exact R. }
  pose proof (R 0%nat 2%nat ltac:(lia)). pose proof (R 2%nat 1%nat ltac:(lia)).
  pose proof (R 3%nat 1%nat ltac:(lia)). pose proof (R 4%nat 4%nat ltac:(lia)).
  pose proof (R 8%nat 2%nat ltac:(lia)). pose proof (R 10%nat 4%nat ltac:(lia)).
  simpl in *. rewrite slice_length by lia. lia.
Qed.

(** ** Fixed header decoding on buffers. *)
Lemma fh_decode_short b skip :
  nb_wf b -> (length (content b) < 16)%nat -> fh_decode b skip = Ok (None, b).
Proof.
  intros [Hs _] H. unfold fh_decode, prefix_space. rewrite Hs.
  replace (length (content b) <? 16)%nat with true by (symmetry; apply Nat.ltb_lt; lia). reflexivity.
Qed.

Lemma fh_decode_long b skip :
  nb_wf b -> (16 <= length (content b))%nat ->
  exists b', fh_decode b skip = Ok (Some (fh_parse (content b)), b') /\ nb_wf b' /\
             content b' = if skip then skipn 16 (content b) else content b.
Proof.
  intros Hw H. pose proof Hw as [Hs Hf]. unfold fh_decode, prefix_space.
  replace (byte_size b <? 16)%nat with false by (symmetry; apply Nat.ltb_ge; lia).
  unfold nb_first_contiguous. destruct (blocks b) as [|x r] eqn:Eb.
  { unfold content in H. rewrite Eb in H. simpl in H. lia. }
  cbn [bind].
  assert (E : exists p, (if (16 <=? length x)%nat then Ok x else flatten_to_slow b 16) = Ok p /\
              fh_parse p = fh_parse (content b)).
  { destruct (Nat.leb_spec 16 (length x)) as [Hx|Hx].
    - exists x. split; auto. unfold content. rewrite Eb. simpl. symmetry. apply fh_parse_app. lia.
    - exists (firstn 16 (content b)). split.
      + apply flatten_to_slow_spec; auto; lia.
      + rewrite <- (firstn_skipn 16 (content b)) at 2. symmetry. apply fh_parse_app.
        rewrite firstn_length. lia. }
  destruct E as (p & E1 & E2). rewrite E1. cbn [bind]. rewrite E2.
  destruct skip.
  - destruct (nb_skip_spec b 16 Hw ltac:(lia)) as (b' & G1 & G2 & G3). rewrite G1. cbn [bind].
    exists b'. auto.
  - exists b. auto.
Qed.

(** ** Encoding. *)
Section Enc.
  Variable bmax : nat.
  Hypothesis bmax16 : (16 <= bmax)%nat.
  Let bpos : (0 < bmax)%nat.
  Proof. lia. Qed.

  Lemma put_header_and_pb_spec fh pb :
    length (reversed fh) = 2%nat ->
    exists bd, put_header_and_pb bmax fh pb = Ok bd /\ bd_wf bmax bd /\
               bd_content bd = fh_encode fh ++ pb.
  Proof.
    intros Hr. unfold put_header_and_pb.
    destruct (bd_new_spec bmax bpos) as (b0 & H1 & H2 & H3). rewrite H1. cbn [bind].
    destruct (bd_reserve_spec bmax bpos b0 (fh_encode fh) H2) as (b1 & G1 & G2 & G3).
    { rewrite fh_encode_length by auto. lia. }
    rewrite G1. cbn [bind].
    assert (Ho : os_wf bmax (mk_os b1 [])) by (split; [auto|simpl; lia]).
    destruct (os_write_string_spec bmax bpos (length pb) _ pb Ho ltac:(lia)) as (o & E1 & E2 & E3).
    rewrite E1. cbn [bind].
    destruct (os_flush_spec bmax bpos o E2) as (o' & F1 & F2 & F3 & F4).
    rewrite F1. cbn [bind]. exists (os_bd o'). split; auto. split; [apply F2|].
    rewrite F4, E3. unfold os_content. simpl. rewrite app_nil_r, G3, H3. reflexivity.
  Qed.

  Lemma put_body_att_spec bd body att :
    bd_wf bmax bd -> nb_wf body -> nb_wf att ->
    exists b, put_body_att bmax bd body att = Ok b /\ nb_wf b /\
              content b = bd_content bd ++ content body ++ content att.
  Proof.
    intros Hb Hbody Hatt. unfold put_body_att.
    destruct (bd_append_nb_spec bmax bpos bd body Hb Hbody) as (b1 & G1 & G2 & G3).
    rewrite G1. cbn [bind].
    assert (E : exists b2, (if nb_is_empty att then Ok b1 else bd_append_nb bmax b1 att) = Ok b2 /\
                bd_wf bmax b2 /\ bd_content b2 = bd_content b1 ++ content att).
    { unfold nb_is_empty. destruct (byte_size att =? 0)%nat eqn:E.
      - apply Nat.eqb_eq in E. exists b1. split; auto. split; auto.
        destruct Hatt as [Hs _]. assert (content att = []) by (apply nil_length_inv; lia).
        rewrite H, app_nil_r. reflexivity.
      - apply bd_append_nb_spec; auto. }
    destruct E as (b2 & E1 & E2 & E3). rewrite E1. cbn [bind].
    destruct (bd_destructive_get_spec bmax b2 E2) as [D1 D2].
    eexists; split; [reflexivity|]. split; auto. rewrite D1, E3, G3, <- app_assoc. reflexivity.
  Qed.

  Lemma data_encode_spec fh body :
    length (reversed fh) = 2%nat -> nb_wf body -> check_types fh DATA_TYPE = true ->
    exists b, data_encode bmax fh body = Ok (Some b) /\ nb_wf b /\
      content b = fh_encode (with_sizes fh (u32 (16 + Z.of_nat (byte_size body))) (pb_header_size fh))
                  ++ content body.
  Proof.
    intros Hr Hbody Hc. unfold data_encode. rewrite Hc.
    destruct (bd_new_spec bmax bpos) as (b0 & H1 & H2 & H3). rewrite H1. cbn [bind].
    set (fh' := with_sizes _ _ _).
    destruct (bd_reserve_spec bmax bpos b0 (fh_encode fh') H2) as (b1 & G1 & G2 & G3).
    { rewrite fh_encode_length by auto. lia. }
    rewrite G1. cbn [bind].
    destruct (bd_append_nb_spec bmax bpos b1 body G2 Hbody) as (b2 & E1 & E2 & E3).
    rewrite E1. cbn [bind].
    destruct (bd_destructive_get_spec bmax b2 E2) as [D1 D2].
    eexists; split; [reflexivity|]. split; auto. rewrite D1, E3, G3, H3. reflexivity.
  Qed.

  Section Unary.
    Variable H : Type.
    Variable ser : H -> list byte.
    Variable parse : list byte -> option H.
    Variable att_size : H -> Z.
    Variable set_att_size : H -> Z -> H.

    Notation enc_hdr := (enc_hdr H set_att_size).
    Notation enc_total := (enc_total H ser set_att_size).

    Lemma req_encode_spec m :
      length (reversed (m_fh _ m)) = 2%nat -> nb_wf (m_body _ m) -> nb_wf (m_att _ m) ->
      exists b, req_encode bmax H ser set_att_size m = Ok b /\ nb_wf b /\
        content b = fh_encode (with_sizes (m_fh _ m) (u32 (enc_total m))
                                 (u16 (Z.of_nat (length (ser (enc_hdr m)))))) ++
                    ser (enc_hdr m) ++ content (m_body _ m) ++ content (m_att _ m).
    Proof.
      intros Hr Hb Ha. unfold req_encode. fold (enc_hdr m). fold (enc_total m).
      set (fh' := with_sizes _ _ _).
      destruct (put_header_and_pb_spec fh' (ser (enc_hdr m)) Hr) as (bd & G1 & G2 & G3).
      rewrite G1. cbn [bind].
      destruct (put_body_att_spec bd _ _ G2 Hb Ha) as (b & E1 & E2 & E3).
      exists b. split; auto. split; auto. rewrite E3, G3, <- app_assoc. reflexivity.
    Qed.

    Lemma u32_add a b : u32 (u32 a + b) = u32 (a + b).
    Proof. unfold u32. apply Zplus_mod_idemp_l. Qed.

    Lemma u16_u32 a : u16 (u32 a) = u16 a.
    Proof.
      unfold u16, u32. replace (2 ^ 32) with (2 ^ 16 * 2 ^ 16) by reflexivity.
      rewrite (Z.rem_mul_r a (2 ^ 16) (2 ^ 16)) by lia.
      rewrite Z.mul_comm, Z_mod_plus_full. apply Z.mod_mod. lia.
    Qed.

    Lemma rsp_encode_same m :
      rsp_encode bmax H ser set_att_size m = req_encode bmax H ser set_att_size m.
    Proof.
      unfold rsp_encode, req_encode. rewrite u16_u32.
      replace (u32 (16 + u32 (Z.of_nat (length (ser (set_att_size (m_hdr H m) (Z.of_nat (byte_size (m_att H m))))))) +
                    Z.of_nat (byte_size (m_body H m)) + Z.of_nat (byte_size (m_att H m))))
        with (u32 (16 + Z.of_nat (length (ser (set_att_size (m_hdr H m) (Z.of_nat (byte_size (m_att H m)))))) +
                    Z.of_nat (byte_size (m_body H m)) + Z.of_nat (byte_size (m_att H m)))).
      - reflexivity.
      - unfold u32. set (x := Z.of_nat (length _)). set (y := Z.of_nat (byte_size (m_body H m))).
        set (z := Z.of_nat (byte_size (m_att H m))).
        replace (16 + x mod 2 ^ 32 + y + z) with (x mod 2 ^ 32 + (16 + y + z)) by lia.
        replace (16 + x + y + z) with (x + (16 + y + z)) by lia.
        symmetry. apply Zplus_mod_idemp_l.
    Qed.

    (** *** Decoding depends only on the bytes. *)
    Definition dec_bytes (strict : bool) (c : list byte)
      : out (option (fixed_header * H * list byte * list byte)) :=
      if (length c <? 16)%nat then Ok None
      else
        let fh := fh_parse c in
        let r := skipn 16 c in
        if Z.of_nat (length r) <? pb_header_size fh then UB
        else
          let pb := firstn (Z.to_nat (pb_header_size fh)) r in
          let r2 := skipn (Z.to_nat (pb_header_size fh)) r in
          if strict && negb (data_frame_size fh =? Z.of_nat (length c)) then Ok None
          else match parse pb with
          | None => Ok None
          | Some h =>
              if Z.of_nat (length r2) <? att_size h then Ok None
              else
                let k := (length r2 - Z.to_nat (att_size h))%nat in
                Ok (Some (fh, h, firstn k r2, skipn k r2))
          end.

    Definition dec_agrees (x : out (option (message H)))
      (y : out (option (fixed_header * H * list byte * list byte))) : Prop :=
      match y with
      | Ok None => x = Ok None
      | Ok (Some (fh, h, body, att)) =>
          exists m, x = Ok (Some m) /\ m_fh _ m = fh /\ m_hdr _ m = h /\
            content (m_body _ m) = body /\ content (m_att _ m) = att /\
            nb_wf (m_body _ m) /\ nb_wf (m_att _ m)
      | UB => x = UB
      | _ => False
      end.

    Lemma pb_parse_spec meta : nb_wf meta -> pb_parse parse meta = Ok (parse (content meta)).
    Proof. clear bpos bmax16 ser set_att_size.
      intros Hm. unfold pb_parse. pose proof Hm as [Hs _]. rewrite Hs.
      destruct (input_stream_read_all meta Hm) as (i & E). rewrite E. reflexivity.
    Qed.

    Lemma dec_tail (fh : fixed_header) h b2 :
      nb_wf b2 ->
      dec_agrees
        (if Z.of_nat (byte_size b2) <? att_size h then Ok None
         else (bind (nb_cut b2 (byte_size b2 - Z.to_nat (att_size h)))
                (fun '(body, att) => Ok (Some (mk_msg H fh h body att)))))
        (if Z.of_nat (length (content b2)) <? att_size h then Ok None
         else
           let k := (length (content b2) - Z.to_nat (att_size h))%nat in
           Ok (Some (fh, h, firstn k (content b2), skipn k (content b2)))).
    Proof. clear bpos bmax16 ser set_att_size.
      intros Hw. pose proof Hw as [Hs _]. rewrite Hs.
      destruct (Z.of_nat (length (content b2)) <? att_size h); [reflexivity|].
      destruct (nb_cut_spec b2 (length (content b2) - Z.to_nat (att_size h)) Hw ltac:(lia))
        as (body & att & E1 & E2 & E3 & E4 & E5).
      rewrite E1. cbn [bind]. simpl. exists (mk_msg H fh h body att). simpl. auto 10.
    Qed.

    Lemma decode_agrees b :
      nb_wf b ->
      dec_agrees (req_decode H parse att_size b) (dec_bytes true (content b)) /\
      dec_agrees (rsp_decode H parse att_size b) (dec_bytes false (content b)).
    Proof. clear bpos bmax16 ser set_att_size.
      intros Hw. unfold req_decode, rsp_decode, dec_bytes.
      destruct (Nat.ltb_spec (length (content b)) 16) as [Hlt|Hge].
      { rewrite fh_decode_short by auto. split; reflexivity. }
      destruct (fh_decode_long b true Hw Hge) as (b1 & E1 & Hw1 & Hc1). rewrite E1. cbn [bind].
      set (fh := fh_parse (content b)) in *.
      assert (Hfh : fh_wf fh) by (apply fh_parse_wf; lia).
      destruct Hfh as (_ & _ & _ & _ & Hphs & _).
      rewrite <- Hc1.
      destruct (Z.ltb_spec (Z.of_nat (length (content b1))) (pb_header_size fh)) as [Hx|Hx].
      { destruct (past_end_undefined b1 (Z.to_nat (pb_header_size fh)) Hw1 ltac:(lia)) as [_ Hcut].
        rewrite Hcut. split; reflexivity. }
      pose proof Hw1 as [Hs1 _].
      destruct (nb_cut_spec b1 (Z.to_nat (pb_header_size fh)) Hw1 ltac:(lia))
        as (meta & b2 & C1 & C2 & C3 & C4 & C5).
      rewrite C1. cbn [bind]. rewrite (pb_parse_spec meta C4). cbn [bind].
      rewrite <- C2, <- C3. pose proof C5 as [Hs2 _].
      assert (Hlen : 16 + pb_header_size fh + Z.of_nat (byte_size b2) = Z.of_nat (length (content b))).
      { rewrite Hs2, C3, skipn_length, Hc1, skipn_length.
        rewrite Hc1, skipn_length in Hx. lia. }
      rewrite Hlen. cbn [andb].
      split.
      - destruct (negb (data_frame_size fh =? Z.of_nat (length (content b)))); [reflexivity|].
        destruct (parse (content meta)) as [h|]; [|reflexivity]. apply dec_tail; auto.
      - destruct (parse (content meta)) as [h|]; [|reflexivity]. apply dec_tail; auto.
    Qed.

    (** The bytes of a message with consistent sizes decode to it. *)
    Hypothesis parse_ser : forall h, parse (ser h) = Some h.
    Hypothesis att_set : forall h z, 0 <= z < 2 ^ 32 -> att_size (set_att_size h z) = z.

    Lemma dec_bytes_frame strict fh h body att :
      length (reversed fh) = 2%nat ->
      0 <= magic_value fh < 2 ^ 16 -> 0 <= data_frame_type fh < 2 ^ 8 ->
      0 <= stream_frame_type fh < 2 ^ 8 -> 0 <= stream_id fh < 2 ^ 32 ->
      Z.of_nat (length (ser h)) < 2 ^ 16 -> att_size h = Z.of_nat (length att) ->
      let total := 16 + Z.of_nat (length (ser h)) + Z.of_nat (length body) + Z.of_nat (length att) in
      total < 2 ^ 32 ->
      let fh' := with_sizes fh (u32 total) (u16 (Z.of_nat (length (ser h)))) in
      dec_bytes strict (fh_encode fh' ++ ser h ++ body ++ att) = Ok (Some (fh', h, body, att)).
    Proof. clear bpos bmax16.
      intros Hr Hm Hd Hst Hsid Hser Hatt total Htot fh'. unfold dec_bytes.
      assert (Hfh : fh_wf fh').
      { unfold fh_wf, fh', u32, u16; simpl. repeat split; auto; try lia;
        try (apply Z.mod_pos_bound; lia); try (apply Z.mod_pos_bound; reflexivity). }
      assert (Hle : length (fh_encode fh') = 16%nat) by (apply fh_encode_length; auto).
      rewrite fh_parse_encode_wf by auto.
      rewrite !app_length, Hle.
      replace (16 + _ <? 16)%nat with false by (symmetry; apply Nat.ltb_ge; lia).
      replace (skipn 16 (fh_encode fh' ++ ser h ++ body ++ att)) with (ser h ++ body ++ att)
        by (rewrite <- Hle; rewrite skipn_app, skipn_all, Nat.sub_diag; reflexivity).
      assert (Hphs : pb_header_size fh' = Z.of_nat (length (ser h))).
      { simpl. unfold u16. apply Z.mod_small. lia. }
      assert (Hdfs : data_frame_size fh' = total).
      { simpl. unfold u32. apply Z.mod_small. lia. }
      rewrite Hphs, Hdfs, Nat2Z.id, !app_length.
      replace (Z.of_nat (length (ser h) + (length body + length att)) <? Z.of_nat (length (ser h)))
        with false by lia.
      replace (total =? Z.of_nat (16 + (length (ser h) + (length body + length att)))) with true
        by (unfold total; lia).
      rewrite andb_false_r.
      rewrite firstn_app, firstn_all, Nat.sub_diag. simpl firstn. rewrite app_nil_r.
      rewrite parse_ser.
      rewrite skipn_app, skipn_all, Nat.sub_diag. cbn [app skipn]. rewrite app_length.
      rewrite Hatt, Nat2Z.id.
      replace (Z.of_nat (length body + length att) <? Z.of_nat (length att)) with false by lia.
      replace (length body + length att - length att)%nat with (length body) by lia.
      rewrite firstn_app, firstn_all, Nat.sub_diag. simpl firstn. rewrite app_nil_r.
      rewrite skipn_app, skipn_all, Nat.sub_diag. reflexivity.
    Qed.

    Lemma roundtrip m :
      fh_wf (m_fh _ m) -> nb_wf (m_body _ m) -> nb_wf (m_att _ m) ->
      Z.of_nat (length (ser (enc_hdr m))) < 2 ^ 16 ->
      enc_total m < 2 ^ 32 ->
      exists b, req_encode bmax H ser set_att_size m = Ok b /\
        rsp_encode bmax H ser set_att_size m = Ok b /\ nb_wf b /\
        Z.of_nat (length (content b)) = enc_total m /\
        forall b', nb_wf b' -> content b' = content b ->
        (exists m1, req_decode H parse att_size b' = Ok (Some m1) /\
          m_hdr _ m1 = enc_hdr m /\ content (m_body _ m1) = content (m_body _ m) /\
          content (m_att _ m1) = content (m_att _ m) /\
          stream_id (m_fh _ m1) = stream_id (m_fh _ m)) /\
        (exists m2, rsp_decode H parse att_size b' = Ok (Some m2) /\
          m_hdr _ m2 = enc_hdr m /\ content (m_body _ m2) = content (m_body _ m) /\
          content (m_att _ m2) = content (m_att _ m) /\
          stream_id (m_fh _ m2) = stream_id (m_fh _ m)).
    Proof.
      intros (F1 & F2 & F3 & F4 & F5 & F6 & F7) Hb Ha Hpb Htot.
      destruct (req_encode_spec m F7 Hb Ha) as (b & E1 & E2 & E3).
      exists b. split; auto. split; [rewrite rsp_encode_same; auto|]. split; auto.
      pose proof Hb as [Hsb _]. pose proof Ha as [Hsa _].
      split.
      { rewrite E3, !app_length, fh_encode_length by auto. unfold enc_total in *. lia. }
      intros b' Hw' Hc'. destruct (decode_agrees b' Hw') as [D1 D2].
      rewrite Hc', E3 in D1, D2.
      assert (Hd : forall strict, dec_bytes strict
                 (fh_encode (with_sizes (m_fh H m) (u32 (enc_total m)) (u16 (Z.of_nat (length (ser (enc_hdr m)))))) ++
                  ser (enc_hdr m) ++ content (m_body H m) ++ content (m_att H m)) =
               Ok (Some (with_sizes (m_fh H m) (u32 (enc_total m)) (u16 (Z.of_nat (length (ser (enc_hdr m))))),
                         enc_hdr m, content (m_body H m), content (m_att H m)))).
      { intros strict. unfold enc_total in *. rewrite Hsb, Hsa in *. apply dec_bytes_frame; auto.
        unfold enc_hdr. rewrite <- Hsa. apply att_set. lia. }
      rewrite Hd in D1, D2. simpl in D1, D2.
      destruct D1 as (m1 & G1 & G2 & G3 & G4 & G5 & _). destruct D2 as (m2 & K1 & K2 & K3 & K4 & K5 & _).
      split; [exists m1|exists m2]; repeat split; auto.
      - rewrite G2. reflexivity.
      - rewrite K2. reflexivity.
    Qed.
  End Unary.

  Section Stream.
    Variable M : Type.
    Variable ser : M -> list byte.
    Variable parse : list byte -> option M.

    Lemma meta_encode_spec k fh m :
      length (reversed fh) = 2%nat -> check_types fh (sframe_type k) = true ->
      exists b, meta_encode bmax M ser k fh m = Ok (Some b) /\ nb_wf b /\
        content b = fh_encode (with_sizes fh (u32 (16 + Z.of_nat (length (ser m)))) (pb_header_size fh)) ++ ser m.
    Proof.
      intros Hr Hc. unfold meta_encode. rewrite Hc. set (fh' := with_sizes _ _ _).
      destruct (put_header_and_pb_spec fh' (ser m) Hr) as (bd & G1 & G2 & G3).
      rewrite G1. cbn [bind]. destruct (bd_destructive_get_spec bmax bd G2) as [D1 D2].
      eexists; split; [reflexivity|]. split; auto. congruence.
    Qed.

    Lemma meta_decode_spec k b fh q :
      nb_wf b -> content b = fh_encode fh ++ q -> fh_wf fh ->
      data_frame_size fh = 16 + Z.of_nat (length q) ->
      meta_decode M parse k b =
        Ok (match parse q with
            | None => None
            | Some m => if check_types fh (sframe_type k) then Some (fh, m) else None
            end).
    Proof. clear bpos bmax16.
      intros Hw Hc Hfh Hd. unfold meta_decode.
      assert (Hle : length (fh_encode fh) = 16%nat) by (apply fh_encode_length; apply Hfh).
      destruct (fh_decode_long b true Hw) as (b1 & E1 & Hw1 & Hc1).
      { rewrite Hc, app_length. lia. }
      rewrite E1. cbn [bind]. rewrite Hc, fh_parse_encode_wf by auto.
      assert (Hq : content b1 = q).
      { rewrite Hc1, Hc. rewrite <- Hle, skipn_app, skipn_all, Nat.sub_diag. reflexivity. }
      rewrite Hd. replace (16 + Z.of_nat (length q) - 16) with (Z.of_nat (length q)) by lia.
      assert (Hrange : 0 <= data_frame_size fh < 2 ^ 32) by apply Hfh.
      rewrite Z.mod_small by lia.
      pose proof Hw1 as [Hs1 _]. rewrite Hs1, Hq.
      replace (Z.of_nat (length q) <? Z.of_nat (length q)) with false by lia.
      rewrite Nat2Z.id.
      destruct (nb_cut_spec b1 (length q) Hw1 ltac:(rewrite Hs1, Hq; lia))
        as (meta & b2 & C1 & C2 & C3 & C4 & C5).
      rewrite C1. cbn [bind]. rewrite (pb_parse_spec M parse meta C4). cbn [bind].
      rewrite C2, Hq, firstn_all. destruct (parse q); auto.
      destruct (check_types fh (sframe_type k)); reflexivity.
    Qed.
  End Stream.
End Enc.

Lemma data_decode_spec b fh q :
  nb_wf b -> content b = fh_encode fh ++ q -> fh_wf fh ->
  data_frame_size fh = 16 + Z.of_nat (length q) ->
  exists body, data_decode b = Ok (Some (fh, body)) /\ content body = q /\ nb_wf body.
Proof.
  intros Hw Hc Hfh Hd. unfold data_decode.
  assert (Hle : length (fh_encode fh) = 16%nat) by (apply fh_encode_length; apply Hfh).
  destruct (fh_decode_long b true Hw) as (b1 & E1 & Hw1 & Hc1).
  { rewrite Hc, app_length. lia. }
  rewrite E1. cbn [bind]. rewrite Hc, fh_parse_encode_wf by auto.
  assert (Hq : content b1 = q).
  { rewrite Hc1, Hc. rewrite <- Hle, skipn_app, skipn_all, Nat.sub_diag. reflexivity. }
  rewrite Hd. replace (16 + Z.of_nat (length q) - 16) with (Z.of_nat (length q)) by lia.
  assert (Hrange : 0 <= data_frame_size fh < 2 ^ 32) by apply Hfh.
  rewrite Z.mod_small by lia.
  pose proof Hw1 as [Hs1 _]. unfold nb_cut_z. rewrite Hs1, Hq.
  replace (Z.of_nat (length q) <=? Z.of_nat (length q)) with true by lia. rewrite Nat2Z.id.
  destruct (nb_cut_spec b1 (length q) Hw1 ltac:(rewrite Hs1, Hq; lia))
    as (body & b2 & C1 & C2 & C3 & C4 & C5).
  rewrite C1. cbn [bind]. exists body. split; auto. split; auto. rewrite C2, Hq, firstn_all. reflexivity.
Qed.
