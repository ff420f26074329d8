(** Vocabulary shared by the statements about the tRPC codec. *)
From Verif.Lib Require Import Base Bytes.
From Verif.Buffer Require Import Model Machine.
From Verif.TrpcCodec Require Import Model.
Local Open Scope Z_scope.

(** Field ranges. *)
Definition fh_wf (h : fixed_header) : Prop :=
  0 <= magic_value h < 2 ^ 16 /\ 0 <= data_frame_type h < 2 ^ 8 /\
  0 <= stream_frame_type h < 2 ^ 8 /\ 0 <= data_frame_size h < 2 ^ 32 /\
  0 <= pb_header_size h < 2 ^ 16 /\ 0 <= stream_id h < 2 ^ 32 /\ length (reversed h) = 2%nat.

(** The header as it is sent: only the attachment size is filled in; and the frame length. *)
Definition enc_hdr H (set_att_size : H -> Z -> H) (m : message H) : H :=
  set_att_size (m_hdr _ m) (Z.of_nat (byte_size (m_att _ m))).
Definition enc_total H (ser : H -> list byte) (set_att_size : H -> Z -> H) (m : message H) : Z :=
  16 + Z.of_nat (length (ser (enc_hdr H set_att_size m))) + Z.of_nat (byte_size (m_body _ m)) +
  Z.of_nat (byte_size (m_att _ m)).

(** A fresh connection. *)
Definition conn0 : conn := mk_conn nb_empty [] false.
