(** A concrete pb header codec used to show that the theorems' hypotheses can be met and as a
    witness for refutations: four bytes of attachment size followed by the other fields; like
    protobuf, the default message is serialized to nothing and nothing parses to it. *)
From Verif.Lib Require Import Base Bytes.
From Verif.Buffer Require Import Model Machine.
From Verif.TrpcCodec Require Import Model.
Local Open Scope Z_scope.

Record thdr := mk_thdr { t_att : byte * byte * byte * byte; t_rest : list byte }.

Definition t_ser (h : thdr) : list byte :=
  let '(a, b, c, d) := t_att h in
  match a, b, c, d, t_rest h with
  | Byte.x00, Byte.x00, Byte.x00, Byte.x00, [] => []
  | _, _, _, _, _ => a :: b :: c :: d :: t_rest h
  end.

Definition t_parse (l : list byte) : option thdr :=
  match l with
  | [] => Some (mk_thdr (Byte.x00, Byte.x00, Byte.x00, Byte.x00) [])
  | a :: b :: c :: d :: r => Some (mk_thdr (a, b, c, d) r)
  | _ => None
  end.

Definition t_att_size (h : thdr) : Z := let '(a, b, c, d) := t_att h in be_dec [a; b; c; d].

Definition t_set_att (h : thdr) (z : Z) : thdr :=
  mk_thdr (z2b (z / 256 / 256 / 256), z2b (z / 256 / 256), z2b (z / 256), z2b z) (t_rest h).

(** A message with a pb header of 4 + length r bytes and nothing else. *)
Definition big_hdr (r : list byte) : thdr := mk_thdr (Byte.x00, Byte.x00, Byte.x00, Byte.x00) r.
Definition fh0 : fixed_header := mk_fh TRPC_MAGIC 0 0 0 0 7 [Byte.x00; Byte.x00].
Definition big_msg (r : list byte) : message thdr := mk_msg thdr fh0 (big_hdr r) nb_empty nb_empty.

Definition tiny_frame : list byte :=
  [Byte.x09; Byte.x30; Byte.x00; Byte.x00; Byte.x00; Byte.x00; Byte.x00; Byte.x11; Byte.x00; Byte.x00;
   Byte.x00; Byte.x00; Byte.x00; Byte.x05; Byte.x00; Byte.x00; Byte.xff].

