(** Specification of the tRPC wire format, on plain byte strings. *)
From Verif.Lib Require Import Base Bytes.
Local Open Scope Z_scope.

(** Byte range [off, off + n) of a string. *)
Definition bytes_at (off n : nat) (l : list byte) : list byte := firstn n (skipn off l).

(** What the protocol document says about a frame: bytes 0-1 are 0x09 0x30, bytes 4-7 hold the
    total length, bytes 8-9 the pb header length. *)
Definition declared_size (l : list byte) : Z := be_dec (bytes_at 4 4 l).
Definition declared_pb (l : list byte) : Z := be_dec (bytes_at 8 2 l).

(** A complete well-formed frame, no larger than [maxp] if there is a limit. *)
Definition good_frame (maxp : option Z) (f : list byte) : Prop :=
  (16 <= length f)%nat /\ firstn 2 f = [Byte.x09; Byte.x30] /\
  declared_size f = Z.of_nat (length f) /\ 16 + declared_pb f <= declared_size f /\
  match maxp with Some mx => declared_size f <= mx | None => True end.

(** The beginning of a well-formed frame that has not fully arrived. *)
Definition partial_frame (maxp : option Z) (r : list byte) : Prop :=
  r = [] \/ exists rest, rest <> [] /\ good_frame maxp (r ++ rest).

(** What remains in the buffer when more bytes are needed: less than a fixed header, or an
    acceptable header whose frame is incomplete. *)
Definition needs_more (maxp : option Z) (r : list byte) : Prop :=
  (length r < 16)%nat \/
  ((16 <= length r)%nat /\ firstn 2 r = [Byte.x09; Byte.x30] /\ 16 + declared_pb r <= declared_size r /\
   match maxp with Some mx => declared_size r <= mx | None => True end /\
   Z.of_nat (length r) < declared_size r).

(** A head that can never become a well-formed frame. *)
Definition bad_head (maxp : option Z) (r : list byte) : Prop :=
  (16 <= length r)%nat /\
  (firstn 2 r <> [Byte.x09; Byte.x30] \/ declared_size r < 16 + declared_pb r \/
   match maxp with Some mx => mx < declared_size r | None => False end).

(** The wire image of a unary message. *)
Definition frame_bytes (dft sft pbs sid : Z) (rsv pb body att : list byte) : list byte :=
  [Byte.x09; Byte.x30] ++ [z2b dft] ++ [z2b sft] ++
  be_enc 4 (16 + Z.of_nat (length pb + length body + length att)) ++ be_enc 2 pbs ++ be_enc 4 sid ++
  rsv ++ pb ++ body ++ att.
