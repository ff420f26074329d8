(** Specification of gRPC framing and headers, on plain byte strings (no code of /repo). *)
From Verif.Lib Require Import Base Bytes.
From Coq Require Import Strings.Byte Strings.String Lists.List.
Import ListNotations.
Local Open Scope string_scope.
Local Open Scope list_scope.
Local Open Scope Z_scope.

(** Length-Prefixed-Message of the gRPC protocol: flag, four bytes of length in big-endian order, payload. *)
Definition frame (flag : byte) (payload : list byte) : list byte :=
  flag :: be_enc 4 (Z.of_nat (length payload)) ++ payload.

(** The length announced by a byte string that holds at least a prefix. *)
Definition announced (s : list byte) : Z := be_dec (firstn 4 (skipn 1 s)).

(** No complete frame at the front, lengths compared in unbounded arithmetic. *)
Definition incomplete (s : list byte) : Prop := (length s < 5)%nat \/ Z.of_nat (length s) < 5 + announced s.

Fixpoint frames (l : list (byte * list byte)) : list byte :=
  match l with [] => [] | (c, p) :: r => frame c p ++ frames r end.

(** ** Time-outs: TimeoutValue TimeoutUnit of the gRPC protocol. *)
Fixpoint number (l : list byte) : Z :=
  match l with [] => 0 | b :: r => (b2z b - 48) * 10 ^ Z.of_nat (length r) + number r end.
Definition digits (l : list byte) : Prop := Forall (fun b => 48 <= b2z b <= 57) l.

(** Nanoseconds of one unit. *)
Inductive unit_ns : byte -> Z -> Prop :=
| u_hour : unit_ns x48 3600000000000
| u_minute : unit_ns x4d 60000000000
| u_second : unit_ns x53 1000000000
| u_milli : unit_ns x6d 1000000
| u_micro : unit_ns x75 1000
| u_nano : unit_ns x6e 1.

(** A text of the protocol: one to eight digits and a unit; its duration. *)
Definition timeout_ns (t : list byte) (ns : Z) : Prop :=
  exists ds u k, t = ds ++ [u] /\ ds <> [] /\ (length ds <= 8)%nat /\ digits ds /\ unit_ns u k /\ ns = number ds * k.

(** The microseconds for a duration: nearest, half up, and at least one if it had to be rounded. *)
Definition to_us (ns us : Z) : Prop :=
  (1000 * us - 500 <= ns < 1000 * us + 500 /\ (us <> 0 \/ ns = 0)) \/ (us = 1 /\ 0 <= ns < 500).

(** What the code takes beyond that: white space, a sign, and any number of digits. *)
Definition white (l : list byte) : Prop := Forall (fun b => In b [x20; x09; x0a; x0b; x0c; x0d]) l.
Inductive signed : list byte -> Z -> Prop := s_none : signed [] 1 | s_plus : signed [x2b] 1 | s_minus : signed [x2d] (-1).
Definition loose (t : list byte) (v : Z) (u : byte) : Prop :=
  exists ws sg k ds, t = ws ++ sg ++ ds ++ [u] /\ white ws /\ signed sg k /\ ds <> [] /\ digits ds /\
    ~ 48 <= b2z u <= 57 /\ v = k * number ds.
Definition fits64 (z : Z) : Prop := - 2 ^ 63 <= z < 2 ^ 63.

(** ** Names of content types and encodings; letter case does not matter. *)
Definition lower (b : byte) : byte := if (65 <=? b2z b) && (b2z b <=? 90) then z2b (b2z b + 32) else b.
Definition str (s : String.string) : list byte := String.list_byte_of_string s.
Definition text_default : list byte := str "application/grpc".
Definition text_proto : list byte := str "application/grpc+proto".
Definition text_json : list byte := str "application/grpc+json".
Definition text_gzip : list byte := str "gzip".
Definition text_snappy : list byte := str "snappy".
Definition text_zlib : list byte := str "zlib".

(** Texts of the cases: -1u, -2S, 9223372036854775807S, 1194H. *)
Definition t_minus_1u : list byte := [x2d; x31; x75].
Definition t_minus_2S : list byte := [x2d; x32; x53].
Definition t_max_S : list byte := [x39; x32; x32; x33; x33; x37; x32; x30; x33; x36; x38; x35; x34; x37; x37; x35; x38; x30; x37; x53].
Definition t_1194H : list byte := [x31; x31; x39; x34; x48].
