(** Messages on a connection: heads with fields and bodies with a length or in chunks (RFC 9112), and what is
    assumed of picohttpparser. *)
From Coq Require Import Strings.String.
From Verif Require Import Lib.Base Lib.Bytes HttpFrame.Model.
From Coq Require Import Strings.Byte.
Open Scope Z_scope.

Definition size (l : list byte) : Z := Z.of_nat (length l).
Definition crlf : list byte := [x0d; x0a].

(** The values of the fields with a name, whatever the case of its letters. *)
Definition low (b : byte) : Z := if (65 <=? b2z b) && (b2z b <=? 90) then b2z b + 32 else b2z b.
Fixpoint values (name : string) (f : list field) : list (list byte) :=
  match f with
  | [] => []
  | (k, v) :: r =>
      if list_eq_dec Z.eq_dec (map low k) (map low (list_byte_of_string name)) then v :: values name r
      else values name r
  end.
Definition te (f : list field) : list (list byte) := values "transfer-encoding" f.
Definition cl (f : list field) : list (list byte) := values "content-length" f.

Definition decnum (l : list byte) (n : Z) : Prop :=
  l <> [] /\ Forall (fun b => 48 <= b2z b <= 57) l /\ fold_left (fun a b => 10 * a + (b2z b - 48)) l 0 = n.

(** Chunked bodies, with sizes of at most 16 digits and without trailers. *)
Definition hex_digit (b : byte) : option Z :=
  if (48 <=? b2z b) && (b2z b <=? 57) then Some (b2z b - 48)
  else if (65 <=? b2z b) && (b2z b <=? 70) then Some (b2z b - 55)
  else if (97 <=? b2z b) && (b2z b <=? 102) then Some (b2z b - 87)
  else None.
Definition hexnum (l : list byte) (n : Z) : Prop :=
  l <> [] /\ (length l <= 16)%nat /\ Forall (fun b => hex_digit b <> None) l /\
  fold_left (fun a b => 16 * a + match hex_digit b with Some v => v | None => 0 end) l 0 = n.
Inductive chunked : list byte -> list byte -> Prop :=
| chunked_end z : hexnum z 0 -> chunked (z ++ crlf ++ crlf) []
| chunked_more ds data e p :
    hexnum ds (size data) -> data <> [] -> chunked e p -> chunked (ds ++ crlf ++ data ++ crlf ++ e) (data ++ p).

(** The body [e] of a message with the fields [f], and what it carries. *)
Inductive framed (f : list field) : list byte -> list byte -> Prop :=
| framed_none : te f = [] -> cl f = [] -> framed f [] []
| framed_length v p : te f = [] -> cl f = [v] -> decnum v (size p) -> size p < 2 ^ 63 -> framed f p p
| framed_chunked e p : te f <> [] -> cl f = [] -> chunked e p -> framed f e p.

(** A decoder takes exactly these bytes and gives that data. *)
Inductive decodes (L : lib) : dec L -> list byte -> list byte -> Prop :=
| decodes_end d b o : d_step L d b = DDone o -> decodes L d [b] o
| decodes_more d b d1 o e p : d_step L d b = DMore d1 o -> decodes L d1 e p -> decodes L d (b :: e) (o ++ p).

(** What is assumed of picohttpparser: a head is decided by its own bytes, an error stays an error, what
    has an empty line is no incomplete head, and the decoder reads chunked bodies. *)
Definition stable (h : list byte -> hres) : Prop :=
  (forall b n f x, h b = HOk n f -> h (b ++ x) = HOk n f) /\
  (forall b n f, h b = HOk n f -> (1 <= n <= length b)%nat) /\
  (forall b x, h b = HErr -> h (b ++ x) = HErr) /\
  (forall b, h (b ++ crlf ++ crlf) <> HMore).
Record lawful (L : lib) : Prop := {
  l_head : stable (p_head L);
  l_rhead : stable (p_rhead L);
  l_dec : forall e p, chunked e p -> decodes L (d_init L) e p
}.
(** Heads end with an empty line whose line ends are both CR LF. *)
Definition strict (h : list byte -> hres) : Prop :=
  forall b n f, h b = HOk n f -> exists x y, b = x ++ crlf ++ crlf ++ y.

(** How much a connection takes: the configured size, or as much as size_t can say. *)
Definition room (mp : Z) : Z := if mp <=? 0 then 2 ^ 64 - 2 else mp.

(** A message: head, fields, body, payload. *)
Record msg := { m_head : list byte; m_flds : list field; m_body : list byte; m_load : list byte }.
Definition bytes_of (m : msg) : list byte := m_head m ++ m_body m.
Definition well_formed (h : list byte -> hres) (m : msg) : Prop :=
  h (m_head m) = HOk (length (m_head m)) (m_flds m) /\ framed (m_flds m) (m_body m) (m_load m).
(** On a blocking connection only the head has to fit. *)
Definition fits (mp : Z) (blk : bool) (m : msg) : Prop :=
  16 <= size (m_head m) /\
  (if blk then size (m_head m) <= room mp else size (m_head m) + size (m_load m) <= room mp).
Definition request_of (m : msg) : req :=
  {| flds := m_flds m; cont := m_load m; eof := true; pushes := 1 |}.

(** The library, the limit and the input for which the size of a head does not depend on what follows it. *)
Definition regular (h : list byte -> hres) (mp : Z) (input : list byte) : Prop :=
  strict h \/ size input <= room mp.

(** Inputs for which a connection has to be closed: a head with both kinds of framing, a length which is no number, a
    message larger than the limit, a head larger than the limit. *)
Definition foreign (b : byte) : Prop := let z := b2z b in
  ~ (48 <= z <= 57) /\ z <> 43 /\ z <> 45 /\ z <> 32 /\ ~ (9 <= z <= 13).
Inductive bad (h : list byte -> hres) (mp : Z) (blk : bool) : list byte -> Prop :=
| bad_both hb f e : h hb = HOk (length hb) f -> 16 <= size hb <= room mp -> te f <> [] -> cl f <> [] ->
    bad h mp blk (hb ++ e)
| bad_number hb f e v l : h hb = HOk (length hb) f -> 16 <= size hb <= room mp -> cl f = v :: l ->
    (v = [] \/ exists b, In b v /\ foreign b) -> bad h mp blk (hb ++ e)
| bad_length hb f e v l n : blk = false -> h hb = HOk (length hb) f -> 16 <= size hb <= room mp -> cl f = v :: l ->
    decnum v n -> n < 2 ^ 63 -> room mp < size hb + n -> bad h mp blk (hb ++ e)
| bad_head b : (forall x y, b <> x ++ crlf ++ crlf ++ y) -> room mp < size b -> 16 <= size b -> bad h mp blk b.

(** What a server has after some reads: complete requests and bytes not yet used ([None]: the connection is closed). *)
Definition delivered (L : lib) (r : out (option (st L))) : option (list req * list byte) :=
  match r with Ok (Some s) => Some (fin L s, buf L s) | _ => None end.
Definition answers (L : lib) (r : option (cst L * list (list field * list byte)))
  : option (list (list field * list byte) * list byte) :=
  match r with Some (s, l) => Some (l, cbuf L s) | None => None end.
