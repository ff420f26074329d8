(** What a reader of HTTP/1.1 makes of a message: RFC 9112 sections 6 and 7.1, written without the model. *)
From Verif Require Import Lib.Base Lib.Bytes HttpChunk.Model.
From Coq Require Import Strings.Byte.
Open Scope Z_scope.

Definition crlf : list byte := [x0d; x0a].
Definition size (l : list byte) : Z := Z.of_nat (length l).

(** Hexadecimal and decimal numbers. *)
Definition hex_digit (b : byte) : option Z :=
  if (48 <=? b2z b) && (b2z b <=? 57) then Some (b2z b - 48)
  else if (65 <=? b2z b) && (b2z b <=? 70) then Some (b2z b - 55)
  else if (97 <=? b2z b) && (b2z b <=? 102) then Some (b2z b - 87)
  else None.
Definition hex_value (l : list byte) : Z :=
  fold_left (fun a b => 16 * a + match hex_digit b with Some v => v | None => 0 end) l 0.
Definition hexnum (l : list byte) (n : Z) : Prop :=
  l <> [] /\ Forall (fun b => hex_digit b <> None) l /\ hex_value l = n.
Definition decnum (l : list byte) (n : Z) : Prop :=
  l <> [] /\ Forall (fun b => 48 <= b2z b <= 57) l /\ fold_left (fun a b => 10 * a + (b2z b - 48)) l 0 = n.

(** Chunks with data, and what they carry; a chunked body ends with a chunk of size zero and an empty line. *)
Inductive chunks : list byte -> list byte -> Prop :=
| chunks_nil : chunks [] []
| chunks_cons ds data e p :
    hexnum ds (size data) -> data <> [] -> chunks e p ->
    chunks (ds ++ crlf ++ data ++ crlf ++ e) (data ++ p).
Definition chunked (e p : list byte) : Prop :=
  exists c z, chunks c p /\ hexnum z 0 /\ e = c ++ z ++ crlf ++ crlf.

(** The body of a message whose head says [te], [cl], [nobody]; [p]: what it carries. *)
Definition body (te : bool) (cl : list byte) (nobody : bool) (e p : list byte) : Prop :=
  if nobody then e = [] /\ p = []
  else if te then chunked e p
  else match cl with [] => e = [] /\ p = [] | _ => e = p /\ decnum cl (size p) end.
(** The first part of such a body. *)
Definition body_start (te : bool) (cl : list byte) (nobody : bool) (e p : list byte) : Prop :=
  if nobody then e = [] /\ p = []
  else if te then chunks e p
  else match cl with [] => e = [] /\ p = [] | _ => e = p /\ exists n, decnum cl n /\ size p <= n end.

(** A whole message on the wire that carries [p], and a message under way. *)
Definition message (w : list wev) (p : list byte) : Prop :=
  exists k te cl nobody bs, w = repeat Info k ++ Head te cl nobody :: map Body bs /\ body te cl nobody (concat bs) p.
Definition under_way (w : list wev) (p : list byte) : Prop :=
  (exists k, w = repeat Info k /\ p = []) \/
  exists k te cl nobody bs,
    w = repeat Info k ++ Head te cl nobody :: map Body bs /\ body_start te cl nobody (concat bs) p.

(** What the calls accepted: the data of the writes that returned success. *)
Fixpoint accepted (tr : list (wop * stat)) : list byte :=
  match tr with
  | (OWrite d, SOk) :: l => d ++ accepted l
  | _ :: l => accepted l
  | [] => []
  end.
Definition finished (tr : list (wop * stat)) : Prop := In (ODone, SOk) tr.

(** A user who is careful: writes no empty piece, writes nothing after the end, ends nothing before the head
    is out ([need]: how many calls of WriteHeader that takes) and does not call Close. *)
Fixpoint careful (need : nat) (over : bool) (tr : list (wop * stat)) : Prop :=
  match tr with
  | [] => True
  | (OHeader, SOk) :: l => careful (pred need) over l
  | (OWrite d, SOk) :: l => d <> [] /\ over = false /\ careful 0 over l
  | (ODone, SOk) :: l => need = 0%nat /\ careful 0 true l
  | (OWrite _, _) :: l => over = false /\ careful need over l
  | (OClose, _) :: _ => False
  | _ :: l => careful need over l
  end.

(** Pieces are smaller than half of what size_t can count. *)
Definition small_op (op : wop) : Prop := match op with OWrite d => size d < 2 ^ 63 | _ => True end.

(** The value of Content-Length: absent or a number that fits ssize_t. *)
Definition good_length (cl : list byte) : Prop := cl = [] \/ exists n, decnum cl n /\ n < 2 ^ 63.

(** A message of the asynchronous streams, byte by byte. *)
Definition line_of (p : list byte * list byte) : list byte := fst p ++ [x3a; x20] ++ snd p ++ crlf.
Definition lines_of (h : header) : list byte := concat (map line_of h).
Definition text (line : list byte) (h : header) (b : list byte) : list byte :=
  line ++ crlf ++ lines_of h ++ crlf ++ b.
(** The frames of a message and its bytes: without body, with a length, chunked without and with trailers. *)
Inductive sent : list frame -> list byte -> list byte -> Prop :=
| sent_none line code h trs cle :
    match cle with Some (Some n) => n <= 0 | Some None => False | None => True end ->
    sent [FLine line code; FHeader h false trs cle] (text line h []) []
| sent_length line code h trs n ds k :
    size (concat ds) = n ->
    sent (FLine line code :: FHeader h false trs (Some (Some n)) :: map FData ds ++ repeat FEof k)
         (text line h (concat ds)) (concat ds)
| sent_chunked line code h cle ds e :
    chunked e (concat ds) ->
    sent (FLine line code :: FHeader h true [] cle :: map FData ds ++ [FEof]) (text line h e) (concat ds)
| sent_trailers line code h trs cle ds c z t :
    trs <> [] -> chunks c (concat ds) -> hexnum z 0 ->
    Forall (fun p => In (fst p) trs) t ->
    sent (FLine line code :: FHeader h true trs cle :: map FData ds ++ [FEof; FTrailer t])
         (text line h (c ++ z ++ crlf ++ lines_of t ++ crlf)) (concat ds).

(** The frames that were accepted, and a careful user of them. *)
Fixpoint frames (evs : list aev) : list frame :=
  match evs with
  | [] => []
  | Send f _ :: l => f :: frames l
  | EvRead :: l => frames l
  end.
Definition careful_frame (f : frame) : Prop :=
  match f with
  | FLine _ code => code <> 100
  | FHeader h _ _ cle => h <> [] /\ match cle with Some (Some n) => 0 <= n < 2 ^ 63 | _ => True end
  | FData d => d <> [] /\ size d < 2 ^ 63
  | _ => True
  end.
