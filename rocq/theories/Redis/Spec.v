(** Specification: the Redis serialisation protocol. *)
From Verif.Lib Require Import Base Bytes Decimal.
From Coq Require Import Strings.Byte.
From Coq Require Strings.String.
From Verif.Redis Require Import Model.
Import String.StringSyntax.
Local Open Scope string_scope.
Local Open Scope list_scope.
Local Open Scope Z_scope.

Definition str := String.list_byte_of_string.
Definition crlf : text := [x0d; x0a].
Definition contains_crlf (s : text) : Prop := exists a b, s = a ++ crlf ++ b.

(** A reply as it is sent; there are two ways to send nil. *)
Inductive wire :=
| WStatus (s : text) | WError (s : text) | WInt (z : Z) | WBulk (s : text) | WNil | WNilArray | WArray (l : list wire).

Fixpoint enc (w : wire) : text :=
  match w with
  | WStatus s => str "+" ++ s ++ crlf
  | WError s => str "-" ++ s ++ crlf
  | WInt z => str ":" ++ dec_int z ++ crlf
  | WBulk s => str "$" ++ dec_nat (Z.of_nat (length s)) ++ crlf ++ s ++ crlf
  | WNil => str "$-1" ++ crlf
  | WNilArray => str "*-1" ++ crlf
  | WArray l => str "*" ++ dec_nat (Z.of_nat (length l)) ++ crlf ++ flat_map enc l
  end.

Fixpoint value (w : wire) : body :=
  match w with
  | WStatus s => BStatus s
  | WError s => BError s
  | WInt z => BInt z
  | WBulk s => BBulk s
  | WNil => BNil
  | WNilArray => BNil
  | WArray l => BArray (map (fun x => Reply 0 (value x)) l)
  end.

(** Lines do not contain line ends; integers are those of 64 bits except the smallest. *)
Fixpoint wire_ok (w : wire) : Prop :=
  match w with
  | WStatus s => ~ contains_crlf s
  | WError s => ~ contains_crlf s
  | WInt z => - 2 ^ 63 < z < 2 ^ 63
  | WBulk s => Z.of_nat (length s) < 2 ^ 62
  | WNil => True
  | WNilArray => True
  | WArray l => Z.of_nat (length l) < 2 ^ 31 /\ (fix all l := match l with [] => True | x :: r => wire_ok x /\ all r end) l
  end.

(** Nesting of arrays. *)
Fixpoint depth (w : wire) : nat :=
  match w with
  | WArray l => S (fold_right (fun x n => Nat.max (depth x) n) O l)
  | WNilArray => 1
  | _ => 0
  end.

(** A whole packet: an optional serial number in front. *)
Definition packet (sn : option Z) (w : wire) : text :=
  match sn with Some n => str "@" ++ dec_nat n ++ crlf ++ enc w | None => enc w end.
Definition sn_ok (sn : option Z) : Prop := match sn with Some n => 0 <= n < 2 ^ 32 | None => True end.
Definition packet_value (sn : option Z) (w : wire) : reply := Reply (match sn with Some n => n | None => 0 end) (value w).

Definition packets (l : list (option Z * wire)) : text := flat_map (fun x => packet (fst x) (snd x)) l.
Definition packet_values (l : list (option Z * wire)) : list reply := map (fun x => packet_value (fst x) (snd x)) l.
Definition packets_ok (max : nat) (l : list (option Z * wire)) : Prop :=
  Forall (fun x => sn_ok (fst x) /\ wire_ok (snd x) /\ (depth (snd x) <= max)%nat) l.

(** A command: an array of bulk strings. *)
Definition resp_command (args : list text) : text :=
  str "*" ++ dec_nat (Z.of_nat (length args)) ++ crlf ++
  flat_map (fun a => str "$" ++ dec_nat (Z.of_nat (length a)) ++ crlf ++ a ++ crlf) args.
Definition args_ok (args : list text) : Prop :=
  Z.of_nat (length args) < 2 ^ 32 /\ Forall (fun a => Z.of_nat (length a) < 2 ^ 32) args.

Definition args_small (args : list text) : Prop :=
  Z.of_nat (length args) < 2 ^ 31 /\ Forall (fun a => Z.of_nat (length a) < 2 ^ 32) args.

(** At least 19 digits in a row. *)
Definition digit_run (s : text) : Prop :=
  exists a d b, s = a ++ d ++ b /\ Forall (fun c => 48 <= b2z c <= 57) d /\ (19 <= length d)%nat.

(** Format strings: words of pieces, separated by spaces. *)
Definition standard_conversions : list text :=
  [str "%d"; str "%i"; str "%u"; str "%x"; str "%X"; str "%o"; str "%ld"; str "%lu"; str "%lld"; str "%llu"; str "%hd";
   str "%hhu"; str "%f"; str "%g"; str "%e"; str "%5d"; str "%05d"; str "%-5d"; str "%+d"; str "%#x"; str "%.2f"; str "%8.3f"].
Inductive piece := PText (c : byte) | PPercent | PStr (s : text) | PBin (s : text) | PNum (conv : text) (z : Z).
Definition piece_ok (p : piece) : Prop :=
  match p with
  | PText c => c <> x20 /\ c <> x25 /\ c <> x00
  | PNum conv _ => In conv standard_conversions
  | _ => True
  end.
Definition piece_format (p : piece) : text :=
  match p with PText c => [c] | PPercent => str "%%" | PStr _ => str "%s" | PBin _ => str "%b" | PNum conv _ => conv end.
Definition piece_args (p : piece) : list arg :=
  match p with PStr s => [AStr s] | PBin s => [ABin s] | PNum _ z => [ANum z] | _ => [] end.
(** [num conv z]: the number as printf prints it. *)
Definition piece_text (num : text -> Z -> text) (p : piece) : text :=
  match p with PText c => [c] | PPercent => str "%" | PStr s => s | PBin s => s | PNum conv z => num conv z end.
Definition word := list piece.
Definition words_format (ws : list (nat * word)) : text :=
  flat_map (fun x => repeat x20 (fst x) ++ flat_map piece_format (snd x)) ws.
Definition words_args (ws : list (nat * word)) : list arg := flat_map (fun x => flat_map piece_args (snd x)) ws.
Definition words_params (num : text -> Z -> text) (ws : list (nat * word)) : list text :=
  map (fun x => flat_map (piece_text num) (snd x)) ws.
(** Spaces in front of every word but the first are not optional; words are not empty. *)
Fixpoint words_ok (first : bool) (ws : list (nat * word)) : Prop :=
  match ws with
  | [] => True
  | (n, w) :: r => (first = false -> n <> O) /\ w <> [] /\ Forall piece_ok w /\ words_ok false r
  end.

(** What the connection does: every chunk that arrives is put behind what is left and checked. *)
Fixpoint feed (left : cursor) (chunks : list cursor) : out (list reply * cursor * bool) :=
  match chunks with
  | [] => Ok ([], left, false)
  | c :: r =>
      match check_response (left ++ c) true 0 with
      | Ok (out1, left1, false) =>
          match feed left1 r with
          | Ok (out2, left2, e) => Ok (out1 ++ out2, left2, e)
          | o => o
          end
      | o => o
      end
  end.
