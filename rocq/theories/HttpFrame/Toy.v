(** A small library with the properties assumed of picohttpparser, for concrete cases: heads of lines that end with an
    empty line ([lf]: a line may end with LF alone), and a decoder of chunked bodies. *)
From Coq Require Import Strings.Ascii Strings.String.
From Verif Require Import Lib.Base Lib.Bytes HttpFrame.Model HttpFrame.Spec.
From Coq Require Import Strings.Byte.
Open Scope Z_scope.

Fixpoint prefix (p l : list byte) : bool :=
  match p, l with
  | [], _ => true
  | a :: p, b :: l => Byte.eqb a b && prefix p l
  | _ :: _, [] => false
  end.
Fixpoint ending (lf : bool) (l : list byte) : option nat :=
  if prefix (crlf ++ crlf) l then Some 4%nat
  else if lf && prefix [x0a; x0a] l then Some 2%nat
  else match l with
       | [] => None
       | _ :: r => match ending lf r with Some n => Some (S n) | None => None end
       end.
(** The lines of a head without their ends; the fields; the blanks around a value do not belong to it. *)
Fixpoint lines (cur : list byte) (l : list byte) : list (list byte) :=
  match l with
  | [] => [cur]
  | b :: r => if Byte.eqb b x0a then cur :: lines [] r else if Byte.eqb b x0d then lines cur r else lines (cur ++ [b]) r
  end.
Fixpoint colon (name l : list byte) : option field :=
  match l with
  | [] => None
  | b :: r => if Byte.eqb b x3a then Some (name, match r with x20 :: v => v | v => v end) else colon (name ++ [b]) r
  end.
Definition fields (l : list byte) : list field :=
  flat_map (fun x => match colon [] x with Some f => [f] | None => [] end) (lines [] l).
Definition toy_head (lf : bool) (l : list byte) : hres :=
  match ending lf l with None => HMore | Some n => HOk n (fields (firstn n l)) end.

Inductive toy_dec := TSize (a : Z) (k : nat) | TEnd (a : Z) | TData (n : Z) | TCr | TLf | TCr2 | TLf2.
Definition toy_step (d : toy_dec) (b : byte) : dres toy_dec :=
  match d with
  | TSize a k =>
      match hex_digit b with
      | Some v => if (k <? 16)%nat then DMore (TSize (16 * a + v) (S k)) [] else DErr
      | None => if Byte.eqb b x0d && (0 <? k)%nat then DMore (TEnd a) [] else DErr
      end
  | TEnd a => if Byte.eqb b x0a then DMore (if a =? 0 then TCr2 else TData a) [] else DErr
  | TData n => DMore (if n =? 1 then TCr else TData (n - 1)) [b]
  | TCr => if Byte.eqb b x0d then DMore TLf [] else DErr
  | TLf => if Byte.eqb b x0a then DMore (TSize 0 0) [] else DErr
  | TCr2 => if Byte.eqb b x0d then DMore TLf2 [] else DErr
  | TLf2 => if Byte.eqb b x0a then DDone [] else DErr
  end.
Definition toy (lf : bool) : lib :=
  {| dec := toy_dec; p_head := toy_head lf; p_rhead := toy_head lf; d_init := TSize 0 0; d_step := toy_step |}.

(** Texts with CR LF for |. *)
Fixpoint text (s : string) : list byte :=
  match s with
  | EmptyString => []
  | String a r => if Ascii.eqb a "|"%char then crlf ++ text r else byte_of_ascii a :: text r
  end.
Definition field_of (a b : string) : field := (list_byte_of_string a, list_byte_of_string b).
