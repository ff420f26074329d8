(** Specification of the HTTP string codecs: RFC 3986 percent encoding, RFC 4648 base64, decimal
    numbers, RFC 6265bis SameSite. *)
From Verif.Lib Require Import Base Bytes Decimal.
From Coq Require Import Strings.Byte Strings.String Lists.List.
From Verif.HttpCodec Require Import Model.
Local Open Scope string_scope.
Local Open Scope list_scope.
Local Open Scope Z_scope.

(** RFC 3986 section 2.3. *)
Definition rfc_unreserved (b : byte) : bool :=
  let v := b2z b in
  (65 <=? v) && (v <=? 90) || (97 <=? v) && (v <=? 122) || (48 <=? v) && (v <=? 57) ||
  (v =? 45) || (v =? 46) || (v =? 95) || (v =? 126).

(** Value of a hexadecimal digit. *)
Definition hex_val (b : byte) : option Z :=
  let v := b2z b in
  if (48 <=? v) && (v <=? 57) then Some (v - 48)
  else if (65 <=? v) && (v <=? 70) then Some (v - 55)
  else if (97 <=? v) && (v <=? 102) then Some (v - 87)
  else None.

Definition upper_hex (b : byte) : bool :=
  match hex_val b with Some _ => b2z b <? 97 | None => false end.

(** A string of allowed characters and %XX triples. *)
Inductive pct_string (allowed : byte -> bool) : list byte -> Prop :=
| pct_nil : pct_string allowed []
| pct_char b r : allowed b = true -> pct_string allowed r -> pct_string allowed (b :: r)
| pct_hex h l r : upper_hex h = true -> upper_hex l = true -> pct_string allowed r ->
    pct_string allowed (x25 :: h :: l :: r).

(** Characters of a path: RFC 3986 unreserved, sub-delims and '/'. *)
Definition path_allowed (b : byte) : bool :=
  rfc_unreserved b || existsb (Byte.eqb b) (String.list_byte_of_string "!$&'()*+,;=/").

(** Encoding: every other character becomes a triple. *)
Definition hex_digit (n : Z) : byte := z2b (if n <? 10 then 48 + n else 55 + n).
Definition pct_encode (allowed : byte -> bool) (s : list byte) : list byte :=
  flat_map (fun b => if allowed b then [b] else [x25; hex_digit (b2z b / 16); hex_digit (b2z b mod 16)]) s.

(** Decoding: every well-formed %XX triple becomes the byte, everything else is copied. *)
Fixpoint pct_decode (s : list byte) : list byte :=
  match s with
  | [] => []
  | c :: r =>
      if Byte.eqb c x25 then
        match r with
        | a :: b :: t =>
            match hex_val a, hex_val b with
            | Some x, Some y => z2b (16 * x + y) :: pct_decode t
            | _, _ => c :: pct_decode r
            end
        | _ => c :: pct_decode r
        end
      else c :: pct_decode r
  end.

(** Form decoding: also '+' for space.  [None]: some '%' is not followed by two hexadecimal
    digits. *)
Fixpoint form_decode (s : list byte) : option (list byte) :=
  match s with
  | [] => Some []
  | c :: r =>
      if Byte.eqb c x25 then
        match r with
        | a :: b :: t =>
            match hex_val a, hex_val b with
            | Some x, Some y => option_map (cons (z2b (16 * x + y))) (form_decode t)
            | _, _ => None
            end
        | _ => None
        end
      else option_map (cons (if Byte.eqb c x2b then x20 else c)) (form_decode r)
  end.

(** All the characters after a '%' are hexadecimal digits (as far as there are any). *)
Fixpoint well_escaped (s : list byte) : bool :=
  match s with
  | [] => true
  | c :: r =>
      if Byte.eqb c x25 then
        match r with
        | a :: b :: t => match hex_val a, hex_val b with Some _, Some _ => well_escaped t | _, _ => false end
        | _ => true
        end
      else well_escaped r
  end.

(** Decimal numbers. *)
Definition all_digits (s : list byte) : bool := match s with [] => false | _ => forallb is_digit s end.

(** RFC 4648, table 1. *)
Definition b64_digit (n : Z) : byte :=
  z2b (if n <? 26 then 65 + n else if n <? 52 then 97 + (n - 26) else if n <? 62 then 48 + (n - 52)
       else if n =? 62 then 43 else 47).

Definition six (n : Z) (k : Z) : byte := b64_digit (n / 64 ^ k mod 64).

(** RFC 4648, section 4. *)
Fixpoint b64 (s : list byte) : list byte :=
  match s with
  | a :: b :: c :: r =>
      let n := b2z a * 65536 + b2z b * 256 + b2z c in six n 3 :: six n 2 :: six n 1 :: six n 0 :: b64 r
  | [a; b] => let n := b2z a * 65536 + b2z b * 256 in [six n 3; six n 2; six n 1; x3d]
  | [a] => let n := b2z a * 65536 in [six n 3; six n 2; x3d; x3d]
  | [] => []
  end.

Definition b64_value (c : byte) : option Z :=
  find (fun n => Byte.eqb (b64_digit n) c) (map Z.of_nat (seq 0 64)).

(** Decoding by groups of four; padding only at the end. *)
Fixpoint unb64 (s : list byte) : option (list byte) :=
  match s with
  | [] => Some []
  | a :: b :: c :: d :: r =>
      match b64_value a, b64_value b with
      | Some x, Some y =>
          match b64_value c, b64_value d, r with
          | Some z, Some w, _ =>
              let n := x * 262144 + y * 4096 + z * 64 + w in
              match unb64 r with
              | Some t => Some (z2b (n / 65536) :: z2b (n / 256) :: z2b n :: t)
              | None => None
              end
          | Some z, None, [] =>
              let n := x * 262144 + y * 4096 + z * 64 in
              if Byte.eqb d x3d then Some [z2b (n / 65536); z2b (n / 256)] else None
          | None, _, [] =>
              let n := x * 262144 + y * 4096 in
              if Byte.eqb c x3d && Byte.eqb d x3d then Some [z2b (n / 65536)] else None
          | _, _, _ => None
          end
      | _, _ => None
      end
  | _ => None
  end.

Definition ascii (s : list byte) : Prop := Forall (fun b => b2z b < 128) s.

(** The value of Set-Cookie: name, value and a list of attributes. *)
Definition str : String.string -> list byte := String.list_byte_of_string.
Definition same_site_attr (v : Z) : list (list byte) :=
  if v =? 1 then [str "; SameSite=None"] else if v =? 2 then [str "; SameSite=Lax"]
  else if v =? 3 then [str "; SameSite=Strict"] else [].

Definition opt_attr (b : bool) (a : list byte) : list (list byte) := if b then [a] else [].
Definition present (l : list byte) : bool := negb (Nat.eqb (List.length l) 0).
Definition quoted (a : String.string) (l : list byte) : list byte := str a ++ [x3d; x22] ++ l ++ [x22].

Definition cookie_spec (date : Z -> list byte) (now : Z) (c : cookie) : list byte :=
  if present (ck_name c) && present (ck_value c) then
    if ck_version c =? 0 then
      concat ([ck_name c ++ str "=" ++ ck_value c] ++
        opt_attr (present (ck_domain c)) (str "; domain=" ++ ck_domain c) ++
        opt_attr (present (ck_path c)) (str "; path=" ++ ck_path c) ++
        opt_attr (negb (ck_max_age c =? -1)) (str "; expires=" ++ date (now + ck_max_age c)) ++
        same_site_attr (ck_same_site c) ++
        opt_attr (ck_secure c) (str "; secure") ++ opt_attr (ck_http_only c) (str "; HttpOnly"))
    else
      concat ([ck_name c ++ [x3d; x22] ++ ck_value c ++ [x22]] ++
        opt_attr (present (ck_comment c)) (quoted "; Comment" (ck_comment c)) ++
        opt_attr (present (ck_domain c)) (quoted "; Domain" (ck_domain c)) ++
        opt_attr (present (ck_path c)) (quoted "; Path" (ck_path c)) ++
        opt_attr (negb (ck_max_age c =? -1)) (quoted "; Max-Age" (dec_int (ck_max_age c))) ++
        same_site_attr (ck_same_site c) ++
        opt_attr (ck_secure c) (str "; Secure") ++ opt_attr (ck_http_only c) (str "; HttpOnly") ++
        [quoted "; Version" (str "1")])
  else [].

(** What ParseContentLength accepts: white space, a sign, digits; "-" only in front of zero.  Numbers
    that do not fit become the largest. *)
Definition loose_number (s : list byte) (v : Z) : Prop :=
  exists sp sign ds,
    s = sp ++ sign ++ ds /\ Forall (fun b => b2z b = 32 \/ 9 <= b2z b <= 13) sp /\
    (sign = [] \/ sign = String.list_byte_of_string "+" \/ sign = String.list_byte_of_string "-" /\ dval ds = 0) /\
    ds <> [] /\ Forall (fun b => 48 <= b2z b <= 57) ds /\ v = Z.min (2 ^ 63 - 1) (dval ds).
