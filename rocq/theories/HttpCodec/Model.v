(** Model of the string codecs of trpc/util/http: util.{h,cc} (percent encoding, number parsing),
    base64.h, http_cookie.cc.

    Characters are bytes; char is signed (x86).  ctype functions are those of the "C" locale.
    Strings are lists; every read of an input or table position and every write into a
    pre-sized result goes through [rd] / [wr], which yield [UB] outside the bounds. *)
From Verif.Lib Require Import Base Bytes Decimal.
From Coq Require Import Strings.Byte.
Local Open Scope Z_scope.
Local Open Scope out_scope.

Definition rd {A} (s : list A) (i : nat) : out A := match nth_error s i with Some x => Ok x | None => UB end.
Definition wr {A} (size : nat) (p : list A) (x : A) : out (list A) := if (length p <? size)%nat then Ok (p ++ [x]) else UB.

(** Value of a (signed) char, and conversion of an int to char. *)
Definition sval (b : byte) : Z := if b2z b <? 128 then b2z b else b2z b - 256.

Definition in_range (b : byte) (lo hi : Z) : bool := (lo <=? b2z b) && (b2z b <=? hi).
Definition is_alpha (b : byte) : bool := in_range b 65 90 || in_range b 97 122.
Definition is_xdigit (b : byte) : bool := is_digit b || in_range b 65 70 || in_range b 97 102.
Definition one_of (l : list byte) (b : byte) : bool := existsb (Byte.eqb b) l.

(* ------------------------------------------------------------------------- *)
(** * Percent encoding *)

(** InRfc3986UnreservedChars, util.cc:84-90: '-', '.', '_', '~'. *)
Definition unreserved (b : byte) : bool := is_alpha b || is_digit b || one_of [x2d; x2e; x5f; x7e] b.

(** InRfc3986SubDelimiters, util.cc:92-96. *)
Definition sub_delim (b : byte) : bool := one_of [x21; x24; x26; x27; x28; x29; x2a; x2b; x2c; x3b; x3d] b.

(** kUpperXDigits, util.cc:172. *)
Definition xdigits : list byte := [x30; x31; x32; x33; x34; x35; x36; x37; x38; x39; x41; x42; x43; x44; x45; x46].

Definition pct (b : byte) : out (list byte) :=
  let! h := rd xdigits (Z.to_nat (Z.shiftr (b2z b) 4)) in
  let! l := rd xdigits (Z.to_nat (Z.land (b2z b) 15)) in
  Ok [x25; h; l].

(** PercentEncode, util.cc:175-190; PercentEncodePath, 196-209. *)
Fixpoint encode_with (keep : byte -> bool) (s : list byte) : out (list byte) :=
  match s with
  | [] => Ok []
  | b :: r => let! e := if keep b then Ok [b] else pct b in
              let! t := encode_with keep r in Ok (e ++ t)
  end.
Definition percent_encode : list byte -> out (list byte) := encode_with unreserved.
Definition percent_encode_path : list byte -> out (list byte) :=
  encode_with (fun b => unreserved b || sub_delim b || Byte.eqb b x2f).

(** HexToUint, util.cc:111-123. *)
Definition hex_to_uint (b : byte) : Z :=
  let c := sval b in
  if (48 <=? c) && (c <=? 57) then c - 48
  else if (65 <=? c) && (c <=? 90) then c - 65 + 10
  else if (97 <=? c) && (c <=? 122) then c - 97 + 10
  else 256.

(** PercentDecode, util.h:76-97.  [i]: first; [p]: what was written to the result so far. *)
Fixpoint pd_loop (fuel : nat) (s : list byte) (i : nat) (p : list byte) : out (list byte) :=
  match fuel with
  | O => NoFuel
  | S f =>
      if (i =? length s)%nat then Ok p else
      let! c := rd s i in
      if negb (Byte.eqb c x25) then let! p1 := wr (length s) p c in pd_loop f s (i + 1) p1 else
      let! triple :=
        if negb (i + 1 =? length s)%nat && negb (i + 2 =? length s)%nat then
          let! a := rd s (i + 1) in
          if is_xdigit a then let! b := rd s (i + 2) in Ok (if is_xdigit b then Some (a, b) else None) else Ok None
        else Ok None in
      match triple with
      | Some (a, b) =>
          let! p1 := wr (length s) p (z2b (Z.shiftl (hex_to_uint a) 4 + hex_to_uint b)) in pd_loop f s (i + 3) p1
      | None => let! p1 := wr (length s) p c in pd_loop f s (i + 1) p1
      end
  end.
Definition percent_decode (s : list byte) : out (list byte) := pd_loop (S (length s)) s 0 [].

(** HexToByte, util.cc:63-70 (a char). *)
Definition hex_to_byte (b : byte) : Z :=
  let c := sval b in
  sval (z2b (if (97 <=? c) && (c <=? 122) then c - 97 + 10
             else if (65 <=? c) && (c <=? 90) then c - 65 + 10 else c - 48)).

(** UrlDecode, util.cc:37-57; [None]: returns false. *)
Fixpoint ud_loop (fuel : nat) (s : list byte) (i : nat) (p : list byte) : out (option (list byte)) :=
  match fuel with
  | O => NoFuel
  | S f =>
      if negb (i <? length s)%nat then Ok (Some p) else
      let! c := rd s i in
      if Byte.eqb c x25 then
        if (i + 3 <=? length s)%nat then
          let! a := rd s (i + 1) in
          let! b := rd s (i + 1 + 1) in
          let! p1 := wr (length s) p (z2b (hex_to_byte a * 16 + hex_to_byte b)) in
          ud_loop f s (i + 2 + 1) p1
        else Ok None
      else if Byte.eqb c x2b then let! p1 := wr (length s) p x20 in ud_loop f s (i + 1) p1
      else let! p1 := wr (length s) p c in ud_loop f s (i + 1) p1
  end.
Definition url_decode (s : list byte) : out (option (list byte)) := ud_loop (S (length s)) s 0 [].

(** NormalizeUrl, util.cc:72-77. *)
Definition normalize_url (s : list byte) : out (list byte) :=
  if (length s <? 2)%nat then Ok s else
  let! l := rd s (length s - 1) in
  Ok (if negb (Byte.eqb l x2f) then s else firstn (length s - 1) s).

(* ------------------------------------------------------------------------- *)
(** * Numbers *)

Definition i64_max : Z := 2 ^ 63 - 1.
(** Result of a signed 64-bit operation. *)
Definition i64 (z : Z) : out Z := if (- 2 ^ 63 <=? z) && (z <=? i64_max) then Ok z else UB.

(** The loop of ParseUintDigits, util.cc:138-151; [None]: returned {-1, 0} because of overflow. *)
Fixpoint pu_loop (s : list byte) (n : Z) (i : Z) : out (option (Z * Z)) :=
  match s with
  | [] => Ok (Some (n, i))
  | b :: r =>
      if (48 <=? b2z b) && (b2z b <=? 57) then
        if n >? i64_max / 10 then Ok None else
        let! n1 := i64 (n * 10) in
        let! lim := i64 (i64_max - (b2z b - 48)) in
        if n1 >? lim then Ok None else
        let! n2 := i64 (n1 + (b2z b - 48)) in pu_loop r n2 (i + 1)
      else Ok (Some (n, i))
  end.

(** ParseUintDigits, util.cc:126-158, and ParseUint, 161-169. *)
Definition parse_uint (s : list byte) : out Z :=
  let len := Z.of_nat (length s) in
  let! (n, i) :=
    if len =? 0 then Ok (-1, 0) else
    let! r := pu_loop s 0 0 in
    Ok (match r with None => (-1, 0) | Some (n, i) => if i =? 0 then (-1, 0) else (n, i) end) in
  Ok (if (n =? -1) || negb (i =? len) then -1 else n).

Definition is_space (b : byte) : bool := (b2z b =? 32) || in_range b 9 13.

(** strtoll(s, &end, 10) of the C library on a NUL terminated string: value and number of
    characters consumed.  The value saturates (errno is not looked at by the caller). *)
Fixpoint skip_spaces (s : list byte) : nat * list byte :=
  match s with
  | b :: r => if is_space b then let '(k, t) := skip_spaces r in (S k, t) else (O, s)
  | [] => (O, [])
  end.
Fixpoint take_digits (s : list byte) : list byte :=
  match s with b :: r => if is_digit b then b :: take_digits r else [] | [] => [] end.
Definition saturate (z : Z) : Z := Z.max (- 2 ^ 63) (Z.min i64_max z).
Definition strtoll (s : list byte) : Z * nat :=
  let '(k, s1) := skip_spaces s in
  let '(neg, k1, s2) :=
    match s1 with
    | b :: r => if Byte.eqb b x2d then (true, S k, r) else if Byte.eqb b x2b then (false, S k, r) else (false, k, s1)
    | [] => (false, k, s1)
    end in
  match take_digits s2 with
  | [] => (0, O)
  | d => (saturate (if neg : bool then - dval d else dval d), (k1 + length d)%nat)
  end.

(** ParseContentLength, util.cc:214-220. *)
Definition parse_content_length (s : list byte) : option Z :=
  let '(v, used) := strtoll s in
  if negb (Z.of_nat (length s) =? 0) && (v >=? 0) && (used =? length s)%nat then Some v else None.

(* ------------------------------------------------------------------------- *)
(** * Base64 *)

(** kB64Chars, base64.h:22-27. *)
Definition b64_chars : list byte :=
  [x41; x42; x43; x44; x45; x46; x47; x48; x49; x4a; x4b; x4c; x4d; x4e; x4f; x50;
   x51; x52; x53; x54; x55; x56; x57; x58; x59; x5a; x61; x62; x63; x64; x65; x66;
   x67; x68; x69; x6a; x6b; x6c; x6d; x6e; x6f; x70; x71; x72; x73; x74; x75; x76;
   x77; x78; x79; x7a; x30; x31; x32; x33; x34; x35; x36; x37; x38; x39; x2b; x2f].

Definition b64c (n : Z) : out byte := rd b64_chars (Z.to_nat n).
Definition u32 (z : Z) : Z := z mod 2 ^ 32.

(** The first loop of Base64Encode, base64.h:38-46; [j]: end of the whole triples. *)
Fixpoint b64e_loop (fuel : nat) (s : list byte) (i j : nat) (size : nat) (p : list byte) : out (nat * list byte) :=
  match fuel with
  | O => NoFuel
  | S f =>
      if (i =? j)%nat then Ok (i, p) else
      let! a := rd s i in
      let! b := rd s (i + 1) in
      let! c := rd s (i + 2) in
      let n := u32 (Z.shiftl (b2z a) 16) in
      let n := u32 (n + Z.shiftl (b2z b) 8) in
      let n := u32 (n + b2z c) in
      let! c1 := b64c (Z.shiftr n 18) in
      let! p := wr size p c1 in
      let! c2 := b64c (Z.land (Z.shiftr n 12) 63) in
      let! p := wr size p c2 in
      let! c3 := b64c (Z.land (Z.shiftr n 6) 63) in
      let! p := wr size p c3 in
      let! c4 := b64c (Z.land n 63) in
      let! p := wr size p c4 in
      b64e_loop f s (i + 3) j size p
  end.

(** Base64Encode, base64.h:20-63 and 122-131. *)
Definition base64_encode (s : list byte) : out (list byte) :=
  let len := length s in
  if (len =? 0)%nat then Ok [] else
  let size := ((len + 2) / 3 * 4)%nat in
  let r := (len mod 3)%nat in
  let j := (len - r)%nat in
  let! (i, p) := b64e_loop (S len) s 0 j size [] in
  if (r =? 2)%nat then
    let! a := rd s i in
    let! b := rd s (i + 1) in
    let n := u32 (Z.shiftl (b2z a) 16) in
    let n := u32 (n + Z.shiftl (b2z b) 8) in
    let! c1 := b64c (Z.shiftr n 18) in
    let! p := wr size p c1 in
    let! c2 := b64c (Z.land (Z.shiftr n 12) 63) in
    let! p := wr size p c2 in
    let! c3 := b64c (Z.land (Z.shiftr n 6) 63) in
    let! p := wr size p c3 in
    wr size p x3d
  else if (r =? 1)%nat then
    let! a := rd s i in
    let n := u32 (Z.shiftl (b2z a) 16) in
    let! c1 := b64c (Z.shiftr n 18) in
    let! p := wr size p c1 in
    let! c2 := b64c (Z.land (Z.shiftr n 12) 63) in
    let! p := wr size p c2 in
    let! p := wr size p x3d in
    wr size p x3d
  else Ok p.

(** kIndexes, base64.h:68-80: 256 entries. *)
Definition b64_indexes : list Z :=
  repeat (-1) 43%nat ++ [62; -1; -1; -1; 63; 52; 53; 54; 55; 56; 57; 58; 59; 60; 61; -1; -1; -1; -1; -1; -1; -1;
   0; 1; 2; 3; 4; 5; 6; 7; 8; 9; 10; 11; 12; 13; 14; 15; 16; 17; 18; 19; 20; 21; 22; 23; 24; 25;
   -1; -1; -1; -1; -1; -1; 26; 27; 28; 29; 30; 31; 32; 33; 34; 35; 36; 37; 38; 39; 40; 41; 42; 43; 44; 45; 46; 47; 48; 49; 50; 51]
   ++ repeat (-1) 133%nat.

(** kIndexes[static_cast<size_t>( *first)]: a negative char becomes a huge index. *)
Definition b64_index (b : byte) : out Z := if sval b <? 0 then UB else rd b64_indexes (Z.to_nat (sval b)).

(** How the inner loop, base64.h:86-108, ends: all four characters read ([inl n]) or the whole
    decoding returns ([inr result]; failure returns the empty string). *)
Fixpoint b64d_quad (left : nat) (s : list byte) (first : nat) (i : Z) (n : Z) (size : nat) (p : list byte)
  : out (Z + list byte) :=
  match left with
  | O => Ok (inl n)
  | S l =>
      let! c := rd s first in
      let! idx := b64_index c in
      if idx =? -1 then
        if i <=? 2 then Ok (inr [])
        else if i =? 3 then
          if Byte.eqb c x3d then
            let! c2 := rd s (first + 1) in
            if Byte.eqb c2 x3d && (first + 2 =? length s)%nat then
              let! p := wr size p (z2b (Z.shiftr n 16)) in Ok (inr p)
            else Ok (inr [])
          else Ok (inr [])
        else if Byte.eqb c x3d && (first + 1 =? length s)%nat then
          let! p := wr size p (z2b (Z.shiftr n 16)) in
          let! p := wr size p (z2b (Z.land (Z.shiftr n 8) 255)) in Ok (inr p)
        else Ok (inr [])
      else b64d_quad l s (first + 1) (i + 1) (u32 (n + Z.shiftl idx (24 - i * 6))) size p
  end.

(** The outer loop, base64.h:84-114. *)
Fixpoint b64d_loop (fuel : nat) (s : list byte) (first : nat) (size : nat) (p : list byte) : out (list byte) :=
  match fuel with
  | O => NoFuel
  | S f =>
      if (first =? length s)%nat then Ok p else
      let! r := b64d_quad 4 s first 1 0 size p in
      match r with
      | inr res => Ok res
      | inl n =>
          let! p := wr size p (z2b (Z.shiftr n 16)) in
          let! p := wr size p (z2b (Z.land (Z.shiftr n 8) 255)) in
          let! p := wr size p (z2b (Z.land n 255)) in
          b64d_loop f s (first + 4) size p
      end
  end.

(** Base64Decode, base64.h:138-147. *)
Definition base64_decode (s : list byte) : out (list byte) :=
  if negb (length s mod 4 =? 0)%nat then Ok []
  else b64d_loop (S (length s)) s 0 (length s / 4 * 3)%nat [].

(* ------------------------------------------------------------------------- *)
(** * Cookies *)

(** HttpCookie, http_cookie.h:30-131. *)
Record cookie := mk_cookie { ck_version : Z; ck_name : list byte; ck_value : list byte; ck_comment : list byte;
  ck_domain : list byte; ck_path : list byte; ck_secure : bool; ck_max_age : Z; ck_http_only : bool; ck_same_site : Z }.

Definition s_same_none : list byte := [x3b; x20; x53; x61; x6d; x65; x53; x69; x74; x65; x3d; x4e; x6f; x6e; x65].
Definition s_same_lax : list byte := [x3b; x20; x53; x61; x6d; x65; x53; x69; x74; x65; x3d; x4c; x61; x78].
Definition s_same_strict : list byte := [x3b; x20; x53; x61; x6d; x65; x53; x69; x74; x65; x3d; x53; x74; x72; x69; x63; x74].
Definition s_domain0 : list byte := [x3b; x20; x64; x6f; x6d; x61; x69; x6e; x3d].
Definition s_path0 : list byte := [x3b; x20; x70; x61; x74; x68; x3d].
Definition s_expires0 : list byte := [x3b; x20; x65; x78; x70; x69; x72; x65; x73; x3d].
Definition s_secure0 : list byte := [x3b; x20; x73; x65; x63; x75; x72; x65].
Definition s_http_only : list byte := [x3b; x20; x48; x74; x74; x70; x4f; x6e; x6c; x79].
Definition s_comment1 : list byte := [x3b; x20; x43; x6f; x6d; x6d; x65; x6e; x74; x3d; x22].
Definition s_domain1 : list byte := [x3b; x20; x44; x6f; x6d; x61; x69; x6e; x3d; x22].
Definition s_path1 : list byte := [x3b; x20; x50; x61; x74; x68; x3d; x22].
Definition s_max_age1 : list byte := [x3b; x20; x4d; x61; x78; x2d; x41; x67; x65; x3d; x22].
Definition s_secure1 : list byte := [x3b; x20; x53; x65; x63; x75; x72; x65].
Definition s_version1 : list byte := [x3b; x20; x56; x65; x72; x73; x69; x6f; x6e; x3d; x22; x31; x22].

(** AppendSameSite, http_cookie.cc:53-68; the case for Lax has no break. *)
Definition append_same_site (v : Z) (r : list byte) : list byte :=
  if v =? 1 then r ++ s_same_none
  else
    let r := if v =? 2 then r ++ s_same_lax else r in
    if (v =? 2) || (v =? 3) then r ++ s_same_strict else r.

Definition nonempty (l : list byte) : bool := match l with [] => false | _ => true end.

(** ToStringVersionZero, http_cookie.cc:71-107.  [date t]: the HTTP date of the time [t]. *)
Definition to_string0 (date : Z -> list byte) (now : Z) (c : cookie) : list byte :=
  if negb (nonempty (ck_name c)) || negb (nonempty (ck_value c)) then [] else
  let r := ck_name c ++ [x3d] ++ ck_value c in
  let r := if nonempty (ck_domain c) then r ++ s_domain0 ++ ck_domain c else r in
  let r := if nonempty (ck_path c) then r ++ s_path0 ++ ck_path c else r in
  let r := if negb (ck_max_age c =? -1) then r ++ s_expires0 ++ date (now + ck_max_age c) else r in
  let r := append_same_site (ck_same_site c) r in
  let r := if ck_secure c then r ++ s_secure0 else r in
  if ck_http_only c then r ++ s_http_only else r.

(** ToStringVersionOne, http_cookie.cc:109-156. *)
Definition to_string1 (c : cookie) : list byte :=
  if negb (nonempty (ck_name c)) || negb (nonempty (ck_value c)) then [] else
  let r := ck_name c ++ [x3d] ++ [x22] ++ ck_value c ++ [x22] in
  let r := if nonempty (ck_comment c) then r ++ s_comment1 ++ ck_comment c ++ [x22] else r in
  let r := if nonempty (ck_domain c) then r ++ s_domain1 ++ ck_domain c ++ [x22] else r in
  let r := if nonempty (ck_path c) then r ++ s_path1 ++ ck_path c ++ [x22] else r in
  let r := if negb (ck_max_age c =? -1) then r ++ s_max_age1 ++ dec_int (ck_max_age c) ++ [x22] else r in
  let r := append_same_site (ck_same_site c) r in
  let r := if ck_secure c then r ++ s_secure1 else r in
  let r := if ck_http_only c then r ++ s_http_only else r in
  r ++ s_version1.

(** ToString, http_cookie.cc:41-50. *)
Definition cookie_to_string (date : Z -> list byte) (now : Z) (c : cookie) : list byte :=
  if ck_version c =? 0 then to_string0 date now c else to_string1 c.

(** ParseSameSiteString, http_cookie.cc:159-169, with StringEqualsLiteralsIgnoreCase,
    util.h:213-216 and 193-198. *)
Definition to_lower (b : byte) : byte := if in_range b 65 90 then z2b (b2z b + 32) else b.
Fixpoint equals_ignore_case (a b : list byte) : bool :=
  match a, b with
  | [], [] => true
  | x :: r, y :: t => Byte.eqb (to_lower x) (to_lower y) && equals_ignore_case r t
  | _, _ => false
  end.
Definition parse_same_site (v : list byte) : Z :=
  if equals_ignore_case [x4e; x6f; x6e; x65] v then 1
  else if equals_ignore_case [x4c; x61; x78] v then 2
  else if equals_ignore_case [x53; x74; x72; x69; x63; x74] v then 3
  else 0.
