(** Model of trpc/util/string/string_helper.{h,cc} and string_util.{h,cc}.

    Not modelled: the floating point TryParse, formatting, Convert and the stream operators. *)
From Verif.Lib Require Import Base Bytes Decimal.
From Coq Require Import Strings.Byte.
Local Open Scope Z_scope.
Local Open Scope out_scope.

Notation text := (list byte).

(** operator== of std::string_view. *)
Fixpoint bytes_eqb (a b : text) : bool :=
  match a, b with
  | [], [] => true
  | x :: r, y :: t => Byte.eqb x y && bytes_eqb r t
  | _, _ => false
  end.

(** std::string_view::find. *)
Fixpoint is_prefix (a b : text) : bool :=
  match a, b with
  | [], _ => true
  | x :: r, y :: t => Byte.eqb x y && is_prefix r t
  | _ :: _, [] => false
  end.
Fixpoint find (d s : text) : option nat :=
  if is_prefix d s then Some O else match s with [] => None | _ :: r => option_map S (find d r) end.

(** substr(pos, n); the bound check of the library throws. *)
Definition substr (s : text) (pos n : nat) : out text := if (pos <=? length s)%nat then Ok (firstn n (skipn pos s)) else Abort.

(** StartsWith and EndsWith, string_helper.cc:96-102. *)
Definition starts_with (s p : text) : out bool :=
  if (length p <=? length s)%nat then let! x := substr s 0 (length p) in Ok (bytes_eqb x p) else Ok false.
Definition ends_with (s p : text) : out bool :=
  if (length p <=? length s)%nat then let! x := substr s (length s - length p) (length s) in Ok (bytes_eqb x p) else Ok false.

(** TrimPrefixStringView and TrimSuffixStringView, string_util.cc:40-52. *)
Definition trim_prefix (s p : text) : out text :=
  if (length s <? length p)%nat then Ok s
  else let! x := substr s 0 (length p) in
       if negb (bytes_eqb x p) then Ok s else substr s (length p) (length s).
Definition trim_suffix (s p : text) : out text :=
  if (length s <? length p)%nat then Ok s
  else let! x := substr s (length s - length p) (length s) in
       if negb (bytes_eqb x p) then Ok s else substr s 0 (length s - length p).

(** Replace, string_helper.cc:104-111.  TRPC_CHECK fails on an empty [from]; [count--]. *)
Fixpoint replace_loop (fuel : nat) (from to str : text) (start : nat) (count : Z) : out text :=
  match fuel with
  | O => NoFuel
  | S f =>
      match find from (skipn start str) with
      | None => Ok str
      | Some q =>
          let p := (start + q)%nat in
          if count =? 0 then Ok str
          else replace_loop f from to (firstn p str ++ to ++ skipn (p + length from) str) (p + length to) (count - 1)
      end
  end.
Definition replace (from to str : text) (count : Z) : out text :=
  match from with [] => Abort | _ => replace_loop (S (length str)) from to str 0 count end.

(** find_first_not_of(' ') and find_last_not_of(' '). *)
Fixpoint first_not_space (s : text) : option nat :=
  match s with [] => None | c :: r => if Byte.eqb c x20 then option_map S (first_not_space r) else Some O end.
Fixpoint last_not_space (s : text) : option nat :=
  match s with
  | [] => None
  | c :: r => match last_not_space r with Some i => Some (S i) | None => if Byte.eqb c x20 then None else Some O end
  end.

(** trpc::Trim, string_helper.cc:119-131: front() and back() of an empty view are undefined. *)
Definition trim_view (s : text) : out text :=
  match s with
  | [] => UB
  | c :: _ =>
      let a := if Byte.eqb c x20 then first_not_space s else Some O in
      match a with
      | None => Ok []
      | Some b =>
          let e := if Byte.eqb (List.last s x00) x20 then match last_not_space s with Some i => Z.of_nat i | None => 2 ^ 64 - 1 end
                   else Z.of_nat (length s) in
          substr s b (Z.to_nat ((e - Z.of_nat b + 1) mod 2 ^ 64))
      end
  end.

(** trpc::util::TrimInplace, string_util.cc:20-26, and TrimStringView, 34-38. *)
Definition trim_inplace (s : text) : text :=
  match s with
  | [] => []
  | _ =>
      let s1 := match first_not_space s with Some i => skipn i s | None => [] end in
      match last_not_space s1 with Some i => firstn (S i) s1 | None => [] end
  end.
Definition trim_string_view (s : text) : text :=
  let s1 := skipn (match first_not_space s with Some i => Nat.min i (length s) | None => length s end) s in
  let k := match last_not_space s1 with
           | Some i => (Z.of_nat (length s1) - Z.of_nat i - 1) mod 2 ^ 64
           | None => (Z.of_nat (length s1) - (2 ^ 64 - 1) - 1) mod 2 ^ 64
           end in
  firstn (length s1 - Z.to_nat (Z.min k (Z.of_nat (length s1)))) s1.

(** Split, string_helper.cc:137-162. *)
Fixpoint split_loop (fuel : nat) (cur d : text) (keep : bool) : out (list text) :=
  match fuel with
  | O => NoFuel
  | S f =>
      match find d cur with
      | None => Ok [cur]
      | Some p =>
          let here := if negb (p =? 0)%nat || keep then [firstn p cur] else [] in
          let! next := substr cur (p + length d) (length cur) in
          match next with
          | [] => Ok (here ++ if keep then [[]] else [])
          | _ => let! r := split_loop f next d keep in Ok (here ++ r)
          end
      end
  end.
Definition split (s d : text) (keep : bool) : out (list text) :=
  match s, d with
  | [], _ => Ok []
  | _, [] => Abort
  | _, _ => split_loop (S (length s)) s d keep
  end.

(** JoinImpl, string_helper.cc:74-92.  [size] is an int; reserve of a negative size throws. *)
Definition i32 (z : Z) : Z := (z + 2 ^ 31) mod 2 ^ 32 - 2 ^ 31.
Definition join_size (parts : list text) (d : text) : Z :=
  fold_left (fun n p => i32 (n + Z.of_nat (length p) + Z.of_nat (length d))) parts 0.
Fixpoint join_loop (parts : list text) (d : text) (first : bool) (acc : text) : text :=
  match parts with
  | [] => acc
  | p :: r => join_loop r d false ((if first then acc else acc ++ d) ++ p)
  end.
Definition join (parts : list text) (d : text) : out text :=
  let size := join_size parts d in
  if size =? 0 then Ok []
  else if i32 (size - Z.of_nat (length d)) <? 0 then Abort
  else Ok (join_loop parts d true []).

(** SplitString(in, separator), string_util.h:60-75. *)
Fixpoint find_byte (c : byte) (s : text) : nat :=
  match s with [] => O | x :: r => if Byte.eqb x c then O else S (find_byte c r) end.
Fixpoint split_byte (fuel : nat) (s : text) (c : byte) : out (list text) :=
  match fuel with
  | O => NoFuel
  | S f =>
      match s with
      | [] => Ok []
      | _ =>
          let k := find_byte c s in
          let here := match k with O => [] | _ => [firstn k s] end in
          if (k =? length s)%nat then Ok here
          else let! r := split_byte f (skipn (S k) s) c in Ok (here ++ r)
      end
  end.
Definition split_string (s : text) (c : byte) : out (list text) := split_byte (S (length s)) s c.

(** SplitStringToMap, string_util.cc:54-81. *)
Fixpoint map_set (k v : text) (m : list (text * text)) : list (text * text) :=
  match m with
  | [] => [(k, v)]
  | (k1, v1) :: r => if bytes_eqb k1 k then (k1, v) :: r else (k1, v1) :: map_set k v r
  end.
Fixpoint map_get (m : list (text * text)) (k : text) : option text :=
  match m with [] => None | (k1, v1) :: r => if bytes_eqb k1 k then Some v1 else map_get r k end.
Fixpoint to_map_loop (subs : list text) (c2 : byte) (trim : bool) (m : list (text * text)) : out (list (text * text)) :=
  match subs with
  | [] => Ok m
  | sub :: r =>
      let! kv := split_string sub c2 in
      match kv with
      | [] => to_map_loop r c2 trim m
      | k0 :: vs =>
          let key := if trim then trim_inplace k0 else k0 in
          match key with
          | [] => to_map_loop r c2 trim m
          | _ =>
              match vs with
              | [] => to_map_loop r c2 trim (map_set key [] m)
              | v :: _ => to_map_loop r c2 trim (map_set key (if trim then trim_inplace v else v) m)
              end
          end
      end
  end.
Definition split_to_map (s : text) (c1 c2 : byte) (trim : bool) : out (list (text * text)) :=
  let! subs := split_string s c1 in to_map_loop subs c2 trim [].

(** ** Letter case *)

(** kLowerChars and kUpperChars, string_helper.cc:24-46; a char is signed and indexes an array of
    256, string_helper.cc:176-177. *)
Definition table_at (f : Z -> Z) (c : byte) : out byte :=
  if b2z c <? 128 then Ok (z2b (f (b2z c))) else UB.
Definition to_lower_char (c : byte) : out byte :=
  table_at (fun i => if (65 <=? i) && (i <=? 90) then i - 65 + 97 else i) c.
Definition to_upper_char (c : byte) : out byte :=
  table_at (fun i => if (97 <=? i) && (i <=? 122) then i - 97 + 65 else i) c.
Fixpoint map_out (f : byte -> out byte) (s : text) : out text :=
  match s with [] => Ok [] | c :: r => let! x := f c in let! t := map_out f r in Ok (x :: t) end.
(** ToLower and ToUpper of a string, string_helper.cc:179-207. *)
Definition to_lower : text -> out text := map_out to_lower_char.
Definition to_upper : text -> out text := map_out to_upper_char.

(** IEquals, string_helper.cc:209-219. *)
Fixpoint iequals_loop (a b : text) : out bool :=
  match a, b with
  | x :: r, y :: t =>
      let! u := to_lower_char x in
      let! v := to_lower_char y in
      if Byte.eqb u v then iequals_loop r t else Ok false
  | _, _ => Ok true
  end.
Definition iequals (a b : text) : out bool := if (length a =? length b)%nat then iequals_loop a b else Ok false.

(** ** Numbers *)

(** What strtoll and strtoull (base 10, C locale) read: sign, digits and the rest.  [None]: nothing. *)
Definition is_space (b : byte) : bool := (b2z b =? 32) || ((9 <=? b2z b) && (b2z b <=? 13)).
Fixpoint skip_space (s : text) : text := match s with b :: r => if is_space b then skip_space r else s | [] => [] end.
Fixpoint take_digits (s : text) : text := match s with b :: r => if is_digit b then b :: take_digits r else [] | [] => [] end.
Definition scan (s : text) : option (bool * Z * text) :=
  let s1 := skip_space s in
  let '(neg, s2) := match s1 with
                    | b :: r => if Byte.eqb b x2d then (true, r) else if Byte.eqb b x2b then (false, r) else (false, s1)
                    | [] => (false, s1)
                    end in
  match take_digits s2 with
  | [] => None
  | d => Some (neg, dval d, skipn (length d) s2)
  end.
(** The value and whether errno is set to ERANGE. *)
Definition strtoll (neg : bool) (v : Z) : Z * bool :=
  let x := if neg then - v else v in
  if x <? - 2 ^ 63 then (- 2 ^ 63, true) else if 2 ^ 63 - 1 <? x then (2 ^ 63 - 1, true) else (x, false).
Definition strtoull (neg : bool) (v : Z) : Z * bool :=
  if 2 ^ 64 - 1 <? v then (2 ^ 64 - 1, true) else ((if neg then - v else v) mod 2 ^ 64, false).

(** c_str(): the C functions see the text up to the first NUL. *)
Fixpoint c_str (s : text) : text := match s with b :: r => if Byte.eqb b x00 then [] else b :: c_str r | [] => [] end.

(** TryParseImpl, string_helper.cc:48-64, on std::string(s).  [erange]: errno is ERANGE before. *)
Definition try_parse_impl (f : bool -> Z -> Z * bool) (limits : list Z) (erange : bool) (s : text) : option Z :=
  match c_str s with
  | [] => None
  | cs =>
      match scan cs with
      | None => None
      | Some (neg, v, rest) =>
          match rest with
          | _ :: _ => None
          | [] => let '(x, e) := f neg v in
                  if existsb (Z.eqb x) limits && (e || erange) then None else Some x
          end
      end
  end.

(** TryNarrowCast and TryParse of an integer type, string_helper.cc:66-72, 237-254; base 10. *)
Definition narrow (lo hi : Z) (o : option Z) : option Z :=
  match o with Some x => if (hi <? x) || (x <? lo) then None else Some x | None => None end.
Definition try_parse_signed (bits : Z) (erange : bool) (s : text) : option Z :=
  narrow (- 2 ^ (bits - 1)) (2 ^ (bits - 1) - 1) (try_parse_impl strtoll [- 2 ^ 63; 2 ^ 63 - 1] erange s).
Definition try_parse_unsigned (bits : Z) (erange : bool) (s : text) : option Z :=
  narrow 0 (2 ^ bits - 1) (try_parse_impl strtoull [2 ^ 64 - 1] erange s).

(** TryParse of a bool, string_helper.cc:221-235: the two options are not looked at. *)
Definition try_parse_bool (erange : bool) (s : text) (alphabet ignore_case : bool) : out (option bool) :=
  match try_parse_signed 32 erange s with
  | Some x => Ok (if x =? 0 then Some false else if x =? 1 then Some true else None)
  | None =>
      let! y := iequals s [x79] in
      if y then Ok (Some true) else
      let! y := iequals s [x79; x65; x73] in
      if y then Ok (Some true) else
      let! y := iequals s [x74; x72; x75; x65] in
      if y then Ok (Some true) else
      let! n := iequals s [x6e] in
      if n then Ok (Some false) else
      let! n := iequals s [x6e; x6f] in
      if n then Ok (Some false) else
      let! n := iequals s [x66; x61; x6c; x73; x65] in
      if n then Ok (Some false) else Ok None
  end.
