(** Model of trpc/util/http/field_map.h: HTTP headers and query parameters.

    std::multimap is a list of pairs in key order.  lower_bound and upper_bound walk the list, where
    the library walks a tree: as long as the comparison is an order they find the same place.  The
    function [less] is the Compare parameter; it may be undefined ([UB]). *)
From Verif.Lib Require Import Base Bytes.
From Coq Require Import Strings.Byte.
Local Open Scope Z_scope.
Local Open Scope out_scope.

Notation name := (list byte).
Notation text := (list byte).

(** tolower of the C locale. *)
Definition lower (b : byte) : byte := if (65 <=? b2z b) && (b2z b <=? 90) then z2b (b2z b + 32) else b.

(** strncasecmp(a, b, a.size()).  Both are C strings: after the last character of [b] comes a NUL
    (true of keys in the map; for a view passed by the caller it is assumed). *)
Fixpoint strncasecmp (a b : list byte) : Z :=
  match a with
  | [] => 0
  | x :: r =>
      match b with
      | [] => b2z (lower x)
      | y :: t =>
          if negb (b2z (lower x) =? b2z (lower y)) then b2z (lower x) - b2z (lower y)
          else if b2z x =? 0 then 0 else strncasecmp r t
      end
  end.

(** front(): undefined for an empty view. *)
Definition front (a : list byte) : out byte := match a with x :: _ => Ok x | [] => UB end.

(** CaseInsensitiveLess, field_map.h:36-45. *)
Definition ci_less (a b : name) : out bool :=
  let! by_size :=
    if negb (length a =? length b)%nat then
      let! x := front a in
      if negb (Byte.eqb x x3a) then let! y := front b in Ok (negb (Byte.eqb y x3a)) else Ok false
    else Ok false in
  Ok (if by_size : bool then (length a <? length b)%nat else strncasecmp a b <? 0).

(** CaseInsensitiveEqualTo, field_map.h:49-53. *)
Definition ci_equal (a b : name) : bool := (length a =? length b)%nat && (strncasecmp a b =? 0).

(** CaseSensitiveLess, field_map.h:30-32: operator< of std::string_view. *)
Fixpoint cs_lt (a b : name) : bool :=
  match a, b with
  | _, [] => false
  | [], _ :: _ => true
  | x :: r, y :: t => (b2z x <? b2z y) || (b2z x =? b2z y) && cs_lt r t
  end.
Definition cs_less (a b : name) : out bool := Ok (cs_lt a b).

Definition fields := list (name * text).

(** std::multimap::lower_bound: the first element not less than the key; upper_bound: the first
    element the key is less than. *)
Fixpoint lower_bound (less : name -> name -> out bool) (k : name) (l : fields) : out nat :=
  match l with
  | [] => Ok O
  | (k1, _) :: r => let! b := less k1 k in if b : bool then let! i := lower_bound less k r in Ok (S i) else Ok O
  end.
Fixpoint upper_bound (less : name -> name -> out bool) (k : name) (l : fields) : out nat :=
  match l with
  | [] => Ok O
  | (k1, _) :: r => let! b := less k k1 in if b : bool then Ok O else let! i := upper_bound less k r in Ok (S i)
  end.

Definition insert_at (i : nat) (p : name * text) (l : fields) : fields := firstn i l ++ p :: skipn i l.

(** FieldMap::Add, field_map.h:66-69. *)
Definition fm_add less (k : name) (v : text) (l : fields) : out fields :=
  let! i := upper_bound less k l in Ok (insert_at i (k, v) l).

(** FieldMap::Delete, field_map.h:101. *)
Definition fm_delete less (k : name) (l : fields) : out fields :=
  let! i := lower_bound less k l in
  let! j := upper_bound less k l in
  Ok (firstn i l ++ skipn j l).

(** FieldMap::Set, field_map.h:73-77. *)
Definition fm_set less (k : name) (v : text) (l : fields) : out fields :=
  let! l1 := fm_delete less k l in fm_add less k v l1.

(** FieldMap::SetIfNotPresent, field_map.h:80-85: the comparison is case-insensitive whatever
    Compare is. *)
Definition fm_set_if_not_present less (k : name) (v : text) (l : fields) : out fields :=
  let! i := lower_bound less k l in
  match nth_error l i with
  | Some (k1, _) => if negb (ci_equal k1 k) then Ok (insert_at i (k, v) l) else Ok l
  | None => Ok (insert_at i (k, v) l)
  end.

(** std::multimap::find. *)
Definition fm_find less (k : name) (l : fields) : out (option text) :=
  let! i := lower_bound less k l in
  match nth_error l i with
  | Some (k1, v) => let! b := less k k1 in Ok (if b : bool then None else Some v)
  | None => Ok None
  end.

(** equal_range. *)
Definition fm_range less (k : name) (l : fields) : out (nat * nat) :=
  let! i := lower_bound less k l in let! j := upper_bound less k l in Ok (i, j).

Fixpoint bytes_eqb (a b : list byte) : bool :=
  match a, b with
  | [], [] => true
  | x :: r, y :: t => Byte.eqb x y && bytes_eqb r t
  | _, _ => false
  end.

(** FieldMap::Delete(key, value), field_map.h:105-121. *)
Definition fm_delete_value less (k : name) (v : text) (l : fields) : out fields :=
  let! (i, j) := fm_range less k l in
  Ok (firstn i l ++ filter (fun p => negb (bytes_eqb (snd p) v)) (firstn (j - i) (skipn i l)) ++ skipn j l).

(** FieldMap::Values, field_map.h:125-132. *)
Definition fm_values less (k : name) (l : fields) : out (list text) :=
  let! (i, j) := fm_range less k l in Ok (map snd (firstn (j - i) (skipn i l))).

(** FieldMap::ByteSizeLong, field_map.h:182-189. *)
Definition fm_byte_size (l : fields) : Z :=
  fold_left (fun n p => n + (Z.of_nat (length (fst p)) + Z.of_nat (length (snd p)) + 2 + 2)) l 0.

(** FieldMap::ToString, field_map.h:160-170. *)
Definition fm_to_string (l : fields) : text :=
  fold_left (fun s p => s ++ fst p ++ [x3a; x20] ++ snd p ++ [x0d; x0a]) l [].

Inductive fm_call :=
| FAdd (k : name) (v : text) | FSet (k : name) (v : text) | FSetIfNotPresent (k : name) (v : text)
| FDelete (k : name) | FDeleteValue (k : name) (v : text) | FClear
| FGet (k : name) | FHas (k : name) | FValues (k : name) | FSize | FByteSize | FToString.

Inductive fm_answer := ADone | AText (t : text) | ABool (b : bool) | ATexts (l : list text) | ANum (n : Z).

Definition fm_do less (l : fields) (c : fm_call) : out (fields * fm_answer) :=
  match c with
  | FAdd k v => let! l1 := fm_add less k v l in Ok (l1, ADone)
  | FSet k v => let! l1 := fm_set less k v l in Ok (l1, ADone)
  | FSetIfNotPresent k v => let! l1 := fm_set_if_not_present less k v l in Ok (l1, ADone)
  | FDelete k => let! l1 := fm_delete less k l in Ok (l1, ADone)
  | FDeleteValue k v => let! l1 := fm_delete_value less k v l in Ok (l1, ADone)
  | FClear => Ok ([], ADone)
  | FGet k => let! r := fm_find less k l in Ok (l, AText (match r with Some v => v | None => [] end))
  | FHas k => let! r := fm_find less k l in Ok (l, ABool (match r with Some _ => true | None => false end))
  | FValues k => let! r := fm_values less k l in Ok (l, ATexts r)
  | FSize => Ok (l, ANum (Z.of_nat (length l)))
  | FByteSize => Ok (l, ANum (fm_byte_size l))
  | FToString => Ok (l, AText (fm_to_string l))
  end.

Fixpoint fm_run less (l : fields) (cs : list fm_call) : out (fields * list fm_answer) :=
  match cs with
  | [] => Ok (l, [])
  | c :: r => let! (l1, a) := fm_do less l c in
              let! (l2, t) := fm_run less l1 r in Ok (l2, a :: t)
  end.
