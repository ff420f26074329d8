(** Properties C45 (splitting and joining), C46 (letter case) and C50 (numbers as text). *)
From Verif.Lib Require Import Base Bytes.
From Coq Require Import Strings.Byte Strings.String Lists.List.
From Verif.Strings Require Import Model Spec Proofs ProofsNum.
Local Open Scope string_scope.
Local Open Scope list_scope.
Local Open Scope Z_scope.

(** ** C45 *)

(** Split cuts at the occurrences of the delimiter from the left; without keep-empty, the empty parts
    are missing. *)
Theorem C45_split_cuts_at_delimiters :
  forall s d, d <> [] -> s <> [] ->
  exists parts, split s d true = Ok parts /\ is_split d s parts /\ split s d false = Ok (filter nonempty parts).
Proof. exact split_l. Qed.
Print Assumptions C45_split_cuts_at_delimiters.

Theorem C45_parts_are_determined :
  forall d s p1 p2, is_split d s p1 -> is_split d s p2 -> p1 = p2.
Proof. exact is_split_det. Qed.
Print Assumptions C45_parts_are_determined.

Theorem C45_join_undoes_split :
  forall s d, d <> [] -> Z.of_nat (length s) + Z.of_nat (length d) < 2 ^ 31 ->
  exists parts, split s d true = Ok parts /\ join parts d = Ok s.
Proof. exact round_trip_l. Qed.
Print Assumptions C45_join_undoes_split.

Theorem C45_no_part_contains_the_delimiter :
  forall s d keep, d <> [] -> exists parts, split s d keep = Ok parts /\ Forall (fun p => ~ contains d p) parts.
Proof. exact parts_free_l. Qed.
Print Assumptions C45_no_part_contains_the_delimiter.

Theorem C45_join_inserts_delimiters :
  forall parts d, total_length d parts < 2 ^ 31 -> join parts d = Ok (joined d parts).
Proof. exact join_l. Qed.
Print Assumptions C45_join_inserts_delimiters.

(** Finding: the length is computed in an int, so joining 2^31 characters throws. *)
Theorem C45_long_join_refuted : exists parts d, join parts d = Abort.
Proof. exact join_long_l. Qed.
Print Assumptions C45_long_join_refuted.

(** Replace: the first occurrences, from the left, what is put in is not searched again. *)
Theorem C45_replace_first_occurrences :
  forall from to s count, from <> [] -> 0 <= count ->
  exists t, replace from to s count = Ok t /\ replaced from to count s t.
Proof. exact replace_l. Qed.
Print Assumptions C45_replace_first_occurrences.

(** With a large enough count it joins the parts with the new text. *)
Theorem C45_replace_all :
  forall from to s count parts, from <> [] -> split s from true = Ok parts -> Z.of_nat (length s) <= count ->
  replace from to s count = Ok (joined to parts).
Proof. exact replace_all_l. Qed.
Print Assumptions C45_replace_all.

(** SplitString and SplitStringToMap. *)
Theorem C45_split_string :
  forall s c, exists parts, is_split [c] s parts /\ split_string s c = Ok (filter nonempty parts).
Proof. exact split_string_l. Qed.
Print Assumptions C45_split_string.

Theorem C45_split_string_to_map :
  forall s c1 c2 (trim : bool), exists m parts es,
  split_to_map s c1 c2 trim = Ok m /\ is_split [c1] s parts /\
  Forall2 (fun p e => exists fs, is_split [c2] p fs /\ e = entry (if trim then strip else fun x => x) (filter nonempty fs))
    (filter nonempty parts) es /\
  forall k, map_get m k = last_entry k es.
Proof. exact split_to_map_l. Qed.
Print Assumptions C45_split_string_to_map.

Theorem C45_strip_takes_spaces_off : forall s, trimmed s (strip s).
Proof. exact strip_l. Qed.
Print Assumptions C45_strip_takes_spaces_off.

Theorem C45_trimmed_is_determined : forall s t1 t2, trimmed s t1 -> trimmed s t2 -> t1 = t2.
Proof. exact trimmed_unique. Qed.
Print Assumptions C45_trimmed_is_determined.

(** The three functions that trim. *)
Theorem C45_trim_inplace : forall s, trimmed s (trim_inplace s).
Proof. exact trim_inplace_l. Qed.
Print Assumptions C45_trim_inplace.
Theorem C45_trim_string_view : forall s, Z.of_nat (length s) < 2 ^ 63 -> trimmed s (trim_string_view s).
Proof. exact trim_string_view_l. Qed.
Print Assumptions C45_trim_string_view.
Theorem C45_trim_view : forall s, s <> [] -> Z.of_nat (length s) < 2 ^ 63 -> exists t, trim_view s = Ok t /\ trimmed s t.
Proof. exact trim_view_l. Qed.
Print Assumptions C45_trim_view.
(** Finding: trpc::Trim of an empty view is undefined. *)
Theorem C45_trim_empty_refuted : trim_view [] = UB.
Proof. reflexivity. Qed.
Print Assumptions C45_trim_empty_refuted.

(** Prefixes and suffixes. *)
Theorem C45_starts_with : forall s p, exists b, starts_with s p = Ok b /\ (b = true <-> exists t, s = p ++ t).
Proof. exact starts_with_l. Qed.
Print Assumptions C45_starts_with.
Theorem C45_ends_with : forall s p, exists b, ends_with s p = Ok b /\ (b = true <-> exists t, s = t ++ p).
Proof. exact ends_with_l. Qed.
Print Assumptions C45_ends_with.
Theorem C45_trim_prefix : forall s p,
  (forall t, s = p ++ t -> trim_prefix s p = Ok t) /\ ((forall t, s <> p ++ t) -> trim_prefix s p = Ok s).
Proof. exact trim_prefix_l. Qed.
Print Assumptions C45_trim_prefix.
Theorem C45_trim_suffix : forall s p,
  (forall t, s = t ++ p -> trim_suffix s p = Ok t) /\ ((forall t, s <> t ++ p) -> trim_suffix s p = Ok s).
Proof. exact trim_suffix_l. Qed.
Print Assumptions C45_trim_suffix.

(** Overlapping and repeated delimiters. *)
Example C45_case :
  split (str "a::::b:") (str "::") true = Ok [str "a"; str ""; str "b:"] /\
  split (str "a::::b:") (str "::") false = Ok [str "a"; str "b:"] /\
  join [str "a"; str ""; str "b:"] (str "::") = Ok (str "a::::b:") /\
  split (str "aaa") (str "aa") true = Ok [str ""; str "a"] /\
  replace (str "aa") (str "aab") (str "aaaa") 1 = Ok (str "aabaa") /\
  replace (str "aa") (str "aab") (str "aaaa") 9 = Ok (str "aabaab") /\
  split_to_map (str "a=1& b =2=3&=&c&a=4") x26 x3d true = Ok [(str "a", str "4"); (str "b", str "2"); (str "c", str "")] /\
  trim_view (str "  a b ") = Ok (str "a b").
Proof. vm_compute. repeat split. Qed.

(** ** C46 *)

(** ASCII text is converted; on any other text the table is indexed out of bounds (char is signed). *)
Theorem C46_to_lower :
  forall s, (ascii s -> to_lower s = Ok (map ascii_lower s)) /\ (~ ascii s -> to_lower s = UB).
Proof. exact to_lower_l. Qed.
Print Assumptions C46_to_lower.

Theorem C46_to_upper :
  forall s, (ascii s -> to_upper s = Ok (map ascii_upper s)) /\ (~ ascii s -> to_upper s = UB).
Proof. exact to_upper_l. Qed.
Print Assumptions C46_to_upper.

Theorem C46_iequals :
  forall a b, ascii a -> ascii b -> exists r, iequals a b = Ok r /\ (r = true <-> map ascii_lower a = map ascii_lower b).
Proof. exact iequals_l. Qed.
Print Assumptions C46_iequals.

(** Finding: the letter e with an acute accent, in UTF-8. *)
Theorem C46_total_on_bytes_refuted :
  to_lower [xc3; xa9] = UB /\ to_upper [xc3; xa9] = UB /\ iequals [xc3; xa9] [xc3; xa9] = UB.
Proof. vm_compute. repeat split. Qed.
Print Assumptions C46_total_on_bytes_refuted.

Example C46_case :
  to_lower (str "Az-[09]") = Ok (str "az-[09]") /\ to_upper (str "Az-{09}") = Ok (str "AZ-{09}") /\
  iequals (str "Content-Type") (str "content-tYPE") = Ok true /\ iequals (str "@") (str "`") = Ok false.
Proof. vm_compute. repeat split. Qed.

(** ** C50 *)

(** TryParse of a signed type accepts exactly the numerals whose value the type holds. *)
Theorem C50_signed_exact :
  forall bits erange s x, 1 <= bits <= 64 -> (erange = false \/ bits < 64) ->
  (try_parse_signed bits erange s = Some x <-> integer_is s x /\ - 2 ^ (bits - 1) <= x < 2 ^ (bits - 1)).
Proof. exact signed_l. Qed.
Print Assumptions C50_signed_exact.

(** An unsigned type: a minus sign is taken modulo 2^64. *)
Theorem C50_unsigned_modulo :
  forall bits erange s x, 1 <= bits <= 64 -> (erange = false \/ bits < 64) ->
  (try_parse_unsigned bits erange s = Some x <->
   exists neg v, numeral s neg v /\ v < 2 ^ 64 /\ x = (if neg then - v else v) mod 2 ^ 64 /\ x < 2 ^ bits).
Proof. exact unsigned_l. Qed.
Print Assumptions C50_unsigned_modulo.

(** A truth value: the numbers 0 and 1 and six words. *)
Theorem C50_bool_exact :
  forall erange s alphabet ignore_case, ascii s ->
  exists r, try_parse_bool erange s alphabet ignore_case = Ok r /\ (r = Some true <-> means_true s) /\ (r = Some false <-> means_false s).
Proof. exact try_parse_bool_l. Qed.
Print Assumptions C50_bool_exact.

(** Finding: a negative number is accepted for an unsigned type as a small number. *)
Theorem C50_negative_unsigned_refuted : try_parse_unsigned 8 false (str "-18446744073709551615") = Some 1.
Proof. vm_compute. reflexivity. Qed.
Print Assumptions C50_negative_unsigned_refuted.

(** Finding: errno is not cleared first, so the largest number is refused after an earlier error. *)
Theorem C50_stale_errno_refuted :
  try_parse_signed 64 true (str "9223372036854775807") = None /\ try_parse_signed 64 false (str "9223372036854775807") = Some (2 ^ 63 - 1).
Proof. vm_compute. repeat split. Qed.
Print Assumptions C50_stale_errno_refuted.

(** Finding: what follows a NUL is ignored. *)
Theorem C50_garbage_after_nul_refuted : try_parse_signed 32 false (str "12" ++ x00 :: str "abc") = Some 12.
Proof. vm_compute. reflexivity. Qed.
Print Assumptions C50_garbage_after_nul_refuted.

(** Finding: the options of the bool parser have no effect. *)
Theorem C50_bool_options_ignored_refuted : try_parse_bool false (str "YES") false false = Ok (Some true).
Proof. vm_compute. reflexivity. Qed.
Print Assumptions C50_bool_options_ignored_refuted.

Example C50_case :
  try_parse_signed 8 false (str " -128") = Some (-128) /\ try_parse_signed 8 false (str "128") = None /\
  try_parse_signed 8 false (str "12x") = None /\ try_parse_signed 64 false (str "99999999999999999999") = None /\
  try_parse_unsigned 16 true (str "+65535") = Some 65535 /\ try_parse_unsigned 16 false (str "") = None /\
  try_parse_bool false (str "No") true true = Ok (Some false) /\ try_parse_bool false (str "2") true true = Ok None.
Proof. vm_compute. repeat split. Qed.
