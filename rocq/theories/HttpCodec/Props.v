(** Properties C16, C17, C20, C21: percent encoding, base64, numbers, cookies. *)
From Verif.Lib Require Import Base Bytes Decimal.
From Coq Require Import Strings.Byte Strings.String Lists.List.
From Verif.HttpCodec Require Import Model Spec Proofs ProofsB64.
Local Open Scope string_scope.
Local Open Scope list_scope.
Local Open Scope Z_scope.

(* ------------------------------------------------------------------------- *)
(** * C16: percent encoding *)

Theorem C16_round_trip :
  forall s, exists e, percent_encode s = Ok e /\ pct_string rfc_unreserved e /\
    percent_decode e = Ok s /\ url_decode e = Ok (Some s).
Proof. exact percent_round_trip_l. Qed.
Print Assumptions C16_round_trip.

Theorem C16_path_round_trip : forall s, exists e, percent_encode_path s = Ok e /\ percent_decode e = Ok s.
Proof. exact percent_path_round_trip_l. Qed.
Print Assumptions C16_path_round_trip.

(** Exactly the characters that may not appear are escaped, in upper case. *)
Theorem C16_encode_exact :
  forall s, percent_encode s = Ok (pct_encode rfc_unreserved s) /\ percent_encode_path s = Ok (pct_encode path_allowed s).
Proof. exact encode_exact_l. Qed.
Print Assumptions C16_encode_exact.

(** On every string, malformed or not, PercentDecode reads and writes in bounds and decodes exactly
    the well-formed triples. *)
Theorem C16_decode_any : forall s, percent_decode s = Ok (pct_decode s).
Proof. exact percent_decode_l. Qed.
Print Assumptions C16_decode_any.

(** UrlDecode stays in bounds on every string. *)
Theorem C16_url_decode_in_bounds : forall s, exists r, url_decode s = Ok r.
Proof. exact url_decode_total_l. Qed.
Print Assumptions C16_url_decode_in_bounds.

(** ... and decodes forms when the characters after every '%' are hexadecimal digits. *)
Theorem C16_url_decode_forms : forall s, well_escaped s = true -> url_decode s = Ok (form_decode s).
Proof. exact url_decode_l. Qed.
Print Assumptions C16_url_decode_forms.

(** Finding: otherwise UrlDecode succeeds with an arbitrary byte where the form is malformed. *)
Theorem C16_url_decode_accepts_garbage_refuted :
  exists s r, form_decode s = None /\ url_decode s = Ok (Some r).
Proof. exists (str "%zz"). eexists. split; vm_compute; reflexivity. Qed.
Print Assumptions C16_url_decode_accepts_garbage_refuted.

(** NormalizeUrl drops one trailing slash of anything longer than one character. *)
Theorem C16_normalize_url :
  forall s, normalize_url s =
    Ok match s with a :: r :: t => if Byte.eqb (last s x00) x2f then removelast s else s | _ => s end.
Proof. exact normalize_url_l. Qed.
Print Assumptions C16_normalize_url.

Example C16_case :
  percent_encode (str "a b/%" ++ [xff]) = Ok (str "a%20b%2F%25%FF") /\
  percent_encode_path (str "/a b;c/%") = Ok (str "/a%20b;c/%25") /\
  percent_decode (str "a%20b%2F%25%FF") = Ok (str "a b/%" ++ [xff]) /\
  percent_decode (str "%%41%4") = Ok (str "%A%4") /\
  url_decode (str "a+b%2b%") = Ok None /\ url_decode (str "a+b%2bc") = Ok (Some (str "a b+c")) /\
  well_escaped (str "a+b%2b%") = true /\
  normalize_url (str "/a/") = Ok (str "/a") /\ normalize_url (str "/") = Ok (str "/").
Proof. vm_compute. repeat split. Qed.

(* ------------------------------------------------------------------------- *)
(** * C17: base64 *)

Theorem C17_round_trip : forall s, exists e, base64_encode s = Ok e /\ e = b64 s /\ base64_decode e = Ok s.
Proof. exact base64_round_trip_l. Qed.
Print Assumptions C17_round_trip.

Theorem C17_length : forall s, List.length (b64 s) = (4 * ((List.length s + 2) / 3))%nat.
Proof. intros s. exact (b64_length (List.length s) s (le_n _)). Qed.
Print Assumptions C17_length.

(** Any string of 7-bit characters is decoded in bounds, as RFC 4648 says; failure is the empty
    string. *)
Theorem C17_decode_any :
  forall s, ascii s -> base64_decode s = Ok match unb64 s with Some t => t | None => [] end.
Proof. exact base64_decode_l. Qed.
Print Assumptions C17_decode_any.

(** Finding: a character >= 0x80 is a negative char and indexes before the table. *)
Theorem C17_decode_high_byte_refuted : exists s, base64_decode s = UB.
Proof. exists (xff :: str "AAA"). vm_compute. reflexivity. Qed.
Print Assumptions C17_decode_high_byte_refuted.

Example C17_case :
  base64_encode (str "Man!") = Ok (str "TWFuIQ==") /\ base64_encode [xff; xfe] = Ok (str "//4=") /\
  base64_decode (str "TWFuIQ==") = Ok (str "Man!") /\ base64_decode (str "TWFuI===") = Ok [] /\
  base64_decode (str "TQ==TQ==") = Ok [] /\ base64_decode (str "TWF") = Ok [] /\ base64_decode (str "T~Fu") = Ok [] /\
  unb64 (str "TQ==TQ==") = None.
Proof. vm_compute. repeat split. Qed.

(* ------------------------------------------------------------------------- *)
(** * C20: numbers *)

(** ParseUint; -1 is failure. *)
Theorem C20_parse_uint_exact :
  forall s, parse_uint s = Ok (if all_digits s && (dval s <=? 2 ^ 63 - 1) then dval s else -1).
Proof. exact parse_uint_l. Qed.
Print Assumptions C20_parse_uint_exact.

(** ParseContentLength accepts every number that fits, and never returns a negative one. *)
Theorem C20_content_length_accepts :
  forall s, all_digits s = true -> dval s <= 2 ^ 63 - 1 -> parse_content_length s = Some (dval s).
Proof. exact content_length_digits_l. Qed.
Print Assumptions C20_content_length_accepts.

Theorem C20_content_length_range : forall s v, parse_content_length s = Some v -> 0 <= v <= 2 ^ 63 - 1.
Proof. exact content_length_range_l. Qed.
Print Assumptions C20_content_length_range.

(** Exactly what it accepts and returns. *)
Theorem C20_content_length_exact : forall s v, parse_content_length s = Some v <-> loose_number s v.
Proof. exact content_length_iff_l. Qed.
Print Assumptions C20_content_length_exact.

Example C20_negative : parse_content_length (str "-5") = None /\ parse_content_length (str " +7") = Some 7.
Proof. vm_compute. auto. Qed.

(** Finding: overflow is not reported, and spaces and signs are accepted. *)
Theorem C20_content_length_overflow_refuted :
  exists s, all_digits s = true /\ 2 ^ 63 - 1 < dval s /\ parse_content_length s = Some (2 ^ 63 - 1).
Proof. exists (str "99999999999999999999"). vm_compute. repeat split. Qed.
Print Assumptions C20_content_length_overflow_refuted.

Theorem C20_content_length_sign_refuted :
  exists s t, all_digits s = false /\ parse_content_length s = Some 5 /\
    all_digits t = false /\ parse_content_length t = Some 0.
Proof. exists (str " +5"), (str "-0"). vm_compute. repeat split. Qed.
Print Assumptions C20_content_length_sign_refuted.

Example C20_case :
  parse_uint (str "9223372036854775807") = Ok (2 ^ 63 - 1) /\ parse_uint (str "9223372036854775808") = Ok (-1) /\
  parse_uint (str "18446744073709551617") = Ok (-1) /\ parse_uint (str "12a") = Ok (-1) /\ parse_uint [] = Ok (-1) /\
  parse_uint (str "0042") = Ok 42 /\ parse_content_length (str "42") = Some 42 /\ parse_content_length (str "4 2") = None.
Proof. vm_compute. repeat split. Qed.

(* ------------------------------------------------------------------------- *)
(** * C21: cookies *)

(** Everything a cookie says and nothing else, unless SameSite is Lax (2). *)
Theorem C21_set_cookie_exact :
  forall date now c, ck_same_site c <> 2 -> cookie_to_string date now c = cookie_spec date now c.
Proof. exact cookie_l. Qed.
Print Assumptions C21_set_cookie_exact.

(** Finding: the case for Lax falls through to Strict; the cookie carries both. *)
Theorem C21_lax_refuted :
  forall date now,
  cookie_to_string date now (mk_cookie 0 (str "SID") (str "31") [] [] [] false (-1) false 2) =
    str "SID=31; SameSite=Lax; SameSite=Strict".
Proof. intros. vm_compute. reflexivity. Qed.
Print Assumptions C21_lax_refuted.

(** ... for every version 0 cookie without the flags that follow. *)
Theorem C21_lax_always_wrong_refuted :
  forall date now c, ck_same_site c = 2 -> ck_version c = 0 -> ck_secure c = false -> ck_http_only c = false ->
  cookie_to_string date now c <> cookie_spec date now c \/ cookie_spec date now c = [].
Proof. exact cookie_lax_l. Qed.
Print Assumptions C21_lax_always_wrong_refuted.

Example C21_case :
  cookie_to_string (fun _ => str "DATE") 0 (mk_cookie 0 (str "a") (str "b") (str "no") (str "d") (str "/") true 60 true 3) =
    str "a=b; domain=d; path=/; expires=DATE; SameSite=Strict; secure; HttpOnly" /\
  cookie_to_string (fun _ => []) 0 (mk_cookie 1 (str "a") (str "b") (str "c") (str "d") [] false 60 false (parse_same_site (str "nONE"))) =
    str "a=""b""; Comment=""c""; Domain=""d""; Max-Age=""60""; SameSite=None; Version=""1""".
Proof. vm_compute. repeat split. Qed.
