(** Model of trpc/util/http/url.cc: parsing URLs, and of the accessors of Url and UrlParser
    (url.h:46-134).

    A pointer is the memory from it on, [m], and the distance to the end of the view, [left] (which is
    negative behind the end).  Reading behind the memory is undefined.  Not modelled: forming the
    pointer one before the first character (SplitHostAndPort with an empty range). *)
From Verif.Lib Require Import Base Bytes Decimal.
From Coq Require Import Strings.Byte.
Local Open Scope Z_scope.
Local Open Scope out_scope.

Notation text := (list byte).

(** CheckValidChar, url.cc:31-38. *)
Definition valid_char (c : byte) : bool :=
  let v := b2z c in
  (48 <=? v) && (v <=? 57) || (65 <=? v) && (v <=? 90) || (97 <=? v) && (v <=? 122) ||
  existsb (Byte.eqb c)
    [x3a; x2f; x3f; x23; x5b; x5d; x40; x21; x24; x26; x27; x28; x29; x2a; x2b; x2c; x3b; x3d; x2d; x2e; x5f; x7e; x25; x20].

(** CheckAllSpaces, url.cc:39-43. *)
Fixpoint all_spaces (m : text) (left : Z) : out bool :=
  if 0 <? left then
    match m with
    | [] => UB
    | c :: r => if Byte.eqb c x20 then all_spaces r (left - 1) else Ok (left =? 0)
    end
  else Ok (left =? 0).

(** SplitHostAndPort, url.cc:45-60: from the last character backwards, not looking at the first. *)
Fixpoint split_loop (r : text) (digits : text) : option (text * text) :=
  match r with
  | [] => None
  | c :: r1 =>
      match r1 with
      | [] => None
      | _ =>
          if (48 <=? b2z c) && (b2z c <=? 57) then split_loop r1 (c :: digits)
          else if Byte.eqb c x3a then Some (rev r1, digits)
          else None
      end
  end.
Definition split_host_port (s : text) : text * text :=
  match split_loop (rev s) [] with Some hp => hp | None => (s, []) end.

(** FastCheck, url.cc:66-141. *)
Inductive check := KContinue | KCheck | KBreak.
Definition fast_check (c : byte) : check :=
  if existsb (Byte.eqb c) [x00; x23; x2f; x3f] then KBreak
  else if existsb (Byte.eqb c) [x20; x3a; x40] then KCheck
  else KContinue.

(** ParseSchemeAndAuthority, url.cc:144-186.  [tok]: what lies between start and p.  [None]: nullptr;
    otherwise scheme, userinfo, the rest of the authority, and p. *)
Fixpoint authority (m : text) (left : Z) (tok : text) (scheme userinfo : option text)
  : out (option (option text * option text * text * text * Z)) :=
  if 0 <? left then
    match m with
    | [] => UB
    | c :: r =>
        match fast_check c with
        | KContinue => authority r (left - 1) (tok ++ [c]) scheme userinfo
        | KBreak => Ok (Some (scheme, userinfo, tok, m, left))
        | KCheck =>
            if negb (valid_char c) then Ok None
            else if Byte.eqb c x3a then
              match r with
              | [] => UB
              | c1 :: r1 =>
                  if Byte.eqb c1 x2f then
                    match r1 with
                    | [] => UB
                    | c2 :: r2 =>
                        if Byte.eqb c2 x2f && match scheme with None => true | Some _ => false end
                        then authority r2 (left - 3) [] (Some tok) userinfo
                        else authority r (left - 1) (tok ++ [c]) scheme userinfo
                    end
                  else authority r (left - 1) (tok ++ [c]) scheme userinfo
              end
            else if Byte.eqb c x40 then
              match userinfo with
              | None => authority r (left - 1) [] scheme (Some tok)
              | Some _ => authority r (left - 1) (tok ++ [c]) scheme userinfo
              end
            else if Byte.eqb c x20 then
              let! b := all_spaces r (left - 1) in
              if b : bool then Ok (Some (scheme, userinfo, tok, m, left)) else Ok None
            else authority r (left - 1) (tok ++ [c]) scheme userinfo
        end
    end
  else Ok (Some (scheme, userinfo, tok, m, left)).

(** The loops of ParsePath (188-206), ParseQuery (208-225) and ParseFragment (227-244): they go on
    while [cond] holds of the distance and the character. *)
Fixpoint scan (cond : Z -> byte -> bool) (bounded : bool) (m : text) (left : Z) (tok : text) : out (option (text * text * Z)) :=
  if bounded && negb (0 <? left) then Ok (Some (tok, m, left))
  else
    match m with
    | [] => UB
    | c :: r =>
        if cond left c then
          if Byte.eqb c x20 then
            let! b := all_spaces r (left - 1) in
            if b : bool then Ok (Some (tok, m, left)) else Ok None
          else scan cond bounded r (left - 1) (tok ++ [c])
        else Ok (Some (tok, m, left))
    end.
Definition parse_path (m : text) (left : Z) : out (option (text * text * Z)) :=
  match m with
  | [] => UB
  | c :: r =>
      if Byte.eqb c x2f
      then scan (fun _ c => negb (Byte.eqb c x3f) && negb (Byte.eqb c x23)) true r (left - 1) [c]
      else Ok (Some ([], m, left))
  end.
Definition parse_query (m : text) (left : Z) : out (option (text * text * Z)) :=
  match m with
  | [] => UB
  | c :: r =>
      if Byte.eqb c x3f
      then scan (fun _ c => negb (Byte.eqb c x00) && negb (Byte.eqb c x23)) false r (left - 1) []
      else Ok (Some ([], m, left))
  end.
Definition parse_fragment (m : text) (left : Z) : out (option (text * text * Z)) :=
  match m with
  | [] => UB
  | c :: r =>
      if Byte.eqb c x23 then scan (fun _ _ => true) true r (left - 1) [] else Ok (Some ([], m, left))
  end.

(** The leading spaces, url.cc:249-250. *)
Fixpoint skip_leading (m : text) (left : Z) : out (text * Z) :=
  match m with
  | [] => UB
  | c :: r => if Byte.eqb c x20 && (0 <? left) then skip_leading r (left - 1) else Ok (m, left)
  end.

(** Url, url.h:46-92 (raw_path_ and raw_query_ are not set by the parser). *)
Record url := { u_scheme : text; u_userinfo : text; u_host : text; u_port : text; u_path : text; u_query : text; u_fragment : text }.

(** ParseUrl, url.cc:246-281; [None]: returns false. *)
Definition parse_url (m : text) (size : Z) : out (option url) :=
  let! (m0, left0) := skip_leading m size in
  let! a := authority m0 left0 [] None None in
  match a with
  | None => Ok None
  | Some (scheme, userinfo, tok, m1, left1) =>
      let '(host, port) := split_host_port tok in
      let! p := parse_path m1 left1 in
      match p with
      | None => Ok None
      | Some (path, m2, left2) =>
          let! q := parse_query m2 left2 in
          match q with
          | None => Ok None
          | Some (query, m3, left3) =>
              let! f := parse_fragment m3 left3 in
              match f with
              | None => Ok None
              | Some (fragment, _, _) =>
                  let get o := match o with Some t => t | None => [] end in
                  Ok (Some {| u_scheme := get scheme; u_userinfo := get userinfo; u_host := host; u_port := port;
                              u_path := path; u_query := query; u_fragment := fragment |})
              end
          end
      end
  end.

(** Url::Username and Url::Password, url.cc:282-296. *)
Fixpoint before_colon (s : text) : text :=
  match s with [] => [] | c :: r => if Byte.eqb c x3a then [] else c :: before_colon r end.
Fixpoint after_colon (s : text) : text :=
  match s with [] => [] | c :: r => if Byte.eqb c x3a then r else after_colon r end.
Definition username (u : url) : text := before_colon (u_userinfo u).
Definition password (u : url) : text := after_colon (u_userinfo u).

(** Url::IntegerPort, url.cc:298-305, for ports as SplitHostAndPort leaves them (digits); std::stoi
    throws if the value does not fit an int. *)
Definition integer_port (u : url) : Z :=
  match u_port u with [] => -1 | p => if dval p <=? 2 ^ 31 - 1 then dval p else -1 end.
(** UrlParser::IntegerPort, url.h:122. *)
Definition parser_port (u : url) : Z := integer_port u mod 2 ^ 16.

(** Url::RequestUri, url.cc:307-322. *)
Definition request_uri (u : url) : text :=
  u_path u ++ match u_query u with [] => [] | q => x3f :: q end ++ match u_fragment u with [] => [] | f => x23 :: f end.
