(** Model of the HTTP router: trpc/util/http/{routes.h,routes.cc,match_rule.h,matcher.cc}.

    Handlers are numbers; [None] is a null pointer.  std::regex is not modelled: of the patterns the
    code builds itself, literal characters, '.' and ([^/]+) are; a user's <regex(...)> is any
    function of the URL. *)
From Verif.Lib Require Import Base Bytes.
From Coq Require Import Strings.Byte.
Local Open Scope Z_scope.
Local Open Scope out_scope.

Notation text := (list byte).

(** PathParameters, parameter.h:45-122: params_[k] = v. *)
Definition params := list (text * text).
Fixpoint bytes_eqb (a b : text) : bool :=
  match a, b with
  | [], [] => true
  | x :: r, y :: t => Byte.eqb x y && bytes_eqb r t
  | _, _ => false
  end.
Fixpoint p_set (k v : text) (p : params) : params :=
  match p with
  | [] => [(k, v)]
  | (k1, v1) :: r => if bytes_eqb k1 k then (k1, v) :: r else (k1, v1) :: p_set k v r
  end.
Fixpoint p_get (p : params) (k : text) : option text :=
  match p with
  | [] => None
  | (k1, v1) :: r => if bytes_eqb k1 k then Some v1 else p_get r k
  end.

(** Pieces of a placeholder pattern. *)
Inductive item := PLit (c : byte) | PDot | PVar (n : text).

Inductive matcher :=
| MString (cmp : text)
| MRegex (cmp : text) (search : text -> bool)
| MPlaceholder (items : list item)
| MParam (n : text) (entire : bool).

Fixpoint is_prefix (a b : text) : bool :=
  match a, b with
  | [], _ => true
  | x :: r, y :: t => Byte.eqb x y && is_prefix r t
  | _ :: _, [] => false
  end.

(** std::string_view::find("/", pos). *)
Fixpoint find_slash (s : text) (i : nat) : option nat :=
  match s with
  | [] => None
  | c :: r => if Byte.eqb c x2f then Some i else find_slash r (S i)
  end.
Definition find_from (s : text) (pos : nat) : option nat := find_slash (skipn pos s) pos.

(** FindEndParam, matcher.cc:35-38. *)
Definition find_end_param (url : text) (start : nat) (entire : bool) : nat :=
  match (if entire then Some (length url) else find_from url (start + 1)) with Some p => p | None => length url end.

(** std::string_view::substr throws beyond the end. *)
Definition substr (s : text) (pos n : nat) : out text := if (pos <=? length s)%nat then Ok (firstn n (skipn pos s)) else Abort.

(** ParamMatcher::Match, matcher.cc:41-53. *)
Definition param_match (n : text) (entire : bool) (url : text) (start : nat) (ps : params) : out (option (nat * params)) :=
  let last := find_end_param url start entire in
  if (last =? start)%nat then
    if entire then Ok (Some (start, p_set n [] ps)) else Ok None
  else let! v := substr url start (last - start) in Ok (Some (last, p_set n v ps)).

(** The literal part of StringMatcher::Match, matcher.cc:68-71. *)
Definition literal_match (cmp url : text) (start : nat) : bool :=
  (length cmp + start <=? length url)%nat && is_prefix cmp (skipn start url) &&
  ((length url =? length cmp + start)%nat ||
   match nth_error url (length cmp + start) with Some c => Byte.eqb c x2f | None => false end).

(** ([^/]+): as many characters as possible, fewer if the rest does not match. *)
Fixpoint run_length (s : text) : nat :=
  match s with c :: r => if Byte.eqb c x2f then O else S (run_length r) | [] => O end.
Fixpoint try_lengths (next : text -> option (list (text * text))) (n : text) (i : nat) (s : text) : option (list (text * text)) :=
  match i with
  | O => None
  | S j => match next (skipn i s) with
           | Some r => Some ((n, firstn i s) :: r)
           | None => try_lengths next n j s
           end
  end.

(** std::regex_match of the pattern built by PlaceholderMatcher, matcher.cc:82-101. *)
Fixpoint ph_match (items : list item) (s : text) : option (list (text * text)) :=
  match items with
  | [] => match s with [] => Some [] | _ => None end
  | PLit c :: r => match s with x :: t => if Byte.eqb x c then ph_match r t else None | [] => None end
  | PDot :: r => match s with x :: t => if Byte.eqb x x0a || Byte.eqb x x0d then None else ph_match r t | [] => None end
  | PVar n :: r => try_lengths (ph_match r) n (run_length s) s
  end.

Definition p_sets (binds : list (text * text)) (ps : params) : params := fold_left (fun p b => p_set (fst b) (snd b) p) binds ps.

(** Match of the matchers: StringMatcher, matcher.cc:66-77; PlaceholderMatcher, 103-113 (it looks at
    the whole URL whatever the position); ParamMatcher.  [None]: std::string::npos. *)
Definition m_match (m : matcher) (url : text) (start : nat) (ps : params) : out (option (nat * params)) :=
  match m with
  | MString cmp => Ok (if literal_match cmp url start then Some ((length cmp + start)%nat, ps) else None)
  | MRegex cmp search =>
      Ok (if literal_match cmp url start then Some ((length cmp + start)%nat, ps)
          else if search url then Some (length url, ps) else None)
  | MPlaceholder items =>
      Ok (match ph_match items url with Some binds => Some (length url, p_sets binds ps) | None => None end)
  | MParam n entire => param_match n entire url start ps
  end.

(** MatchRule::Get, match_rule.h:45-54.  The parameters keep what the matchers before a failing one
    have set. *)
Fixpoint rule_get (ms : list matcher) (h : option nat) (url : text) (index : nat) (ps : params) : out (option nat * params) :=
  match ms with
  | [] => Ok (if (length url <=? index + 1)%nat then h else None, ps)
  | m :: r =>
      let! x := m_match m url index ps in
      match x with
      | None => Ok (None, ps)
      | Some (i, ps1) => rule_get r h url i ps1
      end
  end.

(** Routes, routes.h:127-128: exact_rules_ and rules_, by method. *)
Record routes := mk_routes { exact : list (nat * text * option nat); rules : list (nat * (list matcher * option nat)) }.
Definition routes_new : routes := mk_routes [] [].

(** Put, routes.h:72-75 (the latest one is in front) and Add, routes.cc:29-32. *)
Inductive registration := RPut (m : nat) (path : text) (h : option nat) | RAdd (m : nat) (ms : list matcher) (h : option nat).
Definition register (r : routes) (x : registration) : routes :=
  match x with
  | RPut m path h => mk_routes ((m, path, h) :: exact r) (rules r)
  | RAdd m ms h => mk_routes (exact r) (rules r ++ [(m, (ms, h))])
  end.
Definition build (l : list registration) : routes := fold_left register l routes_new.

(** GetExactMatch, routes.h:88-91. *)
Fixpoint exact_find (l : list (nat * text * option nat)) (m : nat) (path : text) : option nat :=
  match l with
  | [] => None
  | (m1, p1, h) :: r => if (m1 =? m)%nat && bytes_eqb p1 path then h else exact_find r m path
  end.

(** GetHandler, routes.cc:43-56. *)
Fixpoint rules_find (l : list (nat * (list matcher * option nat))) (m : nat) (path : text) (ps : params)
  : out (option nat * params) :=
  match l with
  | [] => Ok (None, ps)
  | (m1, (ms, h)) :: r =>
      if (m1 =? m)%nat then
        let! (x, ps1) := rule_get ms h path 0 ps in
        match x with
        | Some y => Ok (Some y, ps1)
        | None => rules_find r m path []
        end
      else rules_find r m path ps
  end.
Definition get_handler (r : routes) (m : nat) (path : text) (ps : params) : out (option nat * params) :=
  match exact_find (exact r) m path with
  | Some h => Ok (Some h, ps)
  | None => rules_find (rules r) m path ps
  end.

(** ** Patterns from strings *)

Definition word (b : byte) : bool :=
  let v := b2z b in
  (48 <=? v) && (v <=? 57) || (65 <=? v) && (v <=? 90) || (97 <=? v) && (v <=? 122) || (v =? 95).
Fixpoint take_word (s : text) : text := match s with c :: r => if word c then c :: take_word r else [] | [] => [] end.
(** Characters that mean something else in a regular expression. *)
Definition special (b : byte) : bool :=
  existsb (Byte.eqb b) [x5e; x24; x5c; x2a; x2b; x3f; x28; x29; x5b; x5d; x7b; x7d; x7c].

(** PlaceholderMatcher::PlaceholderMatcher, matcher.cc:79-101: <name> becomes ([^/]+).  [None]: the
    pattern contains other special characters and is not modelled. *)
Fixpoint parse_items (fuel : nat) (s : text) : option (list item) :=
  match fuel with
  | O => None
  | S f =>
      match s with
      | [] => Some []
      | c :: r =>
          if special c then None
          else if Byte.eqb c x3c then
            let w := take_word r in
            match w, skipn (length w) r with
            | _ :: _, x3e :: t => option_map (cons (PVar w)) (parse_items f t)
            | _, _ => option_map (cons (PLit c)) (parse_items f r)
            end
          else option_map (cons (if Byte.eqb c x2e then PDot else PLit c)) (parse_items f r)
      end
  end.

Definition no_newline (s : text) : bool := forallb (fun c => negb (Byte.eqb c x0a || Byte.eqb c x0d)) s.

(** [between a b s]: the text of [s] between the prefix [a] and the suffix [b]. *)
Definition between (a b s : text) : option text :=
  let n := (length s - length a - length b)%nat in
  if (length a + length b <=? length s)%nat && is_prefix a s && is_prefix b (skipn (length a + n) s) && no_newline (firstn n (skipn (length a) s))
  then Some (firstn n (skipn (length a) s)) else None.

(** StringProxyMatcher::StringProxyMatcher, matcher.cc:115-124: <ph(...)>; StringMatcher's, 55-64:
    <regex...>.  [compile] is std::regex_search for the text of a regular expression. *)
Definition proxy (compile : text -> text -> bool) (s : text) : option matcher :=
  match between [x3c; x70; x68; x28] [x29; x3e] s with
  | Some p => option_map MPlaceholder (parse_items (S (length p)) p)
  | None =>
      match between [x3c; x72; x65; x67; x65; x78] [x3e] s with
      | Some p => Some (MRegex s (compile p))
      | None => Some (MString s)
      end
  end.

(** Routes::Add(type, path, handler), routes.cc:34-41: the matchers of a path with or without
    Remainder. *)
Definition path_rule (compile : text -> text -> bool) (path param : text) : option (list matcher) :=
  option_map (fun m => m :: match param with [] => [] | _ => [MParam param true] end) (proxy compile path).
