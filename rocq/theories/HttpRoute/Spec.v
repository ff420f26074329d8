(** Specification of routing. *)
From Verif.Lib Require Import Base Bytes.
From Coq Require Import Strings.Byte.
From Coq Require Strings.String.
Import String.StringSyntax.
From Verif.HttpRoute Require Import Model.
Local Open Scope string_scope.
Local Open Scope list_scope.
Local Open Scope Z_scope.

(** Readable byte strings. *)
Definition str := String.list_byte_of_string.

Definition at_boundary (after : text) : Prop := after = [] \/ exists t, after = x2f :: t.
Definition no_slash (s : text) : Prop := ~ In x2f s.

(** A placeholder pattern matches a text, binding non-empty pieces without slashes. *)
Inductive ph_spec : list item -> text -> list (text * text) -> Prop :=
| ph_end : ph_spec [] [] []
| ph_lit c r s b : ph_spec r s b -> ph_spec (PLit c :: r) (c :: s) b
| ph_dot c r s b : c <> x0a -> c <> x0d -> ph_spec r s b -> ph_spec (PDot :: r) (c :: s) b
| ph_var n v r s b : v <> [] -> no_slash v -> ph_spec r s b -> ph_spec (PVar n :: r) (v ++ s) ((n, v) :: b).

Definition literal_at (cmp rest after : text) : Prop := rest = cmp ++ after /\ at_boundary after.

(** A matcher takes the front of the rest of the URL. *)
Inductive consumes (url : text) : matcher -> text -> list (text * text) -> text -> Prop :=
| c_string c rest after : literal_at c rest after -> consumes url (MString c) rest [] after
| c_regex_literal c f rest after : literal_at c rest after -> consumes url (MRegex c f) rest [] after
| c_regex c f rest : (forall after, ~ literal_at c rest after) -> f url = true -> consumes url (MRegex c f) rest [] []
| c_placeholder items rest b : ph_spec items url b -> consumes url (MPlaceholder items) rest b []
| c_segment n c v after : no_slash v -> at_boundary after -> consumes url (MParam n false) (c :: v ++ after) [(n, c :: v)] after
| c_remainder n rest : consumes url (MParam n true) rest [(n, rest)] [].

Inductive chain (url : text) : list matcher -> text -> list (text * text) -> text -> Prop :=
| chain_nil rest : chain url [] rest [] rest
| chain_cons m ms rest b mid bs after : consumes url m rest b mid -> chain url ms mid bs after ->
    chain url (m :: ms) rest (b ++ bs) after.

(** A rule matches a URL if the matchers take all of it, up to one slash at the end. *)
Definition rule_matches (url : text) (ms : list matcher) (b : list (text * text)) : Prop :=
  exists after, chain url ms url b after /\ (after = [] \/ after = [x2f]).

(** The handler registered last for exactly this path. *)
Fixpoint last_put (l : list registration) (m : nat) (path : text) (acc : option nat) : option nat :=
  match l with
  | [] => acc
  | RPut m1 p1 h :: r =>
      last_put r m path (if Nat.eqb m1 m then if list_eq_dec byte_eq_dec p1 path then h else acc else acc)
  | RAdd _ _ _ :: r => last_put r m path acc
  end.

(** The rules registered for a method, in order. *)
Definition rules_of (l : list registration) (m : nat) : list (list matcher * option nat) :=
  flat_map (fun x => match x with RAdd m1 ms h => if Nat.eqb m1 m then [(ms, h)] else [] | RPut _ _ _ => [] end) l.

Definition does_not_match (url : text) (r : list matcher * option nat) : Prop :=
  snd r = None \/ forall b, ~ rule_matches url (fst r) b.

Inductive dispatch (l : list registration) (m : nat) (url : text) : option nat -> list (text * text) -> Prop :=
| d_exact h : last_put l m url None = Some h -> dispatch l m url (Some h) []
| d_rule before ms h later b :
    last_put l m url None = None -> rules_of l m = before ++ (ms, Some h) :: later ->
    Forall (does_not_match url) before -> rule_matches url ms b -> dispatch l m url (Some h) b
| d_none : last_put l m url None = None -> Forall (does_not_match url) (rules_of l m) -> dispatch l m url None [].

(** The last value bound to a name. *)
Definition last_bound (b : list (text * text)) (n : text) : option text :=
  match find (fun x => if list_eq_dec byte_eq_dec (fst x) n then true else false) (rev b) with
  | Some x => Some (snd x)
  | None => None
  end.

Definition rules_have_matchers (l : list registration) : Prop :=
  forall m ms h, In (RAdd m ms h) l -> ms <> [].

(** Every placeholder is a whole segment up to its end: it is followed by a slash or the end. *)
Fixpoint segment_pattern (items : list item) : Prop :=
  match items with
  | [] => True
  | PVar _ :: r => match r with [] => True | PLit c :: _ => c = x2f | _ => False end /\ segment_pattern r
  | _ :: r => segment_pattern r
  end.

(** How a placeholder pattern is written. *)
Definition word_char (b : byte) : Prop :=
  48 <= b2z b <= 57 \/ 65 <= b2z b <= 90 \/ 97 <= b2z b <= 122 \/ b2z b = 95.
Definition writable (i : item) : Prop :=
  match i with
  | PLit c => ~ In c (str "^$\*+?()[]{}|") /\ c <> x3c /\ c <> x2e
  | PDot => True
  | PVar n => n <> [] /\ Forall word_char n
  end.
Definition render_item (i : item) : text :=
  match i with PLit c => [c] | PDot => str "." | PVar n => str "<" ++ n ++ str ">" end.
Definition render (items : list item) : text := flat_map render_item items.
Definition no_line_break (s : text) : Prop := ~ In x0a s /\ ~ In x0d s.
