(** Specification: the parts of a URL. *)
From Verif.Lib Require Import Base Bytes Decimal.
From Coq Require Import Strings.Byte.
From Coq Require Strings.String.
From Verif.HttpUrl Require Import Model.
Import String.StringSyntax.
Local Open Scope string_scope.
Local Open Scope list_scope.
Local Open Scope Z_scope.

Definition str := String.list_byte_of_string.
Definition without (bad : text) (s : text) : Prop := forall c, In c s -> ~ In c bad.

(** The parts of a URL as they are written. *)
Record parts := {
  p_scheme : option text;
  p_userinfo : option text;
  p_host : text;
  p_port : option text;
  p_path : text;
  p_query : option text;
  p_fragment : option text }.

Definition given (o : option text) (f : text -> text) : text := match o with Some t => f t | None => [] end.
Definition write (p : parts) : text :=
  given (p_scheme p) (fun s => s ++ str "://") ++
  given (p_userinfo p) (fun s => s ++ str "@") ++
  p_host p ++ given (p_port p) (fun s => str ":" ++ s) ++
  p_path p ++
  given (p_query p) (fun s => str "?" ++ s) ++
  given (p_fragment p) (fun s => str "#" ++ s).

Definition nul : text := [x00].
(** No delimiter of a later part inside a part. *)
Definition parts_ok (p : parts) : Prop :=
  (forall s, p_scheme p = Some s -> without (nul ++ str " #/?:@") s) /\
  (forall s, p_userinfo p = Some s -> without (nul ++ str " #/?@") s) /\
  without (nul ++ str " #/?@") (p_host p) /\
  (without (str ":") (p_host p) \/ exists h, p_host p = h ++ str "]") /\
  (forall s, p_port p = Some s -> p_host p <> [] /\ Forall (fun c => 48 <= b2z c <= 57) s /\
     (s <> [] \/ forall r, p_path p <> str "//" ++ r)) /\
  (p_path p = [] \/ exists r, p_path p = str "/" ++ r) /\ without (str " #?") (p_path p) /\
  (forall s, p_query p = Some s -> without (nul ++ str " #") s) /\
  (forall s, p_fragment p = Some s -> without (str " ") s).

Definition text_of (o : option text) : text := match o with Some t => t | None => [] end.
Definition url_of (p : parts) : url :=
  {| u_scheme := text_of (p_scheme p); u_userinfo := text_of (p_userinfo p); u_host := p_host p; u_port := text_of (p_port p);
     u_path := p_path p; u_query := text_of (p_query p); u_fragment := text_of (p_fragment p) |}.

(** A space between two other characters, possibly with more spaces. *)
Definition inner_space (s : text) : Prop :=
  exists a x b y c, s = a ++ [x] ++ str " " ++ b ++ [y] ++ c /\ x <> x20 /\ y <> x20.
