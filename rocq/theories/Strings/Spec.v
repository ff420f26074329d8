(** Specification of the string helpers. *)
From Verif.Lib Require Import Base Bytes.
From Coq Require Import Strings.Byte.
From Coq Require Strings.String.
Import String.StringSyntax.
Local Open Scope string_scope.
Local Open Scope list_scope.
Local Open Scope Z_scope.

Notation text := (list byte).
Definition str := String.list_byte_of_string.

Definition contains (d s : text) : Prop := exists x y, s = x ++ d ++ y.

(** [a] is what stands before the first occurrence of [d]. *)
Definition first_at (d a s rest : text) : Prop :=
  s = a ++ d ++ rest /\ forall x y, s = x ++ d ++ y -> (length a <= length x)%nat.

(** The parts of a text between occurrences of [d], taken from the left. *)
Inductive is_split (d : text) : text -> list text -> Prop :=
| split_last s : ~ contains d s -> is_split d s [s]
| split_at a s rest parts : first_at d a s rest -> is_split d rest parts -> is_split d s (a :: parts).

Fixpoint joined (d : text) (parts : list text) : text :=
  match parts with
  | [] => []
  | [p] => p
  | p :: r => p ++ d ++ joined d r
  end.

Definition nonempty (p : text) : bool := match p with [] => false | _ => true end.

(** The first [n] occurrences, taken from the left, are replaced. *)
Inductive replaced (from to : text) : Z -> text -> text -> Prop :=
| r_none n s : ~ contains from s -> replaced from to n s s
| r_stop s : replaced from to 0 s s
| r_step n a s rest t : 0 < n -> first_at from a s rest -> replaced from to (n - 1) rest t -> replaced from to n s (a ++ to ++ t).

(** Spaces taken off both ends. *)
Definition spaces (l : text) : Prop := Forall (eq x20) l.
Definition trimmed (s t : text) : Prop :=
  exists a b, s = a ++ t ++ b /\ spaces a /\ spaces b /\
    (forall r, t <> x20 :: r) /\ (forall r, t <> r ++ [x20]).

Fixpoint drop_spaces (s : text) : text :=
  match s with c :: r => if byte_eq_dec c x20 then drop_spaces r else s | [] => [] end.
Definition strip (s : text) : text := rev (drop_spaces (rev (drop_spaces s))).

(** Letter case of ASCII. *)
Definition ascii_lower (b : byte) : byte := if (65 <=? b2z b) && (b2z b <=? 90) then z2b (b2z b + 32) else b.
Definition ascii_upper (b : byte) : byte := if (97 <=? b2z b) && (b2z b <=? 122) then z2b (b2z b - 32) else b.
Definition ascii (s : text) : Prop := Forall (fun b => b2z b < 128) s.

(** Numbers as text: white space, a sign, digits; a NUL hides what follows. *)
Definition white (l : text) : Prop := Forall (fun b => In b [x20; x09; x0a; x0b; x0c; x0d]) l.
Definition all_digits (l : text) : Prop := Forall (fun b => 48 <= b2z b <= 57) l.
Fixpoint number (l : text) : Z :=
  match l with [] => 0 | b :: r => (b2z b - 48) * 10 ^ Z.of_nat (length r) + number r end.
Definition hidden (l : text) : Prop := l = [] \/ exists r, l = x00 :: r.
Inductive sign : text -> bool -> Prop := sg_none : sign [] false | sg_plus : sign [x2b] false | sg_minus : sign [x2d] true.
Definition numeral (s : text) (neg : bool) (v : Z) : Prop :=
  exists ws sg ds tail, s = ws ++ sg ++ ds ++ tail /\ white ws /\ sign sg neg /\ ds <> [] /\ all_digits ds /\ hidden tail /\
    v = number ds.

(** SplitStringToMap as documented: per part, the first two non-empty fields; no key, no entry; the
    last entry of a key counts. *)
Definition entry (trim : text -> text) (fields : list text) : option (text * text) :=
  match fields with
  | [] => None
  | k :: vs => match trim k with
               | [] => None
               | key => Some (key, match vs with [] => [] | v :: _ => trim v end)
               end
  end.
Fixpoint last_entry (k : text) (l : list (option (text * text))) : option text :=
  match l with
  | [] => None
  | e :: r => match last_entry k r with
              | Some v => Some v
              | None => match e with
                        | Some (k1, v) => if list_eq_dec byte_eq_dec k1 k then Some v else None
                        | None => None
                        end
              end
  end.

(** Truth values as text. *)
Definition integer_is (s : text) (x : Z) : Prop := exists neg v, numeral s neg v /\ x = if neg : bool then - v else v.
Definition means_true (s : text) : Prop :=
  integer_is s 1 \/ In (map ascii_lower s) [str "y"; str "yes"; str "true"].
Definition means_false (s : text) : Prop :=
  integer_is s 0 \/ In (map ascii_lower s) [str "n"; str "no"; str "false"].

Definition total_length (d : text) (parts : list text) : Z :=
  fold_right (fun p n => Z.of_nat (length p) + Z.of_nat (length d) + n) 0 parts.
