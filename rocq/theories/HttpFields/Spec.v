(** Specification of a multimap: the pairs in the order they were added, searched from the front. *)
From Coq Require Import Permutation.
From Verif.Lib Require Import Base Bytes.
From Coq Require Import Strings.Byte.
From Coq Require Strings.String.
From Verif.HttpFields Require Import Model.
Local Open Scope Z_scope.

(** Readable byte strings. *)
Definition str := String.list_byte_of_string.

Definition ascii_lower (b : byte) : byte :=
  match b with
  | x41 => x61 | x42 => x62 | x43 => x63 | x44 => x64 | x45 => x65 | x46 => x66 | x47 => x67 | x48 => x68
  | x49 => x69 | x4a => x6a | x4b => x6b | x4c => x6c | x4d => x6d | x4e => x6e | x4f => x6f | x50 => x70
  | x51 => x71 | x52 => x72 | x53 => x73 | x54 => x74 | x55 => x75 | x56 => x76 | x57 => x77 | x58 => x78
  | x59 => x79 | x5a => x7a | _ => b
  end.

Definition list_byte_dec : forall a b : list byte, {a = b} + {a <> b} := list_eq_dec byte_eq_dec.
Definition same_text (a b : list byte) : bool := if list_byte_dec a b then true else false.

(** Names are the same up to letter case / exactly. *)
Definition same_ci (a b : name) : bool := same_text (map ascii_lower a) (map ascii_lower b).
Definition same_cs (a b : name) : bool := same_text a b.

Definition of_name (same : name -> name -> bool) (k : name) (s : fields) : fields := filter (fun p => same (fst p) k) s.
Definition not_name (same : name -> name -> bool) (k : name) (s : fields) : fields := filter (fun p => negb (same (fst p) k)) s.

Definition line (p : name * text) : text := fst p ++ [x3a; x20] ++ snd p ++ [x0d; x0a].

(** Answers; [SLines s]: the lines of [s] in some order. *)
Inductive s_answer := SDone | SText (t : text) | SBool (b : bool) | STexts (l : list text) | SNum (n : Z) | SLines (s : fields).

Definition s_do (same : name -> name -> bool) (s : fields) (c : fm_call) : fields * s_answer :=
  match c with
  | FAdd k v => (s ++ [(k, v)], SDone)
  | FSet k v => (not_name same k s ++ [(k, v)], SDone)
  | FSetIfNotPresent k v => (match of_name same k s with [] => s ++ [(k, v)] | _ => s end, SDone)
  | FDelete k => (not_name same k s, SDone)
  | FDeleteValue k v => (filter (fun p => negb (same (fst p) k && same_text (snd p) v)) s, SDone)
  | FClear => ([], SDone)
  | FGet k => (s, SText (match of_name same k s with (_, v) :: _ => v | [] => [] end))
  | FHas k => (s, SBool (match of_name same k s with [] => false | _ => true end))
  | FValues k => (s, STexts (map snd (of_name same k s)))
  | FSize => (s, SNum (Z.of_nat (length s)))
  | FByteSize => (s, SNum (Z.of_nat (length (concat (map line s)))))
  | FToString => (s, SLines s)
  end.

Fixpoint s_run (same : name -> name -> bool) (s : fields) (cs : list fm_call) : list s_answer :=
  match cs with
  | [] => []
  | c :: r => let '(s1, a) := s_do same s c in a :: s_run same s1 r
  end.

Definition pseudo (n : name) : bool := match n with x3a :: _ => true | _ => false end.

(** Pseudo headers (RFC 9113, 8.3) come before the others. *)
Definition pseudo_first (p : fields) : Prop :=
  exists a b, p = a ++ b /\ Forall (fun x => pseudo (fst x) = true) a /\ Forall (fun x => pseudo (fst x) = false) b.
Definition any_order (p : fields) : Prop := True.

(** [p] lists the pairs of [s]: all of them, those of one name in the order they were added. *)
Definition listing (same : name -> name -> bool) (p s : fields) : Prop :=
  Permutation p s /\ forall x, In x s -> of_name same (fst x) p = of_name same (fst x) s.

Definition agree (same : name -> name -> bool) (order : fields -> Prop) (a : fm_answer) (b : s_answer) : Prop :=
  match a, b with
  | ADone, SDone => True
  | AText x, SText y => x = y
  | ABool x, SBool y => x = y
  | ATexts x, STexts y => x = y
  | ANum x, SNum y => x = y
  | AText x, SLines s => exists p, listing same p s /\ order p /\ x = concat (map line p)
  | _, _ => False
  end.

(** Names in the calls. *)
Definition call_names (c : fm_call) : list name :=
  match c with
  | FAdd k _ | FSet k _ | FSetIfNotPresent k _ | FDelete k | FDeleteValue k _ | FGet k | FHas k | FValues k => [k]
  | FClear | FSize | FByteSize | FToString => []
  end.
Definition names (cs : list fm_call) : list name := flat_map call_names cs.

Definition is_prefix_ci (a b : name) : Prop := exists r, map ascii_lower b = map ascii_lower a ++ r.

Definition starts_above_colon (n : name) : Prop := match n with c :: _ => 58 < b2z (ascii_lower c) | [] => False end.

(** What the comparison needs: names are not empty and contain no NUL; if there are pseudo headers,
    the other names start with a character above ':' (letters do) and no pseudo header is a proper
    prefix of another one. *)
Definition names_ok (ks : list name) : Prop :=
  (forall n, In n ks -> n <> [] /\ ~ In x00 n) /\
  ((forall n, In n ks -> pseudo n = false) \/ (forall n, In n ks -> pseudo n = false -> starts_above_colon n)) /\
  (forall a b, In a ks -> In b ks -> pseudo a = true -> pseudo b = true -> is_prefix_ci a b -> same_ci a b = true).

Definition no_set_if_not_present (cs : list fm_call) : Prop :=
  forall k v, ~ In (FSetIfNotPresent k v) cs.
