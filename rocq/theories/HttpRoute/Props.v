(** Property C19: routing. *)
From Verif.Lib Require Import Base Bytes.
From Coq Require Import Strings.Byte Strings.String Lists.List.
From Verif.HttpRoute Require Import Model Spec Proofs.
Local Open Scope string_scope.
Local Open Scope list_scope.
Local Open Scope Z_scope.

(** After any registrations, a request goes to the handler put last for exactly its path; otherwise
    to the first rule registered for its method that matches all of the path; its parameters are
    those bound by that rule, and none by rules tried before. *)
Theorem C19_request_is_dispatched :
  forall l m url, rules_have_matchers l ->
  exists h ps b, get_handler (build l) m url [] = Ok (h, ps) /\ dispatch l m url h b /\
    forall n, p_get ps n = last_bound b n.
Proof. exact get_handler_l. Qed.
Print Assumptions C19_request_is_dispatched.

(** The specification leaves no choice of handler. *)
Theorem C19_dispatch_is_deterministic :
  forall l m url h1 b1 h2 b2, dispatch l m url h1 b1 -> dispatch l m url h2 b2 -> h1 = h2.
Proof. exact dispatch_det_l. Qed.
Print Assumptions C19_dispatch_is_deterministic.

(** If every placeholder ends at a slash or at the end of the pattern, the bindings are determined as
    well: each is the text of its segment. *)
Theorem C19_segments_are_bound_uniquely :
  forall items s b1 b2, segment_pattern items -> ph_spec items s b1 -> ph_spec items s b2 -> b1 = b2.
Proof. exact ph_unique_l. Qed.
Print Assumptions C19_segments_are_bound_uniquely.

(** Patterns read from text: "<ph(...)>" with names in angle brackets, and plain paths. *)
Theorem C19_placeholder_pattern_is_read :
  forall compile items, Forall writable items -> no_line_break (render items) ->
  proxy compile (str "<ph(" ++ render items ++ str ")>") = Some (MPlaceholder items).
Proof. exact proxy_ph_l. Qed.
Print Assumptions C19_placeholder_pattern_is_read.

Theorem C19_plain_path_is_itself :
  forall compile s, (forall t, s <> x3c :: t) -> proxy compile s = Some (MString s).
Proof. exact proxy_plain_l. Qed.
Print Assumptions C19_plain_path_is_itself.

Theorem C19_regex_is_searched :
  forall compile x, no_line_break x ->
  proxy compile (str "<regex" ++ x ++ str ">") = Some (MRegex (str "<regex" ++ x ++ str ">") (compile x)).
Proof. exact proxy_regex_l. Qed.
Print Assumptions C19_regex_is_searched.

(** A path, and a path with a remainder: the rest of the URL is bound to the name. *)
Theorem C19_remainder_rule :
  forall compile s param, (forall t, s <> x3c :: t) ->
  path_rule compile s param =
  Some (MString s :: match list_eq_dec byte_eq_dec param [] with left _ => [] | right _ => [MParam param true] end).
Proof. exact path_rule_l. Qed.
Print Assumptions C19_remainder_rule.

(** Finding: a dot in a placeholder pattern is a dot of regular expressions, so the path of another
    route is taken. *)
Theorem C19_dot_matches_anything_refuted :
  exists ms ps, path_rule (fun _ _ => false) (str "<ph(/v1.0/<id>)>") [] = Some ms /\
    get_handler (build [RAdd 0 ms (Some 7%nat)]) 0 (str "/v1x0/5") [] = Ok (Some 7%nat, ps) /\
    p_get ps (str "id") = Some (str "5").
Proof. do 2 eexists. vm_compute. repeat split. Qed.
Print Assumptions C19_dot_matches_anything_refuted.

(** Finding: a rule without matchers takes every path of one character. *)
Theorem C19_empty_rule_matches_one_character_refuted :
  get_handler (build [RAdd 0 [] (Some 1%nat)]) 0 (str "x") [] = Ok (Some 1%nat, []) /\
  get_handler (build [RAdd 0 [] (Some 1%nat)]) 0 (str "xy") [] = Ok (None, []).
Proof. vm_compute. repeat split. Qed.
Print Assumptions C19_empty_rule_matches_one_character_refuted.

(** A concrete table: an exact path, a rule with a segment and a remainder, and a placeholder rule
    that would match as well. *)
Definition table : list registration :=
  [RPut 0 (str "/api/users/me") (Some 1%nat);
   RAdd 0 [MString (str "/files"); MParam (str "dir") false; MString (str "/raw"); MParam (str "rest") true] (Some 2%nat);
   RAdd 0 [MPlaceholder (map PLit (str "/api/users/") ++ [PVar (str "id")] ++ map PLit (str "/posts/") ++ [PVar (str "post")])] (Some 3%nat);
   RAdd 1 [MString (str "/files")] (Some 4%nat)].
Example C19_case :
  rules_have_matchers table /\
  get_handler (build table) 0 (str "/api/users/me") [] = Ok (Some 1%nat, []) /\
  get_handler (build table) 0 (str "/files/a/raw/b/c") [] =
    Ok (Some 2%nat, [(str "dir", str "/a"); (str "rest", str "/b/c")]) /\
  get_handler (build table) 0 (str "/api/users/9/posts/x-1") [] = Ok (Some 3%nat, [(str "id", str "9"); (str "post", str "x-1")]) /\
  get_handler (build table) 0 (str "/files/a/cooked") [] = Ok (None, []) /\
  get_handler (build table) 1 (str "/files/") [] = Ok (Some 4%nat, []) /\
  get_handler (build table) 1 (str "/filesystem") [] = Ok (None, []).
Proof.
  split; [|vm_compute; repeat split]. intros m ms h [E|[E|[E|[E|[]]]]]; inversion E; discriminate.
Qed.
