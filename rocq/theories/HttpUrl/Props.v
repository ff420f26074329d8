(** C49: URL parsing. *)
From Verif.Lib Require Import Base Bytes Decimal.
From Coq Require Import Strings.Byte.
From Coq Require Strings.String.
From Verif.HttpUrl Require Import Model Spec Proofs ProofsParts.
Import String.StringSyntax.
Local Open Scope string_scope.
Local Open Scope list_scope.
Local Open Scope Z_scope.

(** Of a text followed by a NUL the parser reads nothing undefined, and what follows the NUL does not
    matter. *)
Theorem C49_total : forall s, exists r, forall after, parse_url (s ++ x00 :: after) (Z.of_nat (length s)) = Ok r.
Proof. exact parse_total. Qed.
Print Assumptions C49_total.

(** What is written from parts, between spaces, is parsed into these parts. *)
Theorem C49_parts : forall p n k after, parts_ok p ->
  (forall r, write p <> str " " ++ r) /\
  parse_url ((repeat x20 n ++ write p ++ repeat x20 k) ++ x00 :: after)
    (Z.of_nat (length (repeat x20 n ++ write p ++ repeat x20 k))) = Ok (Some (url_of p)).
Proof. exact parse_parts. Qed.
Print Assumptions C49_parts.

(** Rejected is exactly a space inside. *)
Theorem C49_rejected : forall s after, ~ In x00 s ->
  (parse_url (s ++ x00 :: after) (Z.of_nat (length s)) = Ok None <-> inner_space s).
Proof. exact parse_space. Qed.
Print Assumptions C49_rejected.

Theorem C49_port : forall p, parts_ok p -> forall ds, p_port p = Some ds -> ds <> [] -> dval ds <= 65535 ->
  integer_port (url_of p) = dval ds /\ parser_port (url_of p) = dval ds.
Proof. exact port_value. Qed.
Print Assumptions C49_port.

Theorem C49_user_password : forall u a b, u_userinfo u = a ++ str ":" ++ b -> without (str ":") a ->
  username u = a /\ password u = b.
Proof. exact user_pass. Qed.
Print Assumptions C49_user_password.

Theorem C49_user_only : forall u, without (str ":") (u_userinfo u) -> username u = u_userinfo u /\ password u = [].
Proof. exact user_only. Qed.
Print Assumptions C49_user_only.

(** The request URI is the written URL from the path on. *)
Theorem C49_request_uri : forall p, p_query p <> Some [] -> p_fragment p <> Some [] ->
  request_uri (url_of p) = p_path p ++ given (p_query p) (fun s => str "?" ++ s) ++ given (p_fragment p) (fun s => str "#" ++ s).
Proof. exact uri_parts. Qed.
Print Assumptions C49_request_uri.

(** Concrete: everything at once; an IPv6 host; a port that is empty. *)
Definition full : parts :=
  {| p_scheme := Some (str "https"); p_userinfo := Some (str "john:x"); p_host := str "a.b"; p_port := Some (str "123");
     p_path := str "/f//q"; p_query := Some (str "t=@:/?"); p_fragment := Some (str "top#?") |}.
Example C49_full : write full = str "https://john:x@a.b:123/f//q?t=@:/?#top#?" /\
  parse_url (str "  " ++ write full ++ str " " ++ [x00]) 43 = Ok (Some (url_of full)).
Proof. split; vm_compute; reflexivity. Qed.
Example C49_full_ok : parts_ok full.
Proof.
  assert (D : forall bad s, forallb (fun c => negb (existsb (Byte.eqb c) bad)) s = true -> without bad s).
  { intros bad s H c Hc I. rewrite forallb_forall in H. specialize (H c Hc). apply negb_true_iff in H.
    assert (E : existsb (Byte.eqb c) bad = true) by (apply existsb_exists; exists c; split; [exact I|apply Byte.byte_dec_lb; reflexivity]).
    congruence. }
  unfold full, parts_ok; cbn [p_scheme p_userinfo p_host p_port p_path p_query p_fragment].
  split; [intros s E; injection E as <-; apply D; reflexivity|].
  split; [intros s E; injection E as <-; apply D; reflexivity|].
  split; [apply D; reflexivity|]. split; [left; apply D; reflexivity|].
  split. { intros s E; injection E as <-. split; [discriminate|]. split; [|left; discriminate].
           repeat constructor; cbn; discriminate. }
  split; [right; exists (str "f//q"); reflexivity|]. split; [apply D; reflexivity|].
  split; [intros s E; injection E as <-; apply D; reflexivity|].
  intros s E; injection E as <-; apply D; reflexivity.
Qed.
Example C49_v6 : parse_url (str "[::1]:8080" ++ [x00]) 10 =
  Ok (Some {| u_scheme := []; u_userinfo := []; u_host := str "[::1]"; u_port := str "8080"; u_path := []; u_query := []; u_fragment := [] |}).
Proof. vm_compute. reflexivity. Qed.

(** Findings. *)

(** A view into a longer text is read past its end: the query of the view "a?b" in "a?bXY" is "bXY". *)
Theorem C49_view_refuted : exists m u, parse_url m 3 = Ok (Some u) /\ firstn 3 m = str "a?b" /\ u_query u = str "bXY".
Proof. exists (str "a?bXY" ++ [x00]). eexists. split; [vm_compute; reflexivity|]. split; reflexivity. Qed.
Print Assumptions C49_view_refuted.
(** ... and undefined if nothing follows it. *)
Theorem C49_view_undefined_refuted : parse_url (str "a?b") 3 = UB.
Proof. reflexivity. Qed.
Print Assumptions C49_view_undefined_refuted.

(** A NUL in the host cuts the URL off, and the rest is ignored, even with spaces. *)
Theorem C49_nul_refuted : exists u, parse_url (str "a" ++ [x00] ++ str "b c" ++ [x00]) 5 = Ok (Some u) /\ u_host u = str "a".
Proof. eexists. split; [vm_compute; reflexivity|]. reflexivity. Qed.
Print Assumptions C49_nul_refuted.

(** No character is rejected for being invalid: CheckValidChar is only asked about valid ones. *)
Theorem C49_invalid_character_refuted : exists c u, valid_char c = false /\
  parse_url (str "a" ++ [c] ++ str "b" ++ [x00]) 3 = Ok (Some u) /\ u_host u = str "a" ++ [c] ++ str "b".
Proof. exists x22. eexists. split; [reflexivity|]. split; [vm_compute; reflexivity|]. reflexivity. Qed.
Print Assumptions C49_invalid_character_refuted.

(** UrlParser::IntegerPort: 65616 is port 80, and no port is 65535. *)
Theorem C49_port_truncated_refuted : exists u v,
  parse_url (str "h:65616" ++ [x00]) 7 = Ok (Some u) /\ parser_port u = 80 /\
  parse_url (str "h" ++ [x00]) 1 = Ok (Some v) /\ integer_port v = -1 /\ parser_port v = 65535.
Proof. do 2 eexists. split; [vm_compute; reflexivity|]. split; [vm_compute; reflexivity|]. split; [vm_compute; reflexivity|]. split; vm_compute; reflexivity. Qed.
Print Assumptions C49_port_truncated_refuted.

(** The userinfo ends at the first at-sign; without host a port is the host. *)
Theorem C49_odd_hosts_refuted : exists u v,
  parse_url (str "a@b@c" ++ [x00]) 5 = Ok (Some u) /\ u_userinfo u = str "a" /\ u_host u = str "b@c" /\
  parse_url (str ":80" ++ [x00]) 3 = Ok (Some v) /\ u_host v = str ":80" /\ u_port v = [].
Proof. do 2 eexists. split; [vm_compute; reflexivity|]. split; [reflexivity|]. split; [reflexivity|]. split; [vm_compute; reflexivity|]. split; reflexivity. Qed.
Print Assumptions C49_odd_hosts_refuted.
