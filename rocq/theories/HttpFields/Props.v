(** Property C18: header maps. *)
From Verif.Lib Require Import Base Bytes.
From Coq Require Import Strings.Byte Strings.String Lists.List.
From Verif.HttpFields Require Import Model Spec Proofs ProofsOrder.
Local Open Scope string_scope.
Local Open Scope list_scope.
Local Open Scope Z_scope.

(** Every sequence of calls on the headers is answered as the list of added pairs says, names being
    compared without letter case; ToString lists the pairs, those of one name in the order they were
    added, pseudo headers first. *)
Theorem C18_headers_are_a_multimap :
  forall calls, names_ok (names calls) ->
  exists l answers, fm_run ci_less [] calls = Ok (l, answers) /\
    Forall2 (agree same_ci pseudo_first) answers (s_run same_ci [] calls).
Proof. exact header_map_l. Qed.
Print Assumptions C18_headers_are_a_multimap.

(** The case-sensitive map (query parameters), any names; SetIfNotPresent is not used. *)
Theorem C18_query_parameters_are_a_multimap :
  forall calls, no_set_if_not_present calls ->
  exists l answers, fm_run cs_less [] calls = Ok (l, answers) /\
    Forall2 (agree same_cs any_order) answers (s_run same_cs [] calls).
Proof. exact query_map_l. Qed.
Print Assumptions C18_query_parameters_are_a_multimap.

(** Finding: SetIfNotPresent compares without letter case also in the case-sensitive map: a
    parameter that is not present is not set. *)
Theorem C18_set_if_not_present_ignores_case_refuted :
  exists l, fm_run cs_less [] [FAdd (str "a") (str "1"); FSetIfNotPresent (str "A") (str "2"); FHas (str "A")] =
    Ok (l, [ADone; ADone; ABool false]).
Proof. eexists. vm_compute. reflexivity. Qed.
Print Assumptions C18_set_if_not_present_ignores_case_refuted.

(** Finding: the comparison of headers is not an order.  A pseudo header, a name starting with a
    digit and a short name form a cycle ... *)
Theorem C18_comparison_cycle_refuted :
  exists a b c, ci_less a b = Ok true /\ ci_less b c = Ok true /\ ci_less c a = Ok true.
Proof. exists (str "0abc"), (str ":x"), (str "a"). vm_compute. repeat split. Qed.
Print Assumptions C18_comparison_cycle_refuted.

(** ... a pseudo header is equal to those it is a prefix of: the value of the other one is found ... *)
Theorem C18_pseudo_prefix_refuted :
  exists l, fm_run ci_less [] [FAdd (str ":path") (str "/x"); FGet (str ":p")] = Ok (l, [ADone; AText (str "/x")]).
Proof. eexists. vm_compute. reflexivity. Qed.
Print Assumptions C18_pseudo_prefix_refuted.

(** ... names that differ behind a NUL are equal ... *)
Theorem C18_nul_refuted :
  exists l, fm_run ci_less [] [FAdd [x61; x00; x62] (str "1"); FGet [x61; x00; x63]] = Ok (l, [ADone; AText (str "1")]).
Proof. eexists. vm_compute. reflexivity. Qed.
Print Assumptions C18_nul_refuted.

(** ... and an empty name is read at its front. *)
Theorem C18_empty_name_refuted : fm_run ci_less [] [FAdd (str "Host") (str "h"); FGet []] = UB.
Proof. vm_compute. reflexivity. Qed.
Print Assumptions C18_empty_name_refuted.

Definition C18_calls : list fm_call :=
  [FAdd (str "Set-Cookie") (str "a"); FAdd (str "host") (str "h"); FAdd (str "set-cookie") (str "b"); FAdd (str ":path") (str "/");
   FGet (str "HOST"); FValues (str "SET-COOKIE"); FSetIfNotPresent (str "Host") (str "i"); FSetIfNotPresent (str "date") (str "d");
   FDeleteValue (str "set-Cookie") (str "a"); FValues (str "set-cookie"); FSet (str "HoSt") (str "j"); FValues (str "host");
   FToString; FByteSize; FDelete (str "DATE"); FHas (str "date"); FSize; FClear; FSize].

Example C18_names_ok : names_ok (names C18_calls).
Proof.
  assert (P : forall n, In n (names C18_calls) -> match n with [] => false | c :: _ => true end && forallb (fun b => negb (Byte.eqb b x00)) n = true).
  { apply forallb_forall. vm_compute. reflexivity. }
  split; [|split].
  - intros n Hn. specialize (P n Hn). destruct n as [|c n]; [discriminate|]. split; [discriminate|]. intros Q.
    apply andb_true_iff in P. destruct P as [_ P]. rewrite forallb_forall in P. specialize (P _ Q). discriminate.
  - right. cbn. intros n Hn Hp. repeat (destruct Hn as [<-|Hn]; [vm_compute; try reflexivity; discriminate|]). destruct Hn.
  - cbn. intros a b Ha Hb Pa Pb _.
    repeat (destruct Ha as [<-|Ha]; [vm_compute in Pa; try discriminate|]); [|destruct Ha].
    repeat (destruct Hb as [<-|Hb]; [vm_compute in Pb; try discriminate|]); [|destruct Hb]. reflexivity.
Qed.

Example C18_case : exists l, fm_run ci_less [] C18_calls =
  Ok (l, [ADone; ADone; ADone; ADone; AText (str "h"); ATexts [str "a"; str "b"]; ADone; ADone; ADone; ATexts [str "b"];
          ADone; ATexts [str "j"];
          AText (str ":path: /" ++ [x0d; x0a] ++ str "date: d" ++ [x0d; x0a] ++ str "HoSt: j" ++ [x0d; x0a] ++ str "set-cookie: b" ++ [x0d; x0a]);
          ANum 43; ADone; ABool false; ANum 3; ADone; ANum 0]).
Proof. eexists. vm_compute. reflexivity. Qed.
