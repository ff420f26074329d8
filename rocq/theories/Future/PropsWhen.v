(** Property C36: combining futures. *)
From Verif.Lib Require Import Base.
From Verif.Future Require Import Model ModelWhen SpecWhen ProofsWhen.
Local Open Scope Z_scope.

(** WhenAll: the promise is set at most once, and then to the results of all inputs in their order (which all
    were there); once all callbacks ran it is set.  The vector is never accessed out of bounds, also not after
    it was moved away. *)
Theorem C36_all : forall V E (inputs : list (res V E)), Z.of_nat (length inputs) < 2 ^ 32 ->
  forall s, all_reach inputs s ->
  l_bad s = false /\ (l_sets s = [] \/ l_sets s = [map Some inputs]) /\
  (l_sets s <> [] -> Forall (fun p => p <> Wait /\ p <> Stored) (l_pcs s)) /\
  (all_ran (l_pcs s) -> l_sets s = [map Some inputs]).
Proof. exact @all_correct. Qed.
Print Assumptions C36_all.

(** WhenAny: the input whose callback is the first to run decides. *)
Theorem C36_any : forall V E (default : V) (inputs : list (res V E)), Z.of_nat (length inputs) < 2 ^ 32 -> inputs <> [] ->
  forall s0 s i, any_step inputs (any_init default (length inputs)) s0 ->
  nth_error (y_pcs s0) i <> Some Wait -> (i < length inputs)%nat -> steps (any_step inputs) s0 s ->
  exists x, nth_error inputs i = Some x /\ (y_sets s = [] \/ y_sets s = [outcome_of i x]) /\
    (all_ran (y_pcs s) -> y_sets s = [outcome_of i x]).
Proof. exact @any_correct. Qed.
Print Assumptions C36_any.

(** WhenAnyWithoutException: the first input with a value decides ... *)
Theorem C36_success : forall V E (default : V) (inputs : list (res V E)), Z.of_nat (length inputs) < 2 ^ 32 -> inputs <> [] ->
  forall s0 s1 s i v, awe_reach default inputs s0 ->
  (forall j w, nth_error inputs j = Some (Val w) -> nth_error (y_pcs s0) j = Some Wait) ->
  awe_step inputs s0 s1 -> nth_error inputs i = Some (Val v) -> nth_error (y_pcs s1) i <> Some Wait ->
  steps (awe_step inputs) s1 s ->
  (y_sets s = [] \/ y_sets s = [Val (Z.of_nat i, v)]) /\ (all_ran (y_pcs s) -> y_sets s = [Val (Z.of_nat i, v)]).
Proof. exact @awe_success. Qed.
Print Assumptions C36_success.

(** ... and it fails exactly if all inputs failed, with the exception counted last. *)
Theorem C36_failure : forall V E (default : V) (inputs : list (res V E)), Z.of_nat (length inputs) < 2 ^ 32 -> inputs <> [] ->
  forall s, awe_reach default inputs s ->
  (forall e, In (Exc e) (y_sets s) -> Forall failed inputs) /\
  (Forall failed inputs -> all_ran (y_pcs s) ->
   exists i e, nth_error (y_fails s) (length inputs - 1) = Some i /\ nth_error inputs i = Some (Exc e) /\ y_sets s = [Exc e]).
Proof. exact @awe_failure. Qed.
Print Assumptions C36_failure.

(** Set at most once, whatever the inputs; set when all callbacks ran. *)
Theorem C36_once : forall V E (default : V) (inputs : list (res V E)), Z.of_nat (length inputs) < 2 ^ 32 -> inputs <> [] ->
  forall s, awe_reach default inputs s ->
  (y_sets s = [] \/
   (exists i v, y_first s = Some i /\ nth_error inputs i = Some (Val v) /\ y_sets s = [Val (Z.of_nat i, v)]) \/
   (Forall failed inputs /\ exists i e, nth_error (y_fails s) (length inputs - 1) = Some i /\ nth_error inputs i = Some (Exc e) /\
     y_sets s = [Exc e])) /\
  (all_ran (y_pcs s) -> y_sets s <> []).
Proof. exact @awe_correct. Qed.
Print Assumptions C36_once.

(** No callback gets stuck: until all have run there is a step. *)
Theorem C36_progress : forall V E (default : V) (inputs : list (res V E)),
  (forall s, all_reach inputs s -> ~ all_ran (l_pcs s) -> exists s', all_step inputs s s') /\
  (forall s, any_reach default inputs s -> ~ all_ran (y_pcs s) -> exists s', any_step inputs s s') /\
  (forall s, awe_reach default inputs s -> ~ all_ran (y_pcs s) -> exists s', awe_step inputs s s').
Proof.
  exact (fun V E d i => conj (@all_progress V E i) (conj (@any_progress V E d i) (@awe_progress V E d i))).
Qed.
Print Assumptions C36_progress.

(** Finding: without inputs both succeed, with index 0 and a default value. *)
Theorem C36_empty : forall V E (default : V) (s : any V E), any_reach default [] s \/ awe_reach default [] s ->
  y_sets s = [Val (0, default)].
Proof. exact @any_empty. Qed.
Print Assumptions C36_empty.

(** Concrete: two inputs, the second one first. *)
Example C36_run_all : exists s, all_reach [Val 5; Exc 6] s /\ all_ran (l_pcs s) /\ l_sets s = [[Some (Val 5); Some (Exc 6)]].
Proof.
  pose proof (@al_init Z Z [Val 5; Exc 6]) as R.
  eassert (R1 : all_reach _ _) by (eapply al_next; [exact R|eapply (al_store _ 1); solve [reflexivity|cbn; discriminate]]).
  eassert (R2 : all_reach _ _) by (eapply al_next; [exact R1|eapply (al_store _ 0); solve [reflexivity|cbn; discriminate]]).
  eassert (R3 : all_reach _ _) by (eapply al_next; [exact R2|eapply (al_add _ 0); solve [reflexivity|cbn; discriminate]]).
  eassert (R4 : all_reach _ _) by (eapply al_next; [exact R3|eapply (al_add _ 1); solve [reflexivity|cbn; discriminate]]).
  eassert (R5 : all_reach _ _) by (eapply al_next; [exact R4|eapply (al_last _ 1); solve [reflexivity|cbn; discriminate]]).
  eassert (R6 : all_reach _ _) by (eapply al_next; [exact R5|eapply (al_not_last _ 0); solve [reflexivity|cbn; discriminate]]).
  eexists. split; [exact R6|]. split; [repeat constructor|reflexivity].
Qed.
Example C36_run_any : exists s, awe_reach 0 [Exc 5; Val 6] s /\ all_ran (y_pcs s) /\ y_sets s = [Val (1, 6)].
Proof.
  pose proof (@aw_init Z Z 0 [Exc 5; Val 6]) as R.
  eassert (R1 : awe_reach 0 _ _) by (eapply aw_next; [exact R|eapply (aw_fail _ 0); solve [reflexivity|cbn; discriminate]]).
  eassert (R2 : awe_reach 0 _ _) by (eapply aw_next; [exact R1|eapply (aw_first _ 1); solve [reflexivity|cbn; discriminate]]).
  eassert (R3 : awe_reach 0 _ _) by (eapply aw_next; [exact R2|eapply (aw_one_failed _ 0); solve [reflexivity|cbn; discriminate]]).
  eassert (R4 : awe_reach 0 _ _) by (eapply aw_next; [exact R3|eapply (aw_set _ 1); solve [reflexivity|cbn; discriminate]]).
  eexists. split; [exact R4|]. split; [repeat constructor|reflexivity].
Qed.
