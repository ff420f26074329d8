(** C35: a future's callback runs exactly once. *)
From Verif.Lib Require Import Base.
From Verif.Future Require Import Model Spec Proofs.
Local Open Scope Z_scope.

(** At any time at most one continuation was scheduled, with a result that was set (or the broken-promise
    exception if none was); no assertion fails and freed memory is not used. *)
Theorem C35_once : forall V E (broken : E) (script : list (res V E)) s, reach broken script s ->
  (length (f_runs s) <= 1)%nat /\ Forall (allowed broken script) (f_runs s) /\ f_bad s = false.
Proof. exact @once. Qed.
Print Assumptions C35_once.

(** In the end: exactly one if Then was called; and the state was deleted exactly once. *)
Theorem C35_delivered : forall V E (broken : E) (script : list (res V E)) s, reach broken script s -> finished s ->
  f_freed s = 1 /\ length (f_runs s) = (if f_then s then 1 else 0)%nat.
Proof. exact @delivered. Qed.
Print Assumptions C35_delivered.

(** There is an end: runs are bounded, and a run that cannot go on is finished. *)
Theorem C35_ends : forall V E (broken : E) (script : list (res V E)), exists N, forall n s, run broken script n s ->
  (n <= N)%nat /\ (finished s \/ exists s', step broken s s').
Proof. exact @ends. Qed.
Print Assumptions C35_ends.

(** A promise that is set once. *)
Theorem C35_one_result : forall V E (broken : E) (x : res V E) s, reach broken [x] s -> finished s -> f_then s = true ->
  f_runs s = [x].
Proof. exact @one_result. Qed.
Print Assumptions C35_one_result.

(** And one that is dropped. *)
Theorem C35_broken : forall V E (broken : E) (s : st V E), reach broken [] s -> finished s -> f_then s = true ->
  f_runs s = [Exc broken].
Proof. exact @broken_result. Qed.
Print Assumptions C35_broken.

(** Concrete: the callback is attached between the two halves of SetValue. *)
Example C35_run :
  let r := r_step 0 in let a := a_step true in
  let s := r (r (r (r (r (r (r (a (a (a (r (init [Val 7]))))))))))) in
  (f_runs s, f_freed s, f_r s, f_a s) = ([Val 7], 1, RDone, ADone).
Proof. reflexivity. Qed.
