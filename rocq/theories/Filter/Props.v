(** Properties C28 and C29: retry limiter, filter chains. *)
From Verif.Lib Require Import Base.
From Verif.Filter Require Import Model Spec Proofs.

(* ------------------------------------------------------------------------- *)
(** * C29: filter chains nest *)

(** Filters are registered in any order, globally or for the service; some additions may be
    refused as duplicates.  [l]: the accepted ones with pre point [p], globals first, in order of
    registration.  The pre run calls them up to the first one that rejects; the post run then
    calls exactly those that completed, in reverse order, whatever they answer. *)
Theorem C29_post_mirrors_pre :
  forall regs p rej c,
  Nat.even p = true ->
  Forall (fun x => NoDup (f_points (snd x))) regs ->
  Forall (fun x => In p (f_points (snd x)) <-> In (S p) (f_points (snd x))) regs ->
  c (p / 2) = (-1)%Z ->
  let '(s, acc) := register fs_none regs in
  let at_point b := filter (fun f => existsb (fun q => q =? p) (f_points f))
                      (map snd (filter (fun x => Bool.eqb (fst x) b) acc)) in
  let l := at_point true ++ at_point false in
  (length l <= 128 \/ find rej l = None) ->
  exists c',
    run_filters s rej p c = Ok (c', completed rej l ++ rejecter rej l, if find rej l then true else false) /\
    forall rej', run_filters s rej' (S p) c' = Ok (c', rev (completed rej l), false).
Proof. exact filters_nest. Qed.
Print Assumptions C29_post_mirrors_pre.

(** Finding: a context that goes through the same pair of points again keeps the index of the
    earlier rejection, and the post run leaves filters out. *)
Theorem C29_reused_context_refuted :
  exists regs rej, let s := fst (register fs_none regs) in
    exists c1 c2 calls1 calls2 posts,
      run_filters s rej 2 fresh_index = Ok (c1, calls1, true) /\
      run_filters s (fun _ => false) 2 c1 = Ok (c2, calls2, false) /\
      run_filters s (fun _ => false) 3 c2 = Ok (c2, posts, false) /\
      length calls2 = 2 /\ length posts = 1.
Proof. exact filters_reused_context. Qed.
Print Assumptions C29_reused_context_refuted.

(** Finding: the check for duplicates compares names at the filter's first point only, so a
    second filter of the same name can be added. *)
Theorem C29_duplicate_name_refuted :
  exists regs, let '(s, acc) := register fs_none regs in
    map (fun x => f_name (snd x)) acc = [1; 1] /\ length (fs_service s 2) = 2.
Proof. exact filters_duplicate. Qed.
Print Assumptions C29_duplicate_name_refuted.

Example C29_case :
  let f n := mk_filt n [0; 1; 2; 3] in
  let '(s, acc) := register fs_none [(false, f 3); (true, f 1); (true, f 2); (true, f 1); (false, mk_filt 5 [0; 1]); (false, f 4)] in
  let rej := fun x => f_name x =? 4 in
  length acc = 5 /\
  exists c, run_filters s rej 2 fresh_index = Ok (c, [f 1; f 2; f 3; f 4], true) /\
    run_filters s rej 3 c = Ok (c, [f 3; f 2; f 1], false).
Proof. vm_compute. split; [reflexivity|]. eexists. split; reflexivity. Qed.

(* ------------------------------------------------------------------------- *)
(** * C28: retry budget *)
Local Open Scope Z_scope.

Theorem C28_budget_range :
  forall mx ratio outcomes, rl_config_ok mx ratio -> - ratio <= rl_run mx ratio outcomes <= mx.
Proof. exact rl_run_bounds. Qed.
Print Assumptions C28_budget_range.

(** The budget against the numbers of successes and failures so far. *)
Theorem C28_budget_accounting :
  forall mx ratio outcomes,
  rl_config_ok mx ratio ->
  mx - ratio * fail_count outcomes <= rl_run mx ratio outcomes <=
  Z.max (succ_count outcomes) (mx + succ_count outcomes - ratio * fail_count outcomes).
Proof. exact rl_run_budget. Qed.
Print Assumptions C28_budget_accounting.

Theorem C28_failures_keep_hedging_off :
  forall mx ratio outcomes n,
  rl_config_ok mx ratio -> rl_cancels mx (rl_run mx ratio outcomes) = true ->
  rl_cancels mx (rl_run mx ratio (outcomes ++ repeat false n)) = true.
Proof. exact rl_failures_keep. Qed.
Print Assumptions C28_failures_keep_hedging_off.

Theorem C28_successes_restore_hedging :
  forall mx ratio outcomes n,
  rl_config_ok mx ratio -> Z.shiftr mx 1 + ratio < Z.of_nat n ->
  rl_cancels mx (rl_run mx ratio (outcomes ++ repeat true n)) = false.
Proof. exact rl_successes_restore. Qed.
Print Assumptions C28_successes_restore_hedging.

(** Overlapping completions, any number of threads: at most the maximum once all have finished. *)
Theorem C28_never_above_maximum :
  forall mx ratio n m,
  rl_config_ok mx ratio -> rl_reach mx ratio n m -> Forall (fun p => p = RIdle) (rl_thr m) -> rl_tokens m <= mx.
Proof. exact rl_concurrent. Qed.
Print Assumptions C28_never_above_maximum.

(** Finding: the store of 0 after a failure can come late and wipe out a full budget: 20 successes
    after the last failure, hedging is off all the same. *)
Theorem C28_late_store_refuted :
  exists pre, let m := fold_left (rl_act 4 2) (pre ++ concat (repeat [inl (1, true); inr 1] 20))%nat (mk_rl 4 [RIdle; RIdle]) in
    let m' := rl_act 4 2 m (inr 0%nat) in
    rl_tokens m = 4 /\ rl_tokens m' = 0 /\ rl_thr m' = [RIdle; RIdle].
Proof. exact rl_late_store. Qed.
Print Assumptions C28_late_store_refuted.

(** Default configuration: five failures of six turn hedging off, ten successes turn it on. *)
Example C28_case :
  rl_config_ok 100 10 /\
  rl_run 100 10 [false; false; true; false; false; false] = 51 /\
  rl_cancels 100 (rl_run 100 10 [false; false; true; false; false; false; false]) = true /\
  rl_cancels 100 (rl_run 100 10 ([false; false; true; false; false; false; false] ++ repeat true 10)) = false /\
  rl_run 100 10 (repeat false 12) = 0 /\ rl_run 100 10 (repeat false 11) = -10.
Proof. unfold rl_config_ok. repeat split; try lia; reflexivity. Qed.
