(** C59: a percentile of latencies. *)
From Coq Require Import List ZArith Bool Permutation.
From Verif.Lib Require Import Base Count.
From Verif.Percentile Require Import Model Spec ProofsLog ProofsMerge ProofsMain ProofsThreads ProofsRuns.
Import ListNotations.
Open Scope Z_scope.

(** A latency goes into the one interval it belongs to, unless Log2 overflows. *)
Theorem C59_index : forall x, latency x ->
  (overflows x -> index_of x = UB) /\
  (~ overflows x -> exists i, index_of x = Ok i /\ (i < 32)%nat /\ forall j, belongs j x = (j =? i)%nat).
Proof. exact index_spec. Qed.
Print Assumptions C59_index.
Example C59_index_case :
  index_of 2 = Ok 0%nat /\ index_of 3 = Ok 1%nat /\ index_of 4 = Ok 1%nat /\ index_of 5 = Ok 2%nat /\
  index_of 1000 = Ok 9%nat /\ index_of 2147483649 = UB /\ index_of 2147483651 = Ok 31%nat.
Proof. vm_compute. repeat split. Qed.

(** Merging keeps the number of latencies and as many of them as fit. *)
Theorem C59_merge : forall n n2 l m v w o, sampled n l v -> sampled n2 m w -> len m <= n2 -> n2 <= n ->
  len l + len m < 2 ^ 32 -> exists v' o', merge n v w o = Ok (v', o') /\ sampled n (l ++ m) v'.
Proof. exact merge_spec. Qed.
Print Assumptions C59_merge.
Example C59_merge_case :
  merge 3 {| added := 5; sorted := false; samples := [11; 12; 13] |} {| added := 2; sorted := false; samples := [14; 15] |} [2; 0; 1] =
  Ok ({| added := 7; sorted := false; samples := [13; 12; 15] |}, []).
Proof. vm_compute. reflexivity. Qed.

(** Whatever is drawn, a percentile is one of the latencies, from the interval of
    the right one; it is the right one while the intervals have room. *)
Theorem C59_percentile : forall k ls gs o, Forall2 (holds 254) ls gs -> len ls <= 1022 ->
  len (concat ls) < 2 ^ 32 -> 1 <= k <= len (concat ls) ->
  exists x, percentile k gs o = Ok x /\ In x (concat ls) /\
    (forall y, kth k y (concat ls) -> forall i, belongs i y = belongs i x) /\
    ((forall i, len (filter (belongs i) (concat ls)) <= 1022 /\ Forall (fun l => len (filter (belongs i) l) <= 254) ls) ->
     kth k x (concat ls)).
Proof. exact percentile_spec. Qed.
Print Assumptions C59_percentile.

(** No run of updates and Reset() ends in an assertion or undefined behaviour,
    and what Reset() returns holds what it took. *)
Theorem C59_run : forall l r, run l init = Some r -> Forall fine (called l) -> 31 * (len (called l) + 1) < 4294967296 ->
  exists s rs, r = Ok (s, rs) /\ Forall (fun x => holds 254 (snd x) (fst x)) rs /\ len (returned rs) <= 31 * len (called l).
Proof. exact runs_fine. Qed.
Print Assumptions C59_run.

(** Every latency is taken by one Reset() or still there, if Reset() visits no
    thread between the merge and the clearing of a full interval. *)
Theorem C59_once : forall l s rs, run l init = Some (Ok (s, rs)) -> gentle l init -> Forall fine (called l) ->
  31 * (len (called l) + 1) < 4294967296 -> Permutation (called l) (returned rs ++ remaining s).
Proof. exact counted_once. Qed.
Print Assumptions C59_once.
Example C59_once_case : gentle [PNew; PCall 0 7; PReset; PVisit []; PCall 0 9; PReturn] init /\
  exists s g, run [PNew; PCall 0 7; PReset; PVisit []; PCall 0 9; PReturn] init = Some (Ok (s, [(g, [7])])) /\ remaining s = [9].
Proof.
  split.
  - repeat first [apply gentle_nil | apply gentle_cons; [vm_compute; reflexivity|]; intros ? ? E; vm_compute in E; injection E as <- <-].
  - eexists _, _. split; [vm_compute; reflexivity|]. vm_compute. reflexivity.
Qed.

(** Both together. *)
Theorem C59_percentile_of_run : forall l r k o, run l init = Some r -> Forall fine (called l) ->
  31 * (len (called l) + 1) < 4294967296 ->
  exists s rs, r = Ok (s, rs) /\ (len rs <= 1022 -> 1 <= k <= len (returned rs) ->
    exists x, percentile k (map fst rs) o = Ok x /\ In x (returned rs) /\
      forall y, kth k y (returned rs) -> forall i, belongs i y = belongs i x).
Proof. exact percentile_of_run. Qed.
Print Assumptions C59_percentile_of_run.
Example C59_run_case : exists s g1 g2 m1 m2,
  run ([PNew; PNew] ++ repeat (PCall 0 100) 30 ++ [PCall 0 120; PCall 1 3; PNext 0 []; PNext 0 []; PReset; PVisit []; PCall 0 9; PVisit []; PReturn] ++
       [PCall 1 40; PReset; PVisit []; PVisit []; PReturn]) init = Some (Ok (s, [(g1, m1); (g2, m2)])) /\
  total g1 = 32 /\ total g2 = 2 /\ percentile 1 [g1; g2] [] = Ok 3 /\ percentile 17 [g1; g2] [] = Ok 100 /\ percentile 34 [g1; g2] [] = Ok 120.
Proof. eexists _, _, _, _, _. split; [vm_compute; reflexivity|]. vm_compute. repeat split. Qed.

(** Not so in between: 31 updates are returned as 60. *)
Theorem C59_once_refuted : exists l s g m,
  run l init = Some (Ok (s, [(g, m)])) /\ Forall fine (called l) /\ len (called l) = 31 /\ total g = 60.
Proof. exact twice. Qed.
Print Assumptions C59_once_refuted.

(** Not with 1023 groups: all the latencies are 7, the percentile 0. *)
Theorem C59_percentile_refuted : exists gs o, Forall (holds 254 [7]) gs /\ len gs = 1023 /\ percentile 1 gs o = Ok 0.
Proof. exact many. Qed.
Print Assumptions C59_percentile_refuted.

(** An interval with more latencies than samples cannot be merged. *)
Theorem C59_merge_large : forall n n2 m v w o, sampled n2 m w -> n2 < len m -> merge n v w o = Abort.
Proof. exact merge_large. Qed.
Print Assumptions C59_merge_large.
Example C59_merge_large_case :
  merge 254 fresh {| added := 255; sorted := false; samples := repeat 6 254 |} [] = Abort.
Proof. vm_compute. reflexivity. Qed.

(** Nor can any when 2^32 latencies are exceeded. *)
Theorem C59_merge_wraps : forall v w o, 0 <= added v < 4294967296 -> len (samples v) = 254 -> 1 <= len (samples w) <= 30 ->
  added w = len (samples w) -> 4294967296 <= added v + added w -> merge 254 v w o = Abort.
Proof. exact merge_wraps. Qed.
Print Assumptions C59_merge_wraps.
Example C59_merge_wraps_case :
  merge 254 {| added := 4294967290; sorted := false; samples := repeat 6 254 |} {| added := 30; sorted := false; samples := repeat 7 30 |} [] = Abort.
Proof. vm_compute. reflexivity. Qed.

(** A latency added after a look at the samples is not in order. *)
Theorem C59_sorted_refuted : exists v x w,
  sampled 254 [8; 9] v /\ sample_at 0 v = (8, w) /\ fst (sample_at 0 (add32 254 x w)) = 8 /\ kth 1 x [8; 9; x] /\ x <> 8.
Proof. exact stale. Qed.
Print Assumptions C59_sorted_refuted.
