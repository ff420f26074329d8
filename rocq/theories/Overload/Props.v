(** Properties C25-C27: rate limiters. *)
From Verif.Lib Require Import Base.
From Verif.Overload Require Import Model Spec ProofsTB ProofsSec ProofsSmooth.
Local Open Scope Z_scope.

(* ------------------------------------------------------------------------- *)
(** * C25: token bucket *)

(** Every interval [a, a+d] admits at most burst + d / (token interval) requests.  The clock (in
    ns) is at least burst * token interval at start-up: see the first finding. *)
Theorem C25_bounded_in_every_interval :
  forall burst rate t0 times a d,
  1 <= burst -> rate <= 1000000000 ->
  let one := 1000000000 / Z.max rate 1 in
  burst * one <= t0 -> t0 < 2 ^ 64 -> ordered t0 times -> Forall (fun t => t < 2 ^ 64) times -> 0 <= d ->
  admitted_in a (a + d) times (snd (tb_run (tb_init burst rate t0) times)) <= burst + d / one.
Proof. exact token_bucket_bound. Qed.
Print Assumptions C25_bounded_in_every_interval.

(** After any history, k <= burst requests are all admitted when each arrives at least k token
    intervals after the last request of the history. *)
Theorem C25_idle_refills :
  forall burst rate t0 hist times,
  1 <= burst -> rate <= 1000000000 ->
  let one := 1000000000 / Z.max rate 1 in
  burst * one <= t0 -> t0 < 2 ^ 64 ->
  ordered t0 hist -> ordered (last hist t0) times -> Forall (fun t => t < 2 ^ 64) (hist ++ times) ->
  Z.of_nat (length times) <= burst ->
  Forall (fun t => last hist t0 + Z.of_nat (length times) * one <= t) times ->
  snd (tb_run (fst (tb_run (tb_init burst rate t0) hist)) times) = repeat true (length times).
Proof. exact token_bucket_idle. Qed.
Print Assumptions C25_idle_refills.

(** Finding: when the clock (time since boot) is still below burst * token interval, the first
    admitted request moves last_alloc_time_ to about 2^64 and nothing is admitted any more. *)
Theorem C25_young_clock_refuted :
  exists burst rate t0 b,
    1 <= burst <= 100000 /\ 1 <= rate <= 1000 /\ 0 <= t0 /\
    tb_before (tb_init burst rate t0) (t0 + 3000000000) = (b, true) /\
    forall t, t0 + 3000000000 <= t < 2 ^ 63 -> tb_before b t = (b, false).
Proof. exact token_bucket_boot. Qed.
Print Assumptions C25_young_clock_refuted.

(** Finding: burst 0 admits a request in an interval of length 0. *)
Theorem C25_zero_burst_refuted :
  exists rate t0 t, 1 <= rate /\ 0 <= t0 <= t /\
    admitted_in t (t + 0) [t] (snd (tb_run (tb_init 0 rate t0) [t])) = 1.
Proof. exact token_bucket_zero_burst. Qed.
Print Assumptions C25_zero_burst_refuted.

(** Finding: the token interval is rounded down, so a rate that does not divide 10^9 is exceeded:
    11 requests in 10 ns at 0.7 per ns and burst 1, where burst + rate * time is 8. *)
Theorem C25_rate_rounding_refuted :
  let t0 := 1000 in let times := [t0; t0 + 1; t0 + 2; t0 + 3; t0 + 4; t0 + 5; t0 + 6; t0 + 7; t0 + 8; t0 + 9; t0 + 10] in
  admitted_in t0 (t0 + 10) times (snd (tb_run (tb_init 1 700000000 100) times)) = 11 /\
  1 + 700000000 * 10 / 1000000000 = 8.
Proof. exact token_bucket_rate. Qed.
Print Assumptions C25_rate_rounding_refuted.

(** Burst 2, one token per ms: of five requests the first two pass, then one per ms. *)
Example C25_case :
  snd (tb_run (tb_init 2 1000 5000000) [5000000; 7000000; 7000001; 7000002; 8000000; 8000001; 9500000; 10000000]) =
  [false; true; true; false; true; false; true; true].
Proof. reflexivity. Qed.

(* ------------------------------------------------------------------------- *)
(** * C26: limiter per second *)

(** Calls that do not overlap: each second admits exactly min(limit, arrivals). *)
Theorem C26_exact_per_second :
  forall limit window times s,
  ordered 0 times ->
  admitted_in s s times (map negb (snd (sl_run limit (sl_init window) times))) =
  Z.max 0 (Z.min limit (Z.of_nat (count_occ Z.eq_dec times s))).
Proof. exact seconds_sequential. Qed.
Print Assumptions C26_exact_per_second.

(** The same for every interleaving of the callers of a bucket, as long as no caller stays inside
    until the bucket's next second. *)
Theorem C26_exact_for_every_interleaving :
  forall limit m s,
  sl_reach limit m -> admitted s (sm_log m) = Z.max 0 (Z.min limit (arrivals s (sm_log m))).
Proof. exact seconds_concurrent. Qed.
Print Assumptions C26_exact_for_every_interleaving.

(** The lock never gets stuck. *)
Theorem C26_some_caller_can_move :
  forall limit m t,
  sl_reach limit m -> sm_thr m t <> LIdle -> exists u m', sl_move limit m u = Some m'.
Proof. exact seconds_progress. Qed.
Print Assumptions C26_some_caller_can_move.

(** Finding: a caller delayed for a whole window resets the bucket of the new second. *)
Theorem C26_stalled_caller_refuted :
  exists sched m, sl_sched 1 sl_start sched = Some m /\ admitted 110 (sm_log m) = 2.
Proof. exact seconds_stalled. Qed.
Print Assumptions C26_stalled_caller_refuted.

(** Finding: so does a clock that goes back. *)
Theorem C26_clock_back_refuted :
  admitted_in 110 110 [110; 100; 110] (map negb (snd (sl_run 1 (sl_init 10) [110; 100; 110]))) = 2.
Proof. exact seconds_clock_back. Qed.
Print Assumptions C26_clock_back_refuted.

Example C26_case :
  snd (sl_run 2 (sl_init 3) [7; 7; 7; 8; 10; 10; 10]) = [false; false; true; false; false; false; true].
Proof. reflexivity. Qed.

(** Three callers interleaved within second 7, limit 2. *)
Example C26_interleaved_case :
  exists m, sl_sched 2 sl_start ([inl (1%nat, 7); inl (2%nat, 7); inr 1%nat; inr 2%nat; inl (3%nat, 7)] ++
      repeat (inr 1%nat) 5 ++ [inr 3%nat; inr 2%nat; inr 2%nat; inr 2%nat; inr 3%nat; inr 1%nat; inr 2%nat]) = Some m /\
    sm_log m = [(7, true); (7, false); (7, false)].
Proof. eexists. split; vm_compute; reflexivity. Qed.

(* ------------------------------------------------------------------------- *)
(** * C27: smooth limiter *)

(** Calls that overlap neither each other nor a tick: a request is rejected exactly when the
    last [w] frames hold [limit] admitted requests; the loops terminate. *)
Theorem C27_exact_without_overlap :
  forall limit w evs, (0 < w)%nat -> smooth_run limit (hq_new w) evs = Ok (smooth_spec limit w [0] evs).
Proof. exact smooth_sequential. Qed.
Print Assumptions C27_exact_without_overlap.

(** For every interleaving of the callers between ticks, the last [w] frames never hold more than
    [limit] admitted requests. *)
Theorem C27_window_bounded :
  forall limit w m, (0 < w)%nat -> sm_reach limit w m -> total (firstn w (mm_log m)) <= Z.max 0 limit.
Proof. exact smooth_concurrent. Qed.
Print Assumptions C27_window_bounded.

(** Finding: with room for one request, two overlapping callers are both rejected, and their hits
    stay in the window. *)
Theorem C27_both_rejected_refuted :
  exists sched m, sm_sched 1 (mk_smm (hq_new 1) (fun _ => MIdle) [0]) sched = m /\
    mm_thr m 1%nat = MIdle /\ mm_thr m 2%nat = MIdle /\ mm_log m = [0] /\ hq_frames (mm_q m) <> hq_frames (hq_new 1).
Proof. exact smooth_both_rejected. Qed.
Print Assumptions C27_both_rejected_refuted.

(** Finding: a caller that overlaps a tick adds its hit to a frame that has left the window, and
    two requests are admitted in one frame although the limit is 1. *)
Theorem C27_tick_overlap_refuted :
  exists sched m, sm_sched 1 (mk_smm (hq_new 1) (fun _ => MIdle) [0]) sched = m /\
    total (firstn 1 (mm_log m)) = 2.
Proof. exact smooth_tick_overlap. Qed.
Print Assumptions C27_tick_overlap_refuted.

(** Limit 3, window of two frames. *)
Example C27_case :
  smooth_run 3 (hq_new 2) [false; false; true; false; false; true; false; true; false; false; false] =
  Ok [false; false; false; true; false; false; false; true] /\
  exists m, sm_sched 3 (mk_smm (hq_new 2) (fun _ => MIdle) [0])
      (repeat (Some 1) 10 ++ repeat (Some 2) 10 ++ [None] ++ repeat (Some 3) 10)%nat = m /\ mm_log m = [1; 2].
Proof. split; [reflexivity|]. eexists. split; [reflexivity|]. vm_compute. reflexivity. Qed.
