(** C66: a backup request takes the first answer. *)
From Coq Require Import Bool Arith List.
From Verif Require Import Backup.Model Backup.ProofsMain.
Import ListNotations.

(** Success: the message and the index are those of a request that was answered. *)
Theorem C66_success : forall s, reach LateFails s -> cp s = CRet Okay ->
  exists w, msg s = Some w /\ idx s = Some w /\ rep s w = true.
Proof. exact success. Qed.
Print Assumptions C66_success.

(** Failure: both requests were sent, both failed, none was answered. *)
Theorem C66_failure : forall s c, reach LateFails s -> cp s = CRet c -> c <> Okay ->
  rep s false = false /\ rep s true = false /\ pc s false = HDone /\ pc s true = HDone /\ msg s = None /\ idx s = None.
Proof. exact failure. Qed.
Print Assumptions C66_failure.

(** The frame of the caller is not written after it returned ... *)
Theorem C66_frame_safe : forall s, reach LateFails s -> bad s = false.
Proof. exact frame_safe. Qed.
Print Assumptions C66_frame_safe.

(** ... so that what it returned stays. *)
Theorem C66_after_return : forall s a s' c, reach LateFails s -> cp s = CRet c -> exec LateFails s a = Some s' ->
  cp s' = CRet c /\ ret s' = c /\ idx s' = idx s /\ msg s' = msg s.
Proof. exact after_return. Qed.
Print Assumptions C66_after_return.

(** Until the caller returns, it can move, or a fiber of a request can, or a
    request is still to be answered or to fail; no run is longer than 19 steps. *)
Theorem C66_not_stuck : forall s, reach LateFails s -> returned s = false ->
  (exists s', cstep s true = Some s') \/ (exists r, pc s r = HOut \/ exists s', hstep s r = Some s').
Proof. exact not_stuck. Qed.
Print Assumptions C66_not_stuck.

Theorem C66_runs_end : forall l s, run LateFails init l = Some s -> length l <= 19.
Proof. exact runs_end. Qed.
Print Assumptions C66_runs_end.

(** The test of line 125 never skips the wait ... *)
Theorem C66_test_never_skips : forall s, reach LateFails s -> cp s = CTest0 -> ret s <> ConnectErr.
Proof. exact test_never_skips. Qed.
Print Assumptions C66_test_never_skips.

(** ... so a first request that failed to connect is waited for all the same. *)
Theorem C66_retry_at_once_refuted : exists s, reach LateFails s /\ cp s = CWait0 /\ pc s false = HDone /\
  rep s false = false /\ cstep s false = None.
Proof. exact waits_for_nothing. Qed.
Print Assumptions C66_retry_at_once_refuted.

(** With a delay of 0, which nothing forbids, the wait has no time-out: if the first
    request fails, nobody can move any more. *)
Theorem C66_zero_delay_refuted : exists s, reach LateFails s /\ cp s = CWait0 /\ fin s = false /\
  forall a, a <> AC true -> exec LateFails s a = None.
Proof. exact waits_for_ever. Qed.
Print Assumptions C66_zero_delay_refuted.

(** With connectors that report a late answer as success: success without a
    message, ... *)
Theorem C66_pooled_message_refuted : exists s, reach LateSucceeds s /\ cp s = CRet Okay /\ msg s = None.
Proof. exact late_no_message. Qed.
Print Assumptions C66_pooled_message_refuted.

(** ... a message stored in the frame of a caller that has returned, ... *)
Theorem C66_pooled_frame_refuted : exists s, reach LateSucceeds s /\ bad s = true.
Proof. exact late_bad_frame. Qed.
Print Assumptions C66_pooled_frame_refuted.

(** ... the message of one node and the index of the other. *)
Theorem C66_pooled_index_refuted : exists s, reach LateSucceeds s /\ cp s = CRet Okay /\
  msg s = Some false /\ idx s = Some true.
Proof. exact late_wrong_node. Qed.
Print Assumptions C66_pooled_index_refuted.

(** The backup is answered first, the answer to the first request is late. *)
Example C66_example : exists s, reach LateFails s /\ cp s = CRet Okay /\ msg s = Some true /\ idx s = Some true /\
  rep s false = true /\ pc s false = HDone.
Proof.
  destruct (run LateFails init [AC false; AC false; AC true; AC false; AReply true; AReply false; AH true; AH false;
    AH false; AH true; AH true; AH true; AC false]) as [s|] eqn:E; [|vm_compute in E; discriminate].
  exists s. split; [eapply run_reach; [apply reach_init|exact E]|]. vm_compute in E. injection E as <-. repeat split.
Qed.

(** Both fail. *)
Example C66_failure_example : exists s, reach LateFails s /\ cp s = CRet (OtherErr 7).
Proof.
  destruct (run LateFails init [AC false; AC false; AFail false ConnectErr; AH false; AH false; AC true; AC false;
    AFail true (OtherErr 7); AH true; AH true; AH true; AH true; AC false]) as [s|] eqn:E; [|vm_compute in E; discriminate].
  exists s. split; [eapply run_reach; [apply reach_init|exact E]|]. vm_compute in E. injection E as <-. reflexivity.
Qed.
