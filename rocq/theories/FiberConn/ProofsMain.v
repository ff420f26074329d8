From Coq Require Import List Bool Arith Lia.
From Verif.FiberConn Require Import Model Spec Inv ProofsInv Proofs ProofsQuiet ProofsRuns ProofsTold.
Import ListNotations.

Lemma error_told e s : calm e -> reach e s -> In SErr (snds s) -> killed s = true.
Proof. intros C R. apply (told_reach e s C R). Qed.
Lemma error_event e s : calm e -> reach e s ->
  (en s = true -> eseen (handle_close s) = true) /\ (eseen s = true -> killed s = true \/ In EErr (efs s)).
Proof.
  intros C R. split; [|apply (told_reach e s C R)].
  intro E. unfold handle_close. rewrite E. cbn. destruct (eseen s) eqn:X; [exact X|reflexivity].
Qed.

(** The handshake needs a read; a message is sent before it ends; the socket is
    full once; the connection is stopped. *)
Definition case_run : list act :=
  [AStart HRead; AStart HRead; ATask; ACall; ASend 0 FAll false; ASend 0 FAll false; ASend 0 FAll false; ASend 0 FAll false;
   ARev; ARead 0 HSucc false; ARead 0 HSucc false; ARead 0 HSucc false; ARead 0 HSucc false; ARead 0 HSucc false;
   ACall; ASend 1 FAll false; ASend 1 FAll false;
   ATask; AWev; AWrite 0 HFail FAll; AWrite 0 HFail (FSat 1); AWrite 0 HFail FAll; AWrite 0 HFail FAll;
   AWev; AWrite 0 HFail FAll; AWrite 0 HFail FAll; AWrite 0 HFail FAll; AWrite 0 HFail FAll; ATask;
   AStop; AKsub; ATask; AClean].
Lemma case_ok : exists s, reach quick s /\ quiet s /\ cleaned s = 1 /\ qn s = 0 /\ crash s = false /\ snds s = [SOk; SOk].
Proof.
  destruct (run quick case_run start0) as [s|] eqn:E; [|vm_compute in E; discriminate E].
  exists s. split; [eapply run_reach; [apply reach_start|exact E]|]. vm_compute in E. injection E as <-.
  unfold quiet. cbn. repeat split; auto. repeat constructor; unfold returned; auto.
Qed.

Lemma late_crash : exists s, reach lateh s /\ crash s = true /\ snds s = [] /\ killed s = false.
Proof.
  destruct (run lateh [AStart HWrite; AStart HWrite; ATask; AWev; AWrite 0 HFail FAll; AWrite 0 HSucc FAll] start0) as [s|] eqn:E;
    [|vm_compute in E; discriminate E].
  exists s. split; [eapply run_reach; [apply reach_start|exact E]|]. vm_compute in E. injection E as <-. repeat split.
Qed.
Lemma late_two : exists s, reach lateh s /\ sender_writes s /\ fiber_writes s.
Proof.
  destruct (run lateh [AStart HWrite; AStart HWrite; ATask; ACall; ASend 0 FAll false; ASend 0 FAll false; AWev;
      AWrite 0 HFail FAll; AWrite 0 HSucc FAll; ASend 0 FAll false; ASend 0 FAll false] start0) as [s|] eqn:E;
    [|vm_compute in E; discriminate E].
  exists s. split; [eapply run_reach; [apply reach_start|exact E]|]. vm_compute in E. injection E as <-.
  unfold sender_writes, fiber_writes. cbn. auto.
Qed.
Lemma early_lost : exists s, reach earlys s /\ snds s = [SOk] /\ killed s = false /\
  forall s', later earlys s s' -> 1 <= qn s' /\ wfs s' = [] /\ ~ sender_writes s'.
Proof.
  destruct (run earlys [ACall; ASend 0 FAll false; ASend 0 FAll false; ASend 0 FAll false; ASend 0 FAll false; AStart HSucc] start0) as [s|] eqn:E;
    [|vm_compute in E; discriminate E].
  exists s. split; [eapply run_reach; [apply reach_start|exact E]|]. vm_compute in E. injection E as <-.
  split; [reflexivity|]. split; [reflexivity|]. intros s' L. eapply stuck_forever; [|exact L].
  unfold stuck. cbn. repeat split; auto; try (intros [X|[]]; discriminate).
  constructor; [unfold harmless, returned; auto 6|constructor].
Qed.
