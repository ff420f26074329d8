(** C51: the reading side of a stream. *)
From Verif.Lib Require Import Base.
From Verif.Stream Require Import ModelReader SpecReader ProofsReader.
Local Open Scope Z_scope.

(** Whatever happens, what is read is what was received, in order, nothing twice. *)
Theorem C51_fifo : forall A (l : list (call A)), exists rest,
  received l = delivered (snd (do_calls l rd_init)) ++ rest.
Proof. exact @fifo. Qed.
Print Assumptions C51_fifo.

(** Until the stream is finished every read returns the next message with an OK status, or waits; after
    that [n] more reads return what is left, with the final status, and then the end of the stream for
    ever. *)
Theorem C51_finish : forall A (l : list (call A)) n c, Forall running_call l ->
  forall r s, do_calls l rd_init = (s, r) -> exists rest,
    received l = delivered r ++ rest /\
    Forall (fun x => x = RWait \/ exists m, x = RStatus 0 (Some m)) r /\
    snd (do_calls (l ++ [CFinish c] ++ repeat CRead n) rd_init) =
      r ++ map (fun m => RStatus c (Some m)) (firstn n rest) ++ repeat REof (n - length rest).
Proof. exact @complete. Qed.
Print Assumptions C51_finish.

(** After an error: what is left comes with the error, and then the error for ever. *)
Theorem C51_error : forall A (l : list (call A)) n c, Forall running_call l ->
  forall r s, do_calls l rd_init = (s, r) -> exists rest,
    received l = delivered r ++ rest /\
    snd (do_calls (l ++ [CError c] ++ repeat CRead n) rd_init) =
      r ++ map (fun m => RStatus c (Some m)) (firstn n rest) ++ repeat (RStatus c None) (n - length rest).
Proof. exact @complete_error. Qed.
Print Assumptions C51_error.

(** Asynchronous reads get what was received, in order; no promise is resolved twice; none is left
    waiting while there is a message or an error. *)
Theorem C51_async : forall A (l : list (call A)), exists rest,
  received l = a_delivered (p_done (do_acalls l ard_init)) ++ rest /\
  NoDup (map fst (p_done (do_acalls l (@ard_init A)))) /\
  (forall p, p_pending (do_acalls l ard_init) = Some p -> rest = [] /\ r_state (p_rd (do_acalls l (@ard_init A))) <> Error).
Proof. exact @a_fifo. Qed.
Print Assumptions C51_async.

(** If only one read is outstanding at a time, every read is resolved but the one that is pending. *)
Theorem C51_async_all : forall A (l : list (call A)), polite l (@ard_init A) ->
  Z.of_nat (length (p_done (do_acalls l (@ard_init A)))) =
    count_reads l - match p_pending (do_acalls l (@ard_init A)) with None => 0 | Some _ => 1 end.
Proof. exact @a_all. Qed.
Print Assumptions C51_async_all.

(** Concrete. *)
Example C51_run : snd (do_calls [CReady; CData 1; CRead; CRead; CData 2; CData 3; CFinish 0; CRead; CRead; CRead; CRead] rd_init) =
  [RStatus 0 (Some 1); RWait; RStatus 0 (Some 2); RStatus 0 (Some 3); REof; REof].
Proof. reflexivity. Qed.
Example C51_async_run : p_done (do_acalls [CReady; CRead; CData 1; CData 2; CRead; CRead; CFinish 0; CRead; CError 9; CRead] ard_init) =
  [(0, AMsg 1); (1, AMsg 2); (2, AEof); (3, AEof); (4, AFail 9)].
Proof. reflexivity. Qed.

(** Findings. *)

(** If the peer finishes with an error status, the messages it sent before come with that status (and
    StreamReader::Read drops a message that does not come with OK). *)
Theorem C51_error_status_refuted : exists (l : list (call Z)) m, received l = [m] /\
  snd (do_calls l rd_init) = [RStatus 5 (Some m); REof].
Proof. exists [CReady; CData 7; CFinish 5; CRead; CRead], 7. split; reflexivity. Qed.
Print Assumptions C51_error_status_refuted.

(** An error is forgotten when the stream is finished afterwards. *)
Theorem C51_error_forgotten_refuted : exists (l : list (call Z)),
  snd (do_calls l rd_init) = [RStatus 9 None; REof] /\ r_status (fst (do_calls l rd_init)) = 0.
Proof. exists [CReady; CError 9; CRead; CFinish 0; CRead]. split; reflexivity. Qed.
Print Assumptions C51_error_forgotten_refuted.

(** And so it is when the stream becomes ready afterwards (twice: the read waits again, but the next message
    comes with the old error). *)
Theorem C51_error_ready_refuted : exists (l : list (call Z)),
  snd (do_calls l rd_init) = [RStatus 9 None; RWait; RStatus 9 (Some 7)].
Proof. exists [CError 9; CRead; CReady; CRead; CData 7; CRead]. reflexivity. Qed.
Print Assumptions C51_error_ready_refuted.
