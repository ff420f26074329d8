(** C42: stream flow control. *)
From Verif.Lib Require Import Base.
From Verif.Stream Require Import Model Spec Proofs.
Local Open Scope Z_scope.

(** Window [w], messages of at most [m] bytes, no 4-byte overflow in the receiver's count. *)

(** The unacknowledged bytes are at most the window, one message, and whatever writers that had to wait
    have sent: exactly, the windows of both ends add up with these. *)
Theorem C42_bound : forall w m s, 0 <= w -> 0 <= m -> m + w / 4 < 2 ^ 32 -> reach w m s ->
  unacked s <= w + m + f_woken s.
Proof. exact bound. Qed.
Print Assumptions C42_bound.

Theorem C42_account : forall w m s, 0 <= w -> 0 <= m -> m + w / 4 < 2 ^ 32 -> reach w m s ->
  f_failed s = false -> f_closed s = false -> f_window s + unacked s = w + f_woken s.
Proof. exact exact_account. Qed.
Print Assumptions C42_account.

(** When everything is read and all feedback has arrived, no writer waits and the next one need not. *)
Theorem C42_no_deadlock : forall w m s, 0 < w -> 0 <= m -> m + w / 4 < 2 ^ 32 -> reach w m s ->
  f_failed s = false -> f_closed s = false -> settled s -> f_waiting s = [] /\ 0 < f_window s.
Proof. exact no_deadlock. Qed.
Print Assumptions C42_no_deadlock.

(** The configured window: 0 switches flow control off, anything else is at least 65535. *)
Theorem C42_window_size : forall w, 0 <= w -> get_window_size w = if Z.eq_dec w 0 then 0 else Z.max 65535 w.
Proof. exact window_size_max. Qed.
Print Assumptions C42_window_size.

(** Concrete: a window of 65535 lets a message of 70000 bytes through, the next one waits, and is woken
    by the feedback. *)
Example C42_run : decrease_window 65535 70000 = Some (-4465) /\ decrease_window (-4465) 1 = None /\
  update_consume 65535 0 16383 = (16383, 0) /\ update_consume 65535 16383 1 = (0, 16384) /\
  update_consume 65535 0 70000 = (0, 70000) /\ increase_window (-4465) 70000 = (65535, true).
Proof. vm_compute. repeat split. Qed.

(** Findings. *)

(** A writer that had to wait sends without decreasing the window.  So the bound of window plus one
    message is lost: the unacknowledged bytes can exceed any number, with messages of 65536 bytes. *)
Theorem C42_unbounded_refuted : forall n, exists s, reach 65535 65536 s /\ f_failed s = false /\ f_closed s = false /\ n < unacked s.
Proof. exact unbounded. Qed.
Print Assumptions C42_unbounded_refuted.

(** OnError wakes the writers without holding their mutex: one that has just seen the status OK goes to
    wait after that, and nothing will happen any more. *)
Theorem C42_error_refuted : exists s, reach 65535 65536 s /\ f_failed s = true /\ f_notify s = false /\ f_waiting s <> [] /\
  settled s.
Proof. exact error_wait. Qed.
Print Assumptions C42_error_refuted.

(** A stream closed by its peer is stopped without waking the writers, and drops the feedback that would
    have woken them. *)
Theorem C42_closed_refuted : exists s, reach 65535 65536 s /\ f_failed s = false /\ f_waiting s <> [] /\ settled s.
Proof. exact closed_wait. Qed.
Print Assumptions C42_closed_refuted.

(** The receiver counts in 32 bits: a count that comes back to 0 sends no feedback, and the sender waits
    for ever. *)
Theorem C42_overflow_refuted : exists s, reach 65535 (2 ^ 32 - 1) s /\ f_failed s = false /\ f_closed s = false /\
  f_waiting s <> [] /\ settled s.
Proof. exact overflow_wait. Qed.
Print Assumptions C42_overflow_refuted.
