(** Property C34: the timing wheel. *)
From Coq Require Import Permutation.
From Verif.Lib Require Import Base.
From Verif.Timer Require Import Model Spec Proofs ProofsQ.
Local Open Scope Z_scope.

(** Every sequence of calls is answered as the set of pending requests says: a request fires in
    tick max(expiry, first unprocessed tick), once, unless it was popped before; DoTimeout
    processes the ticks in order without skipping any.  [within]: every push is for less than
    2^31 ms ahead of (or behind) the wheel. *)
Theorem C34_fires_once_and_on_time :
  forall t calls,
  within (- 2 ^ 31) (2 ^ 31) (mk_sq t []) calls ->
  exists q answers, tq_run (tq_new t) calls = Ok (q, answers) /\ Forall2 agree answers (s_run (mk_sq t []) calls).
Proof. exact queue_refines_l. Qed.
Print Assumptions C34_fires_once_and_on_time.

(** Finding: a timeout 2^31 ms ahead (24.8 days) becomes negative in the int due_time and fires at
    once. *)
Theorem C34_far_future_fires_at_once_refuted :
  exists q, tq_run (tq_new 0) [TPush 1 7 (2 ^ 31); TTimeout 0] = Ok (q, [APushed true; AFired [(0, [(1, 7)])]]).
Proof. exact far_future_l. Qed.
Print Assumptions C34_far_future_fires_at_once_refuted.

(** Finding: a request pushed by a timeout handler during tick 5 for a time not after 5 is linked
    into the slot being processed, which was already detached: none of the ticks 6..1028 fires it. *)
Theorem C34_push_from_handler_is_late_refuted :
  exists q l, tq_do_timeout handler_state 1028 = Ok (q, l) /\ quiet l = true /\ tq_get q 1 = Some 7.
Proof. exact handler_push_l. Qed.
Print Assumptions C34_push_from_handler_is_late_refuted.

(** Request 3 is due beyond the first level, request 4 is cancelled, request 1 is pushed twice. *)
Definition C34_calls : list tq_call :=
  [TPush 1 11 1002; TPush 2 12 1001; TPush 3 13 2100; TPush 4 14 1001; TPush 1 99 1500; TSize; TPop 4; TPop 9;
   TTimeout 1001; TPush 5 15 900; TGet 3; TTimeout 2100; TSize].

Example C34_within : within (- 2 ^ 31) (2 ^ 31) (mk_sq 1000 []) C34_calls.
Proof. vm_compute. repeat split; discriminate. Qed.

Definition fired_ticks (a : tq_answer) : tq_answer :=
  match a with AFired l => AFired (filter (fun x => negb (quiet [x])) l) | _ => a end.

Example C34_case : exists q answers, tq_run (tq_new 1000) C34_calls = Ok (q, answers) /\
  map fired_ticks answers =
    [APushed true; APushed true; APushed true; APushed true; APushed false; ASize 4; AMsg (Some 14); AMsg None;
     AFired [(1001, [(2, 12)])]; APushed true; AMsg (Some 13);
     AFired [(1002, [(1, 11); (5, 15)]); (2100, [(3, 13)])]; ASize 0].
Proof. eexists. eexists. split; [vm_compute; reflexivity|]. vm_compute. reflexivity. Qed.
