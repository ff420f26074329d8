(** C67: the fiber mutex with time limits excludes and loses no wake-up. *)
From Coq Require Import Bool Arith List.
From Verif Require Import TimedMutex.Model TimedMutex.Spec TimedMutex.Proofs.
Import ListNotations.

(** What the calls report is a history of a mutex: it is taken when free, released
    by its owner, and an attempt fails only while somebody else owns it. *)
Theorem C67_history : forall n s, reach true n s ->
  exists o, owner (log s) = Some o /\ forall i, o = Some i <-> at_ s i = Held.
Proof. exact history. Qed.
Print Assumptions C67_history.

Theorem C67_exclusion : forall n s i k, reach true n s -> at_ s i = Held -> at_ s k = Held -> i = k.
Proof. exact exclusion. Qed.
Print Assumptions C67_exclusion.

(** If nobody has the mutex and somebody waits for it, some fiber has been woken
    and takes it with its next step, whichever deadlines passed before. *)
Theorem C67_no_lost_wakeup : forall n s k, reach true n s ->
  (forall i, at_ s i <> Held) -> waits (at_ s k) = true ->
  exists j s', exec true n s (Retry j) = Some s' /\ at_ s' j = Held.
Proof. exact no_lost_wakeup. Qed.
Print Assumptions C67_no_lost_wakeup.

(** A woken fiber takes the mutex, or gives up if its deadline passed, or waits again. *)
Theorem C67_woken : forall p n s i t x, at_ s i = Woken t x -> exists s', exec p n s (Retry i) = Some s' /\
  (at_ s' i = Held \/ at_ s' i = Idle /\ x = true \/ at_ s' i = Waiting t /\ x = false).
Proof. exact woken_goes_on. Qed.
Print Assumptions C67_woken.

(** The header says that unlock transfers the mutex to a waiting fiber.  It does
    not: one fiber can take it [m] times more while another waits, for every [m]. *)
Theorem C67_transfer_refuted : forall m, exists s s' l, reach true 2 s /\ at_ s 1 = Waiting false /\
  run true 2 s l = Some s' /\ at_ s' 1 = Waiting false /\ log s' = concat (repeat [Took 0; Released 0] m) ++ log s.
Proof. exact overtaken. Qed.
Print Assumptions C67_transfer_refuted.

(** Nothing checks who unlocks: after an unlock by another fiber two have the mutex. *)
Theorem C67_foreign_unlock_refuted : exists s, reach false 3 s /\ at_ s 0 = Held /\ at_ s 2 = Held /\ owner (log s) = None.
Proof. exact foreign_unlock. Qed.
Print Assumptions C67_foreign_unlock_refuted.

(** Fiber 0 has the mutex, 1 waits with a deadline and 2 without; 0 wakes 1; fiber 3
    is quicker; the deadline of 1 has passed meanwhile, it waits again and gives up;
    3 unlocks and wakes 2. *)
Example C67_example :
  option_map (fun s => (rev (log s), locked s))
    (run true 4 init [Lock 0; TimedLock 1; Lock 2; Unlock 0 (Some 1); TryLock 3; Retry 1; Expire 1; Retry 1; Unlock 3 (Some 2); Retry 2])
  = Some ([Took 0; Released 0; Took 3; Failed 1; Released 3; Took 2], true).
Proof. vm_compute. reflexivity. Qed.
