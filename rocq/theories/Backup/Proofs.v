(** Invariant of backup requests over connectors whose late answers fail. *)
From Coq Require Import Bool Arith List Lia.
From Verif Require Import Backup.Model.
Import ListNotations.

Definition is_err (c : code) : Prop := c <> Okay.

(** A request that cannot finish the call, [done]: it was counted. *)
Definition calm (p : hpc) : Prop :=
  match p with HNone | HOut | HDone => True | HCb c | HCount c => is_err c | _ => False end.

Definition counted (p : hpc) : nat := match p with HSet _ | HFin | HDone => 1 | _ => 0 end.
Definition last_fail (p : hpc) : Prop := match p with HSet c => is_err c | HFin => True | _ => False end.

(** Nobody was answered. *)
Definition none_won (s : st) : Prop :=
  got s = false /\ msg s = None /\ rep0 s = false /\ rep1 s = false /\
  failed s = counted (p0 s) + counted (p1 s) /\
  ((fin s = false /\ ((calm (p0 s) /\ calm (p1 s) /\ failed s < 2 /\ ret s = Unknown /\ idx s = Some false) \/
                      (p0 s = HDone /\ last_fail (p1 s) \/ p1 s = HDone /\ last_fail (p0 s)) /\
                      (p0 s = HFin \/ p1 s = HFin -> is_err (ret s) /\ idx s = None) /\
                      (p0 s <> HFin -> p1 s <> HFin -> ret s = Unknown))) \/
   (fin s = true /\ p0 s = HDone /\ p1 s = HDone /\ is_err (ret s) /\ idx s = None)).

(** [w] was answered first. *)
Definition some_won (s : st) (w : bool) : Prop :=
  got s = true /\ rep s w = true /\ calm (pc s (negb w)) /\
  (failed s = 0 \/ failed s = 1 /\ pc s (negb w) = HDone) /\
  match pc s w with
  | HWon => fin s = false /\ msg s = None /\ ret s = Unknown
  | HCb c | HSet c => c = Okay /\ fin s = false /\ msg s = Some w /\ ret s = Unknown
  | HFin => fin s = false /\ msg s = Some w /\ ret s = Okay /\ idx s = Some w
  | HDone => fin s = true /\ msg s = Some w /\ ret s = Okay /\ idx s = Some w
  | _ => False
  end.

Definition caller_ok (s : st) : Prop :=
  match cp s with
  | CIssue0 => p0 s = HNone /\ p1 s = HNone
  | CTest0 | CWait0 | CIssue1 => p0 s <> HNone /\ p1 s = HNone
  | CWait1 => p0 s <> HNone /\ p1 s <> HNone
  | CRet c => p0 s <> HNone /\ fin s = true /\ c = ret s /\ (p1 s = HNone -> won s = Some false)
  end.

Definition Inv (s : st) : Prop :=
  bad s = false /\ caller_ok s /\ match won s with None => none_won s | Some w => some_won s w end.

Lemma init_inv : Inv init.
Proof.
  unfold Inv, caller_ok, none_won, init; cbn.
  repeat (split; try reflexivity; try exact Logic.I). left. split; [reflexivity|]. left. repeat split. lia.
Qed.
