(** What the event count promises. *)
From Coq Require Import List Bool Arith.
From Verif Require Import EventCount.Model.
Import ListNotations.

(** [x] is met when following [next] from [o]. *)
Inductive on_chain (nx : nat -> option nat) : option nat -> nat -> Prop :=
| oc_here x : on_chain nx (Some x) x
| oc_next x y : on_chain nx (nx x) y -> on_chain nx (Some x) y.

(** Waiter [i] is on the stack: nobody has woken it. *)
Definition on_stack (s : st) (i : nat) : Prop := on_chain (nxt s) (w_stk (word_ s)) i.

(** Notifier [j] has taken waiter [i] and is about to wake it. *)
Definition in_hand (s : st) (j i : nat) : Prop :=
  match np s j with
  | NClear x => x = i
  | NUnpark o => on_chain (nxt s) o i
  | NSignal x o => x = i \/ on_chain (nxt s) o i
  | _ => False
  end.

Definition asleep (s : st) (i : nat) : Prop := wp s i = WParked /\ sig s i = false.

(** The epoch at which a waiter decides. *)
Definition ticket (p : wpc) : option nat :=
  match p with
  | WPrepared t | WCommitting t | WStored t _ | WCancelling t | WCancel t _ => Some t
  | WIdle | WParked => None
  end.

(** A Notify(true) took effect after the last PrepareWait of [i]. *)
Fixpoint all_since (i : nat) (l : list event) : Prop :=
  match l with
  | [] => False
  | EPrepare k :: r => if k =? i then False else all_since i r
  | EDecide _ true :: _ => True
  | _ :: r => all_since i r
  end.

(** Any Notify did. *)
Fixpoint any_since (i : nat) (l : list event) : Prop :=
  match l with
  | [] => False
  | EPrepare k :: r => if k =? i then False else any_since i r
  | EDecide _ _ :: _ => True
  | _ :: r => any_since i r
  end.

(** A waiter that the next notification may still choose: undecided and not
    notified, or on the stack. *)
Definition waiting (s : st) (i : nat) : Prop :=
  (exists t, ticket (wp s i) = Some t /\ w_ep (word_ s) <= t) \/ on_stack s i.

Definition quiet (s : st) : Prop := forall j, np s j = NIdle.

(** Waiter [i] will get on without another notification: it was notified before
    it decided, or notifier [j] is about to wake it. *)
Definition freed (s : st) (j i : nat) : Prop :=
  (exists t, ticket (wp s i) = Some t /\ t < w_ep (word_ s)) \/ in_hand s j i.

(** A step of notifier [j] that adds its decision to the history. *)
Definition decides (s : st) (j : nat) (all : bool) (s' : st) : Prop :=
  nstep s j = Some s' /\ log s' = EDecide j all :: log s.

(** In CommitWait. *)
Definition in_commit (p : wpc) : Prop :=
  match p with WCommitting _ | WStored _ _ | WParked => True | _ => False end.
