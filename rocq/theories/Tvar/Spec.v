(** What the variables have to show.  Written without the model's helpers. *)
From Coq Require Import List ZArith Bool Permutation.
From Verif.Lib Require Import Count.
From Verif.Tvar Require Import Model.
Import ListNotations.
Open Scope Z_scope.

(** A value as IntRecorder takes it: an int, the nearest one if it is too large. *)
Definition as_int (v : Z) : Z := Z.max (-2147483648) (Z.min v 2147483647).

Definition sum (l : list Z) : Z := fold_right Z.add 0 l.

(** What has to be shown for the values l. *)
Definition average_of (l : list Z) : Z * Z := (sum (map as_int l), Z.of_nat (length l)).
Definition count_of (l : list Z) : Z := sum l mod 18446744073709551616.
Definition largest (i : Z) (l : list Z) : Z := fold_left Z.max l i.
Definition least (i : Z) (l : list Z) : Z := fold_left Z.min l i.

(** A word of IntRecorder: c values with the sum x. *)
Definition word (c x : Z) : Z := c * 2 ^ 44 + x mod 2 ^ 44.

(** The values recorded and not yet given out by a Reset() that has returned. *)
Definition pending {R} (s : st R) : list Z :=
  match rdr s with
  | Some r => if resets r then gacc r else []
  | None => []
  end ++ chel s ++ concat (map held (ths s)).

(** The values of threads that are exiting. *)
Definition leaving {R} (s : st R) : list Z :=
  concat (map (fun t => match alive t with Leaving => held t | _ => [] end) (ths s)).

(** The values the calls of Reset() have given out. *)
Definition given {R} (rs : list (ret R)) : list Z :=
  concat (map (fun x => if was_reset x then values x else []) rs).

Definition begins_reset (a : act) : bool := match a with ABegin true => true | _ => false end.
Definition returns (a : act) : bool := match a with AReturn => true | _ => false end.

(** No Update(), Reset() or GetValue() is running and no thread is exiting. *)
Definition quiet {R} (s : st R) : Prop :=
  rdr s = None /\ forall t, In t (ths s) -> pc t = Idle /\ alive t <> Leaving.

(** A call of Reset() or GetValue() that runs alone. *)
Definition alone {R} (reset : bool) (s : st R) : list act :=
  [ABegin reset; AEnter] ++ repeat AVisit (cnt listed (ths s)) ++ [AReturn].

(** The values the calls of Update() in the list were given, and those of the
    calls still running. *)
Definition called (l : list act) : list Z :=
  concat (map (fun a => match a with ACall _ v => [v] | _ => [] end) l).
Definition adding (t : tls) : list Z :=
  match pc t with Idle => [] | Start v => [v] | Loaded v _ => [v] | Commit v => [v] end.
Definition running {R} (s : st R) : list Z := concat (map adding (ths s)).

(** Thread i is in Update(). *)
Definition updating {R} (i : nat) (s : st R) : Prop :=
  exists t, nth_error (ths s) i = Some t /\ pc t <> Idle.
(** Thread i is in Update(v). *)
Definition updates {R} (i : nat) (v : Z) (s : st R) : Prop :=
  exists t, nth_error (ths s) i = Some t /\ adding t = [v].

(** The variables, what they have to show for the values l, and whether Reset()
    may run beside Update(). *)
Inductive shows : forall R, kind R -> (list Z -> R) -> bool -> Prop :=
| shows_counter : shows Z (counter 0) count_of false
| shows_maxer i : shows Z (maxer i) (largest i) true
| shows_miner i : shows Z (miner i) (least i) true
| shows_recorder : shows (Z * Z) recorder average_of true.
Arguments shows {R} _ _ _.

(** A whole Update(v) of thread i, and a Reset() or GetValue() with n threads. *)
Definition add (i : nat) (v : Z) : list act := [ACall i v; AStep i; AStep i].
Definition read (reset : bool) (n : nat) : list act := [ABegin reset; AEnter] ++ repeat AVisit n ++ [AReturn].
