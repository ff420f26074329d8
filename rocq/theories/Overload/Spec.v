(** Specification of rate limiting: counting requests in time. *)
From Verif.Lib Require Import Base.
Local Open Scope Z_scope.

(** Times in non-decreasing order, all at or after [t0]. *)
Fixpoint ordered (t0 : Z) (times : list Z) : Prop :=
  match times with [] => True | t :: r => t0 <= t /\ ordered t r end.

(** Number of admitted requests whose time lies in [a, b]. *)
Fixpoint admitted_in (a b : Z) (times : list Z) (adm : list bool) : Z :=
  match times, adm with
  | t :: ts, x :: xs => (if x && (a <=? t) && (t <=? b) then 1 else 0) + admitted_in a b ts xs
  | _, _ => 0
  end.

(** Number of entries of a log (second, rejected) for second [s]; number of them admitted. *)
Definition arrivals (s : Z) (log : list (Z * bool)) : Z :=
  Z.of_nat (length (filter (fun e => fst e =? s) log)).
Definition admitted (s : Z) (log : list (Z * bool)) : Z :=
  Z.of_nat (length (filter (fun e => (fst e =? s) && negb (snd e)) log)).

Definition total (l : list Z) : Z := fold_right Z.add 0 l.

(** The smooth limiter's verdicts (true = rejected) on a history of ticks (true) and requests
    (false): [log] holds the admitted requests per frame, latest first; a request is rejected
    exactly when the last [w] frames hold [limit] admitted requests. *)
Fixpoint smooth_spec (limit : Z) (w : nat) (log : list Z) (evs : list bool) : list bool :=
  match evs with
  | [] => []
  | true :: r => smooth_spec limit w (0 :: log) r                        (* tick *)
  | false :: r =>                                                      (* request *)
      let full := limit <=? total (firstn w log) in
      full :: smooth_spec limit w (if full then log else match log with a :: l => a + 1 :: l | [] => [] end) r
  end.
