(** What a window and a series have to show.  Written without the model's
    helpers, except for the records. *)
From Coq Require Import List ZArith Bool.
From Verif.Window Require Import Model.
Import ListNotations.
Open Scope nat_scope.

(** The samples taken, newest first; x is the first of all. *)
Definition taken {T} (x : sample T) (l : list (op_ T)) : list (sample T) :=
  rev (x :: concat (map (fun a => match a with HTake y => [y] | HSet _ => [] end) l)).
Definition takes {T} (l : list (op_ T)) : nat :=
  length (concat (map (fun a => match a with HTake y => [y] | HSet _ => [] end) l)).

(** The value of the last c seconds: their samples together, or the newest minus
    the one before them. *)
Definition shown {T} (op : T -> T -> T) (inv : option (T -> T -> T)) (c : nat) (h : list (sample T)) (r : option (sample T)) : Prop :=
  match c with
  | O => r = None
  | S k =>
      exists new mid old rest,
        h = new :: mid ++ old :: rest /\ length mid = k /\
        r = Some {| data := match inv with
                            | None => fold_left op (map data mid) (data new)
                            | Some m => m (data new) (data old)
                            end;
                    time := ((time new - time old) mod 18446744073709551616)%Z |}
  end.

(** The complete blocks of n values, each made into one. *)
Definition blocks {T} (n : nat) (f : list T -> T) (l : list T) : list T :=
  map (fun i => f (firstn n (skipn (i * n) l))) (seq 0 (length l / n)).
Definition made {T} (op : T -> T -> T) (dv : T -> Z -> T) (z : T) (l : list T) : T :=
  match l with [] => z | x :: m => dv (fold_left op m x) (Z.of_nat (length l)) end.
(** The last n, newest first, the rest z. *)
Definition latest {T} (z : T) (n : nat) (l : list T) : list T := firstn n (rev l ++ repeat z n).
