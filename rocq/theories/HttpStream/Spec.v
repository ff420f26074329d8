(** What a handler may see of a body. *)
From Coq Require Import List Bool Arith.
From Verif.HttpStream Require Import Model.
Import ListNotations.

(** The stream goes on, has been read to its end, or broke. *)
Inductive mode := Going | Ended | Broken.

(** [trace fin body ns rs m b ns']: calls of Read() for the sizes [ns] on a body
    that is closed with [fin] may return [rs]; then the stream is in mode [m],
    [b] is what was not read yet and [ns'] are the calls that are left. *)
Inductive trace (fin : option close) (body ns : list nat) : list res -> mode -> list nat -> list nat -> Prop :=
| t_nil : trace fin body ns [] Going body ns
| t_data rs x b n ns' : trace fin body ns rs Going (x ++ b) (n :: ns') -> length x = n ->
    trace fin body ns (rs ++ [Data x]) Going b ns'
| t_last rs x n ns' : trace fin body ns rs Going x (n :: ns') -> length x < n -> fin = Some CEnd ->
    trace fin body ns (rs ++ [Data x]) Ended [] ns'
| t_eof rs b n ns' : trace fin body ns rs Ended b (n :: ns') -> trace fin body ns (rs ++ [Eof]) Ended b ns'
| t_late rs b n ns' : trace fin body ns rs Going b (n :: ns') -> 1 <= n -> trace fin body ns (rs ++ [Late]) Going b ns'
| t_err rs m b n ns' : trace fin body ns rs m b (n :: ns') -> m = Going \/ m = Broken -> fin = Some CErr ->
    trace fin body ns (rs ++ [Err]) Broken b ns'.

(** The bytes that were returned. *)
Fixpoint bytes (rs : list res) : list nat :=
  match rs with [] => [] | Data x :: r => x ++ bytes r | _ :: r => bytes r end.

(** Nobody can go on before a deadline passes. *)
Definition quiet (s : st) : Prop := wstep s = None /\ rstep false s = None.
Definition returned (s : st) : Prop := wp s = WDone \/ wp s = WRefused.

(** A bound on the number of steps. *)
Definition bound (ps : list (list nat)) (ns : list nat) : nat := 16 * length (concat ps) + 8 * length ps + 16 * length ns + 18.

Fixpoint total (l : list nat) : nat := match l with [] => 0 | n :: r => n + total r end.
