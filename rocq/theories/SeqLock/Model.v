(** A sequence lock.
    Source: trpc/coroutine/fiber_seqlock.h lines 23-155, fiber_seqlock.cc lines
    18-32.

    Simplified:
    - every access to the counter and to a cell of the data is one step, memory
      is sequentially consistent (the code has full barriers between the
      counter and the data); sequence++ is one step, as only the holder of the
      mutex writes it;
    - FiberMutex is a lock that one thread owns (C40);
    - the counter counts modulo [M]; in the code M = 2^32.  It has no
      initialiser (lines 66-73), so it starts with any value [q]. *)
From Coq Require Import List Bool Arith.
Import ListNotations.

(** A use of the lock as shown in lines 33-45: write all cells, or read all
    cells until a read is accepted. *)
Inductive op := Write (v : list nat) | Read.

(** Where a thread is.  [e] is history: how often the counter had been
    incremented when the reader loaded it. *)
Inductive pc :=
| Idle
| WBegin (v : list nat)
| WStore (v : list nat) (k : nat)
| WUnlock
| RBegin
| RLoad (r e : nat) (got : list nat).

(** [seen]: the accepted reads, with the numbers of increments when they began
    and when they were accepted (history). *)
Record th := { todo : list op; at_ : pc; seen : list (list nat * nat * nat) }.

(** [incs] (all increments so far) and [vers] (the first content and all written
    ones) are history. *)
Record st := { seq : nat; mem : list nat; owner : option nat; ths : list th; incs : nat; vers : list (list nat) }.

Fixpoint set_nth {A} (k : nat) (x : A) (l : list A) : list A :=
  match l, k with
  | [], _ => []
  | _ :: r, 0 => x :: r
  | a :: r, S k => a :: set_nth k x r
  end.

Definition put (i : nat) (t : th) (s : st) : st :=
  {| seq := seq s; mem := mem s; owner := owner s; ths := set_nth i t (ths s); incs := incs s; vers := vers s |}.
Definition go (t : th) (p : pc) : th := {| todo := todo t; at_ := p; seen := seen t |}.
Definition set_owner (o : option nat) (s : st) : st :=
  {| seq := seq s; mem := mem s; owner := o; ths := ths s; incs := incs s; vers := vers s |}.
Definition set_mem (m : list nat) (s : st) : st :=
  {| seq := seq s; mem := m; owner := owner s; ths := ths s; incs := incs s; vers := vers s |}.
(** s->sequence++: fiber_seqlock.h lines 147-155. *)
Definition incr (M : nat) (s : st) : st :=
  {| seq := S (seq s) mod M; mem := mem s; owner := owner s; ths := ths s; incs := S (incs s); vers := vers s |}.
Definition log (v : list nat) (s : st) : st :=
  {| seq := seq s; mem := mem s; owner := owner s; ths := ths s; incs := incs s; vers := vers s ++ [v] |}.

(** A step of thread [i].
    WriteSeqLock, WriteSeqUnlock: fiber_seqlock.cc lines 24-32;
    ReadSeqBegin: ReadSeqCountBlock, fiber_seqlock.h lines 119-136;
    ReadSeqRetry: lines 138-145. *)
Definition step (M i : nat) (s : st) : option st :=
  match nth_error (ths s) i with
  | None => None
  | Some t =>
      match at_ t with
      | Idle =>
          match todo t with
          | [] => None
          | Write v :: r =>
              match owner s with
              | None => Some (put i {| todo := r; at_ := WBegin v; seen := seen t |} (set_owner (Some i) s))
              | Some _ => None
              end
          | Read :: r => Some (put i {| todo := r; at_ := RBegin; seen := seen t |} s)
          end
      | WBegin v => Some (put i (go t (WStore v 0)) (incr M s))
      | WStore v k =>
          if k <? length (mem s) then Some (put i (go t (WStore v (S k))) (set_mem (set_nth k (nth k v 0) (mem s)) s))
          else Some (put i (go t WUnlock) (log v (incr M s)))
      | WUnlock => Some (put i (go t Idle) (set_owner None s))
      | RBegin => if Nat.odd (seq s) then Some s else Some (put i (go t (RLoad (seq s) (incs s) [])) s)
      | RLoad r e got =>
          if length got <? length (mem s) then Some (put i (go t (RLoad r e (got ++ [nth (length got) (mem s) 0]))) s)
          else if seq s =? r then Some (put i {| todo := todo t; at_ := Idle; seen := seen t ++ [(got, e, incs s)] |} s)
          else Some (put i (go t RBegin) s)
      end
  end.

Definition start (q : nat) (v0 : list nat) (ps : list (list op)) : st :=
  {| seq := q; mem := v0; owner := None; ths := map (fun p => {| todo := p; at_ := Idle; seen := [] |}) ps; incs := 0; vers := [v0] |}.

Inductive reach (M : nat) (s : st) : st -> Prop :=
| reach_0 : reach M s s
| reach_S i s1 s2 : reach M s s1 -> step M i s1 = Some s2 -> reach M s s2.

(** [k] steps of thread [i] and of nobody else. *)
Fixpoint alone (M i k : nat) (s : st) : option st :=
  match k with
  | 0 => Some s
  | S k => match step M i s with Some s1 => alone M i k s1 | None => None end
  end.
