(** What a condition variable should do. *)
From Verif.Lib Require Import Base.
From Verif.FiberSync Require Import ModelCv.

(** Thread has the user's mutex. *)
Definition owns (c : pc) : bool :=
  match c with Hold | FIn _ | PAdd _ | PGot _ => true | NGo h _ | NRes h _ _ _ | NWake h _ _ _ | NSys h _ _ _ => h | _ => false end.
(** Thread sleeps without a time limit. *)
Definition sleeps (c : pc) : Prop := c = FSusp false \/ c = PWait false.
(** Thread has released the mutex in a wait and has not been woken. *)
Definition waiting (c : pc) : bool := match c with FUn _ | FSusp _ | PUn _ | PWait _ => true | _ => false end.
(** Thread wants the mutex back. *)
Definition wants (c : pc) : Prop := exists t r, c = FLock t r \/ c = PLock t r.
Definition pc_of (i : nat) (s : cv) : pc := t_pc (nth i (c_ths s) t0).
(** Somebody is about to wake thread j. *)
Definition called (j : nat) (s : cv) : Prop :=
  t_tm (nth j (c_ths s) t0) = TRes \/
  exists i h a g, (i < length (c_ths s))%nat /\ (pc_of i s = NRes h a j g \/ pc_of i s = NWake h a j g \/ pc_of i s = NSys h a j g).
Definition stuck (s : cv) : Prop := forall i s', ~ tstep i s s'.

(** The first waiter in line that nobody has woken. *)
Definition asleep (s : cv) (j : nat) : bool := negb (t_fib (nth j (c_ths s) t0) && t_sat (nth j (c_ths s) t0)).
Definition in_line (s : cv) : list nat := map fst (c_chain s).
Definition first_waiter (s : cv) : option nat := find (asleep s) (in_line s).
Inductive reach (pth locked : bool) : cv -> cv -> Prop :=
| reach_refl s : reach pth locked s s
| reach_step s s' s'' : reach pth locked s s' -> step pth locked s' s'' -> reach pth locked s s''.
