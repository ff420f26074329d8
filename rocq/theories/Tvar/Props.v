(** C58: what a thread-buffered variable shows is made of every recorded value
    once. *)
From Coq Require Import List ZArith Bool Permutation.
From Verif.Lib Require Import Count.
From Verif.Tvar Require Import Model Spec ProofsMain.
Import ListNotations.
Open Scope Z_scope.

(** Whatever the threads do, Reset() and GetValue() return what has to be shown
    for the values they have taken in.  (Counter: unless Reset() is called.) *)
Theorem C58_value : forall R (k : kind R) f b l s rs, shows k f b ->
  (b = true \/ existsb begins_reset l = false) -> run k l (init k) = Some (s, rs) ->
  Forall (fun x => value x = f (values x)) rs.
Proof. exact @value_right_all. Qed.
Print Assumptions C58_value.

(** Every recorded value is given out by one Reset() or is still there. *)
Theorem C58_once : forall R (k : kind R) f b l s rs, shows k f b ->
  run k l (init k) = Some (s, rs) -> Permutation (fin s) (given rs ++ pending s).
Proof. exact @all_once_all. Qed.
Print Assumptions C58_once.

(** Every call of Update() is recorded once, or still running. *)
Theorem C58_recorded : forall R (k : kind R) l s rs,
  run k l (init k) = Some (s, rs) -> Permutation (called l) (fin s ++ running s).
Proof. exact @calls_end. Qed.
Print Assumptions C58_recorded.

(** GetValue() takes in all that was there when it began, except for what an
    exiting thread holds, and nothing that is not there when it returns. *)
Theorem C58_read : forall R (k : kind R) f b l s rs mid s' x, shows k f b ->
  (b = true \/ existsb begins_reset l = false) -> run k l (init k) = Some (s, rs) -> rdr s = None ->
  existsb returns mid = false -> (b = true \/ existsb begins_reset mid = false) ->
  run k (ABegin false :: mid ++ [AReturn]) s = Some (s', [x]) ->
  value x = f (values x) /\
  forall p, (cnt p (pending s) <= cnt p (values x) + cnt p (leaving s') /\ cnt p (values x) <= cnt p (pending s'))%nat.
Proof. exact @reads_between_all. Qed.
Print Assumptions C58_read.

(** With nobody in Update() and no thread exiting, Reset() and GetValue() show
    every call since the last Reset(). *)
Theorem C58_all_shown : forall R (k : kind R) f b l s rs reset, shows k f b ->
  (b = true \/ existsb begins_reset l = false) -> (reset = true -> b = true) ->
  run k l (init k) = Some (s, rs) -> quiet s ->
  exists s' x, run k (alone reset s) s = Some (s', [x]) /\ was_reset x = reset /\ value x = f (values x) /\
    Permutation (called l) (given rs ++ values x).
Proof. exact @all_shown. Qed.
Print Assumptions C58_all_shown.

(** Update() ends after four steps if no Reset() or GetValue() runs. *)
Theorem C58_ends : forall R (k : kind R) f b l s rs i v, shows k f b ->
  (b = true \/ existsb begins_reset l = false) -> run k l (init k) = Some (s, rs) -> rdr s = None -> updates i v s ->
  exists n s', (n <= 4)%nat /\ run k (repeat (AStep i) n) s = Some (s', []) /\ fin s' = fin s ++ [v] /\ ~ updating i s'.
Proof. exact @update_ends_all. Qed.
Print Assumptions C58_ends.

(** IntRecorder keeps 20 bits of count and 44 bits of sum in a word and commits
    exactly if one more value does not fit. *)
Theorem C58_word : forall c x v, 0 <= c < 2 ^ 20 -> - 2 ^ 43 <= x < 2 ^ 43 ->
  plan recorder (word c x) v =
  if (c + 1 <? 2 ^ 20) && ((- 2 ^ 43 <=? x + as_int v) && (x + as_int v <? 2 ^ 43)) then Some (word (c + 1) (x + as_int v)) else None.
Proof. exact plan_word. Qed.
Print Assumptions C58_word.

Theorem C58_word_merge : forall c x r, 0 <= c < 2 ^ 20 -> - 2 ^ 43 <= x < 2 ^ 43 ->
  merge recorder r (word c x) = (fst r + x, snd r + c).
Proof. exact merge_word. Qed.
Print Assumptions C58_word_merge.

(** Not so: a Reset() of a Counter takes what it returns away.  A thread that has
    read its word before Reset() writes the old value back. *)
Theorem C58_counter_reset_refuted : exists l s x y, run (counter 0) l (init (counter 0)) = Some (s, [x; y]) /\
  was_reset x = true /\ was_reset y = false /\ fin s = [5; 7] /\ value x = 5 /\ value y = 12.
Proof. exact counter_twice. Qed.
Print Assumptions C58_counter_reset_refuted.

(** Not so: a Counter shows its initial value plus what was added.  The initial
    value is in the word of every thread too. *)
Theorem C58_initial_refuted : exists l s x, run (counter 10) l (init (counter 10)) = Some (s, [x]) /\ fin s = [5] /\ value x = 25.
Proof. exact counter_initial. Qed.
Print Assumptions C58_initial_refuted.

(** Not so: a Counter without Reset() never goes down.  What an exiting thread
    has added is missing until its wrapper is destroyed. *)
Theorem C58_monotone_refuted : exists l s x y, run (counter 0) l (init (counter 0)) = Some (s, [x; y]) /\
  existsb begins_reset l = false /\ fin s = [5] /\ value x = 5 /\ value y = 0.
Proof. exact counter_dips. Qed.
Print Assumptions C58_monotone_refuted.

(** Two threads, a Reset() in the middle of two updates, a value that is too
    large and a thread that exits. *)
Example C58_case : exists s x y, run recorder
   ([ANew; ANew] ++ add 0 7 ++ [ACall 1 (-3); AStep 1; ACall 0 3000000000; AStep 0; ABegin true; AEnter; AVisit; AStep 1; AVisit; AReturn]
    ++ [AStep 0; AStep 0; AExit 1; ADestroy 1] ++ read false 1) (init recorder) = Some (s, [x; y]) /\
  fin s = [7; -3; 3000000000] /\ value x = (4, 2) /\ value y = (2147483647, 1).
Proof. exact recorder_case. Qed.

Example C58_word_case :
  plan recorder (word (2 ^ 20 - 1) 5) 1 = None /\ plan recorder (word 3 (2 ^ 43 - 1)) 1 = None /\
  plan recorder (word 3 (- 2 ^ 43)) (-1) = None /\ plan recorder (word 3 (-5)) (-7) = Some (word 4 (-12)).
Proof. vm_compute. repeat split. Qed.
