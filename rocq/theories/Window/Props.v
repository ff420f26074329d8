(** C60: what windows and series show. *)
From Coq Require Import List ZArith Bool.
From Verif.Lib Require Import Base.
From Verif.Percentile Require Model.
From Verif.Window Require Import Model Spec ProofsSeries ProofsMain.
Import ListNotations.
Open Scope nat_scope.

(** Whatever happens to a sampler, nothing goes wrong in the ring, its capacity
    stays small, and any window shows the last seconds, at most as many as asked
    for. *)
Theorem C60_always : forall T (op : T -> T -> T) inv x l, exists s, life x l = Ok s /\ (Z.of_nat (cap (que s)) <= 7200)%Z /\
  forall w, exists c r, get_value op inv s w = Ok r /\ shown op inv c (taken x l) r /\ c <= takes l /\ (Z.of_nat c <= Z.max w 0)%Z.
Proof. exact @always. Qed.
Print Assumptions C60_always.

(** A window that was there for that many seconds shows all of them; GetSamples()
    gives all of them but the newest. *)
Theorem C60_window : forall T (op : T -> T -> T) inv x a w b v, (0 < w <= 3600)%Z -> (0 < v <= w)%Z ->
  exists s c r, life x (a ++ HSet w :: b) = Ok s /\ get_value op inv s v = Ok r /\
    shown op inv c (taken x (a ++ HSet w :: b)) r /\ (Z.min v (Z.of_nat (takes b)) <= Z.of_nat c <= v)%Z /\
    get_samples s v = Ok (map data (firstn (c - 1) (tl (taken x (a ++ HSet w :: b))))).
Proof. exact @window_right. Qed.
Print Assumptions C60_window.
Definition at_time (d t : Z) : sample Z := {| data := d; time := t |}.
Example C60_window_case :
  let l := [HTake (at_time 5 20); HSet 3; HTake (at_time 9 30); HTake (at_time 2 40); HTake (at_time 4 51); HTake (at_time 1 60)] in
  exists s, life (at_time 7 10) l = Ok s /\ cap (que s) = 4 /\
    get_value Z.max None s 3 = Ok (Some (at_time 4 30)) /\ get_value Z.max None s 2 = Ok (Some (at_time 4 20)) /\
    get_value Z.add (Some Z.sub) s 3 = Ok (Some (at_time (-8) 30)) /\ get_value Z.max None s 9 = Ok (Some (at_time 4 30)) /\
    get_samples s 3 = Ok [4; 2]%Z.
Proof. cbv zeta. eexists. split; [vm_compute; reflexivity|]. vm_compute. repeat split. Qed.

(** A window over running totals shows what was added in its seconds. *)
Theorem C60_totals : forall c h r ds, shown Z.add (Some Z.sub) c h (Some r) ->
  (forall i x, nth_error h i = Some x -> data x = fold_right Z.add 0%Z (skipn i ds)) -> data r = fold_right Z.add 0%Z (firstn c ds).
Proof. exact totals. Qed.
Print Assumptions C60_totals.
Example C60_totals_case :
  shown Z.add (Some Z.sub) 2 [at_time 12 40; at_time 9 30; at_time 4 20; at_time 1 10] (Some (at_time 8 20)).
Proof. cbn. exists (at_time 12 40), [at_time 9 30], (at_time 4 20), [at_time 1 10]. repeat split. Qed.

(** The window of a percentile does not have the newest second: with a window of
    one second every percentile is 0. *)
Theorem C60_samples_refuted : forall x l s o, life (T := Percentile.Model.group) x l = Ok s ->
  exists gs, get_samples s 1 = Ok gs /\ Percentile.Model.percentile 0 gs o = Ok 0%Z.
Proof. exact one_second_percentile. Qed.
Print Assumptions C60_samples_refuted.

(** A window's size has to be in 1..3600. *)
Theorem C60_size : forall T (s : sampler T) w conf, let v := (if (0 <? w)%Z then w else conf) in
  ((1 <= v <= 3600)%Z -> exists s', window s w conf = Ok (s', v)) /\ (~ (1 <= v <= 3600)%Z -> window s w conf = Abort).
Proof. exact @window_size. Qed.
Print Assumptions C60_size.

(** The vectors of a series are the last seconds, minutes, hours and days, newest
    first; a minute is made of 60 seconds, and so on. *)
Theorem C60_series : forall T (z : T) op dv h,
  let f := made op dv z in
  let m := blocks 60 f h in
  let hs := blocks 60 f m in
  let ds := blocks 24 f hs in
  vectors z (appends z op dv h) = (latest z 60 h, latest z 60 m, latest z 24 hs, latest z 30 ds, hd z (rev h)).
Proof. exact @appends_vectors. Qed.
Print Assumptions C60_series.
Example C60_series_case :
  let '(s, m, h, d, n) := vectors 0%Z (appends 0%Z Z.add round_div (map Z.of_nat (seq 1 125))) in
  firstn 6 s = [125; 124; 123; 122; 121; 120]%Z /\ nth 59 s 0%Z = 66%Z /\ firstn 3 m = [91; 31; 0]%Z /\ hd 0%Z h = 0%Z /\ hd 0%Z d = 0%Z /\ n = 125%Z.
Proof. vm_compute. repeat split. Qed.

(** But GetSeries() always unlocks twice. *)
Theorem C60_series_refuted : forall T (z : T) op dv h, get_series z (appends z op dv h) = UB.
Proof. exact @series_ub. Qed.
Print Assumptions C60_series_refuted.
