(** Values of the last seconds: trpc/tvar/common/sampler.h, series.h,
    trpc/tvar/compound_ops/window.h and trpc/util/container/bounded_queue.h.

    A sampler asks a variable for its value once a second and keeps the answers in
    a ring; a window combines the last ones.  A series keeps the last 60 seconds,
    60 minutes, 24 hours and 30 days.  TakeSample(), GetValue(), SetWindowSize()
    and GetSamples() hold mutex_ from beginning to end and are one step each;
    malloc() does not fail. *)
From Coq Require Import List ZArith Bool.
From Verif.Lib Require Import Base ListX.
Import ListNotations.
Open Scope nat_scope.
Open Scope out_scope.

(** BoundedQueue: bounded_queue.h lines 27-276.  A pointer to an item is the
    number of its slot; [None] is a slot with nothing in it. *)
Record queue (T : Type) := { count : nat; cap : nat; start : nat; items : list (option T) }.
Arguments count {T}. Arguments cap {T}. Arguments start {T}. Arguments items {T}.

(** Mod: lines 262-267.  The loop does not end if cap is 0. *)
Definition mod_ (off cap : nat) : nat := off mod cap.

(** Lines 36-39 and 53-58. *)
Definition new_queue {T} (n : nat) : queue T := {| count := 0; cap := n; start := 0; items := repeat None n |}.

(** Push: lines 70-77. *)
Definition push {T} (q : queue T) (x : T) : queue T :=
  if count q <? cap q then
    {| count := S (count q); cap := cap q; start := start q;
       items := lset (items q) (mod_ (start q + count q) (cap q)) (Some x) |}
  else q.

(** ElimPush: lines 81-89. *)
Definition elim_push {T} (q : queue T) (x : T) : out (queue T) :=
  if count q <? cap q then Ok (push q x)
  else if cap q =? 0 then UB
  else Ok {| count := count q; cap := cap q; start := mod_ (start q + 1) (cap q);
             items := lset (items q) (start q) (Some x) |}.

(** *p. *)
Definition slot {T} (q : queue T) (p : nat) : out T :=
  match nth p (items q) None with Some x => Ok x | None => UB end.

(** Pop: lines 137-147. *)
Definition pop {T} (q : queue T) : out (option (T * queue T)) :=
  match count q with
  | O => Ok None
  | S n =>
      let! x := slot q (start q) in
      Ok (Some (x, {| count := n; cap := cap q; start := mod_ (start q + 1) (cap q);
                      items := lset (items q) (start q) None |}))
  end.

(** Top() and Bottom(index): lines 184 and 225-231; Bottom() is Bottom(0). *)
Definition top {T} (q : queue T) : option nat := match count q with O => None | S _ => Some (start q) end.
Definition bottom {T} (q : queue T) (i : nat) : option nat :=
  if i <? count q then Some (mod_ (start q + count q - i - 1) (cap q)) else None.

(** Sample: sampler.h lines 42-51. *)
Record sample (T : Type) := { data : T; time : Z }.
Arguments data {T}. Arguments time {T}.

(** ReducerSampler: lines 103-249. *)
Record sampler (T : Type) := { win : Z; que : queue (sample T) }.
Arguments win {T}. Arguments que {T}.

(** Lines 133-135: all items go to the new queue; [n] is the number of rounds. *)
Fixpoint move {T} (n : nat) (q r : queue T) : out (queue T) :=
  let! x := pop q in
  match x with
  | None => Ok r
  | Some (x, q1) => match n with O => NoFuel | S n' => move n' q1 (push r x) end
  end.

(** TakeSample: lines 121-148; x is what the variable answers, with the time. *)
Definition take {T} (s : sampler T) (x : sample T) : out (sampler T) :=
  let! q := (if (Z.of_nat (cap (que s)) <? win s + 1)%Z then
               move (count (que s)) (que s) (new_queue (Nat.max (cap (que s) * 2) (Z.to_nat (win s + 1))))
             else Ok (que s)) in
  let! q1 := elim_push q x in
  Ok {| win := win s; que := q1 |}.

(** The constructor: lines 113-116. *)
Definition new_sampler {T} (x : sample T) : out (sampler T) :=
  take {| win := 1; que := new_queue 0 |} x.

(** SetWindowSize: lines 187-200.  [false]: -1. *)
Definition set_window {T} (s : sampler T) (w : Z) : sampler T * bool :=
  if ((w <=? 0) || (3600 <? w))%Z then (s, false)
  else ({| win := if (win s <? w)%Z then w else win s; que := que s |}, true).

(** Lines 163-166 and 222-225: the oldest sample of the window. *)
Definition oldest {T} (s : sampler T) (w : Z) : option nat :=
  match bottom (que s) (Z.to_nat w) with Some p => Some p | None => top (que s) end.

(** The loops of lines 171-177 and 226-232: the samples from number i on, up to
    the oldest.  Bottom(i) past the end is a null pointer that is dereferenced. *)
Fixpoint collect {T} (n : nat) (q : queue (sample T)) (i : nat) (p : nat) : out (list T) :=
  match n with
  | O => NoFuel
  | S n' =>
      match bottom q i with
      | None => UB
      | Some e =>
          if e =? p then Ok []
          else
            let! x := slot q e in
            let! l := collect n' q (S i) p in
            Ok (data x :: l)
      end
  end.

(** GetValue: lines 151-184.  [inv] is InvOp, [None] if it is VoidOp; time_us is
    unsigned.  The result is [None] for false. *)
Definition get_value {T} (op : T -> T -> T) (inv : option (T -> T -> T)) (s : sampler T) (w : Z) : out (option (sample T)) :=
  if (w <=? 0)%Z then Ok None
  else if count (que s) <=? 1 then Ok None
  else
    match oldest s w, bottom (que s) 0 with
    | Some p, Some b =>
        if b =? p then Abort
        else
          let! latest := slot (que s) b in
          let! first := slot (que s) p in
          let! d := (match inv with
                     | None => let! l := collect (count (que s)) (que s) 1 p in Ok (fold_left op l (data latest))
                     | Some m => Ok (m (data latest) (data first))
                     end) in
          Ok (Some {| data := d; time := ((time latest - time first) mod 2 ^ 64)%Z |})
    | _, _ => UB
    end.

(** GetSamples: lines 209-235. *)
Definition get_samples {T} (s : sampler T) (w : Z) : out (list T) :=
  if (w <=? 0)%Z then Ok []
  else if count (que s) <=? 1 then Ok []
  else match oldest s w with Some p => collect (count (que s)) (que s) 1 p | None => UB end.

(** What happens to a sampler. *)
Inductive op_ (T : Type) := HTake (x : sample T) | HSet (w : Z).
Arguments HTake {T}. Arguments HSet {T}.
Fixpoint run {T} (l : list (op_ T)) (s : sampler T) : out (sampler T) :=
  match l with
  | [] => Ok s
  | HTake x :: m => let! s1 := take s x in run m s1
  | HSet w :: m => run m (fst (set_window s w))
  end.
Definition life {T} (x : sample T) (l : list (op_ T)) : out (sampler T) :=
  let! s := new_sampler x in run l s.

(** WindowBase::WindowBase: window.h lines 89-97; [conf] is the configured
    window size. *)
Definition window {T} (s : sampler T) (w conf : Z) : out (sampler T * Z) :=
  let w1 := if (0 <? w)%Z then w else conf in
  let '(s1, b) := set_window s w1 in
  if b then Ok (s1, w1) else Abort.

(** SeriesBase: series.h lines 91-248.  [dv] is InplaceDivide: lines 57-85. *)
Record series (T : Type) := { n_sec : nat; n_min : nat; n_hour : nat; n_day : nat; arr : list T; held : bool }.
Arguments n_sec {T}. Arguments n_min {T}. Arguments n_hour {T}. Arguments n_day {T}. Arguments arr {T}. Arguments held {T}.

(** Lines 93 and 154-158. *)
Definition new_series {T} (z : T) : series T :=
  {| n_sec := 0; n_min := 0; n_hour := 0; n_day := 0; arr := repeat z 174; held := false |}.

Section Series.
Context {T : Type} (z : T) (op : T -> T -> T) (dv : T -> Z -> T).

(** Lines 194-198 and the like: n values from slot b on. *)
Definition block (l : list T) (b n : nat) : T :=
  fold_left op (map (fun i => nth (b + i) l z) (seq 1 (n - 1))) (nth b l z).

(** AppendDay: lines 239-245. *)
Definition append_day (s : series T) (x : T) : series T :=
  {| n_sec := n_sec s; n_min := n_min s; n_hour := n_hour s;
     n_day := if 30 <=? S (n_day s) then 0 else S (n_day s);
     arr := lset (arr s) (144 + n_day s) x; held := held s |}.

(** AppendHour: lines 222-234. *)
Definition append_hour (s : series T) (x : T) : series T :=
  let l := lset (arr s) (120 + n_hour s) x in
  if 24 <=? S (n_hour s) then
    append_day {| n_sec := n_sec s; n_min := n_min s; n_hour := 0; n_day := n_day s; arr := l; held := held s |}
               (dv (block l 120 24) 24)
  else {| n_sec := n_sec s; n_min := n_min s; n_hour := S (n_hour s); n_day := n_day s; arr := l; held := held s |}.

(** AppendMinute: lines 206-218. *)
Definition append_minute (s : series T) (x : T) : series T :=
  let l := lset (arr s) (60 + n_min s) x in
  if 60 <=? S (n_min s) then
    append_hour {| n_sec := n_sec s; n_min := 0; n_hour := n_hour s; n_day := n_day s; arr := l; held := held s |}
                (dv (block l 60 60) 60)
  else {| n_sec := n_sec s; n_min := S (n_min s); n_hour := n_hour s; n_day := n_day s; arr := l; held := held s |}.

(** Append and AppendSecond: lines 95-98 and 190-202. *)
Definition append (s : series T) (x : T) : series T :=
  let l := lset (arr s) (n_sec s) x in
  if 60 <=? S (n_sec s) then
    append_minute {| n_sec := 0; n_min := n_min s; n_hour := n_hour s; n_day := n_day s; arr := l; held := held s |}
                  (dv (block l 0 60) 60)
  else {| n_sec := S (n_sec s); n_min := n_min s; n_hour := n_hour s; n_day := n_day s; arr := l; held := held s |}.

Definition appends (l : list T) : series T := fold_left append l (new_series z).

(** One ring of lines 108-134: newest first. *)
Definition ring (l : list T) (b n k : nat) : list T :=
  map (fun i => nth (b + (k + n - 1 - i) mod n) l z) (seq 0 n).
(** The vectors of lines 108-141: seconds, minutes, hours, days, now. *)
Definition vectors (s : series T) : list T * list T * list T * list T * T :=
  (ring (arr s) 0 60 (n_sec s), ring (arr s) 60 60 (n_min s), ring (arr s) 120 24 (n_hour s),
   ring (arr s) 144 30 (n_day s), nth ((n_sec s + 59) mod 60) (arr s) z).
End Series.

(** std::mutex::unlock() by someone who does not hold it is undefined. *)
Definition lock {T} (s : series T) : out (series T) :=
  if held s then NoFuel
  else Ok {| n_sec := n_sec s; n_min := n_min s; n_hour := n_hour s; n_day := n_day s; arr := arr s; held := true |}.
Definition unlock {T} (s : series T) : out (series T) :=
  if held s then Ok {| n_sec := n_sec s; n_min := n_min s; n_hour := n_hour s; n_day := n_day s; arr := arr s; held := false |}
  else UB.

(** GetSeries: lines 100-143, called by itself: the lock's destructor unlocks
    again. *)
Definition get_series {T} (z : T) (s : series T) : out (list T * list T * list T * list T * T * series T) :=
  let! s1 := lock s in
  let! s2 := unlock s1 in
  let v := vectors z s2 in
  let! s3 := unlock s2 in
  Ok (v, s3).

(** InplaceDivide for integers and a sum: round(obj / number), halves away from
    zero; the double is exact for the sums considered. *)
Definition round_div (x n : Z) : Z :=
  (if 0 <=? x then (2 * x + n) / (2 * n) else - ((2 * - x + n) / (2 * n)))%Z.

(** LatencyRecorder::QPS and PerSecond::GetValue are not modelled: their value is
    a quotient of doubles of the sample [get_value] gives. *)
