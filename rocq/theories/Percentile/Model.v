(** Percentiles of latencies: trpc/tvar/common/percentile.{h,cc}.

    A latency goes into one of 32 intervals; an interval keeps the number of
    latencies and at most SAMPLE_SIZE of them.  Every thread has intervals of its
    own with 30 samples; a full one is merged into a global one with 254.  Every
    second the sampler takes all of it away with Reset().  A percentile is found
    in the combination, with 1022 samples, of the seconds of a window.

    Random numbers are a list of numbers, one for each call of
    FastRandLessThan(), so that a theorem for all lists covers all draws.  A null
    interval is an interval with nothing in it; the contents of samples_ beyond
    num_samples_ are left out. *)
From Coq Require Import List ZArith Bool.
From Verif.Lib Require Import Base ListX.
Import ListNotations.
Open Scope Z_scope.
Open Scope out_scope.

Definition two32 : Z := 2 ^ 32.

(** FastRandLessThan: trpc/tvar/common/fast_rand.cc lines 86-94. *)
Definition rand (o : list Z) (range : Z) : Z * list Z :=
  match o with
  | [] => (0, [])
  | x :: o' => if range =? 0 then (0, o) else (x mod range, o')
  end.

(** RoundOfExpectation: percentile.h lines 46-51. *)
Definition round_of (o : list Z) (a b : Z) : Z * list Z :=
  if b =? 0 then (0, o)
  else let '(r, o1) := rand o b in (a / b + (if r <? a mod b then 1 else 0), o1).

(** Ones32: percentile.cc lines 28-38; unsigned 32-bit arithmetic. *)
Definition u32 (x : Z) : Z := x mod two32.
Definition ones32 (x : Z) : Z :=
  let x := u32 (x - Z.land (Z.shiftr x 1) 1431655765) in
  let x := u32 (Z.land (Z.shiftr x 2) 858993459 + Z.land x 858993459) in
  let x := Z.land (u32 (Z.shiftr x 4 + x)) 252645135 in
  let x := u32 (x + Z.shiftr x 8) in
  let x := u32 (x + Z.shiftr x 16) in
  Z.land x 63.

(** The int with the bits of x. *)
Definition int32 (x : Z) : Z := if x <? 2 ^ 31 then x else x - two32.

(** Log2: percentile.cc lines 40-50.  [-y] overflows if y is the least int. *)
Definition log2_of (x : Z) : out Z :=
  let y := int32 (Z.land x (u32 (x - 1))) in
  if y =? - 2 ^ 31 then UB
  else
    let y := Z.shiftr (Z.lor y (- y)) 31 in
    let x := Z.lor x (Z.shiftr x 1) in
    let x := Z.lor x (Z.shiftr x 2) in
    let x := Z.lor x (Z.shiftr x 4) in
    let x := Z.lor x (Z.shiftr x 8) in
    let x := Z.lor x (Z.shiftr x 16) in
    Ok (u32 (ones32 x - 1 - y)).

(** GetIntervalIndex: percentile.cc lines 52-61. *)
Definition index_of (x : Z) : out nat :=
  if x <=? 2 then Ok 0%nat
  else let! n := log2_of x in Ok (Z.to_nat (n - 1)).

(** PercentileInterval: percentile.h lines 56-186. *)
Record interval := { added : Z; sorted : bool; samples : list Z }.
Definition fresh : interval := {| added := 0; sorted := false; samples := [] |}.
Definition size (v : interval) : Z := Z.of_nat (length (samples v)).

(** std::sort. *)
Fixpoint insert (x : Z) (l : list Z) : list Z :=
  match l with
  | [] => [x]
  | y :: m => if x <=? y then x :: l else y :: insert x m
  end.
Definition sort (l : list Z) : list Z := fold_right insert [] l.

(** GetSampleAt: lines 61-75. *)
Definition sample_at (i : Z) (v : interval) : Z * interval :=
  if (size v <=? i) && (size v =? 0) then (0, v)
  else
    let i := if size v <=? i then size v - 1 else i in
    let w := if sorted v then v else {| added := added v; sorted := true; samples := sort (samples v) |} in
    (nth (Z.to_nat i) (samples w) 0, w).

(** Take sample i away; the last one takes its place. *)
Definition drop_at (i : nat) (l : list Z) : list Z := removelast (lset l i (last l 0)).

(** Lines 92-94: k samples are overwritten by the last ones. *)
Fixpoint shrink (k : nat) (l o : list Z) : list Z * list Z :=
  match k with
  | O => (l, o)
  | S k' =>
      let '(r, o1) := rand o (Z.of_nat (length l)) in
      shrink k' (drop_at (Z.to_nat r) l) o1
  end.

(** Lines 99-103: k samples are drawn. *)
Fixpoint pick (k : nat) (l o : list Z) : list Z * list Z :=
  match k with
  | O => ([], o)
  | S k' =>
      let '(r, o1) := rand o (Z.of_nat (length l)) in
      let '(m, o2) := pick k' (drop_at (Z.to_nat r) l) o1 in
      (nth (Z.to_nat r) l 0 :: m, o2)
  end.

(** Merge: lines 79-108; num_added_ is a uint32_t, num_added_ * SAMPLE_SIZE a
    size_t.  [n] is SAMPLE_SIZE. *)
Definition merge (n : Z) (v w : interval) (o : list Z) : out (interval * list Z) :=
  let sum := u32 (added v + added w) in
  if added w =? 0 then Ok (v, o)
  else if negb (size w =? added w) then Abort
  else if sum <=? n then
    if negb (size v =? added v) then Abort
    else Ok ({| added := sum; sorted := sorted v; samples := samples v ++ samples w |}, o)
  else
    let '(remain, o1) := round_of o (added v * n) sum in
    if size v <? remain then Abort
    else
      let '(l, o2) := shrink (Z.to_nat (size v - remain)) (samples v) o1 in
      if (n <? remain) || (size w <? n - remain) then Abort
      else
        let '(m, o3) := pick (Z.to_nat (n - remain)) (samples w) o2 in
        Ok ({| added := sum; sorted := sorted v; samples := l ++ m |}, o3).

(** The loop of MergeWithExpectation: lines 123-132; [l] are the samples of the
    other interval still to be drawn from. *)
Fixpoint draw (n : Z) (k : nat) (l : list Z) (s : list Z) (o : list Z) : list Z * list Z :=
  match k with
  | O => (s, o)
  | S k' =>
      let '(r, o1) := rand o (Z.of_nat (length l)) in
      let x := nth (Z.to_nat r) l 0 in
      if Z.of_nat (length s) <? n then draw n k' (drop_at (Z.to_nat r) l) (s ++ [x]) o1
      else
        let '(q, o2) := rand o1 (Z.of_nat (length s)) in
        draw n k' (drop_at (Z.to_nat r) l) (lset s (Z.to_nat q) x) o2
  end.

(** MergeWithExpectation: lines 113-133.  The order in which it leaves the
    samples of [w] is left out: its caller drops them. *)
Definition merge_some (n : Z) (v w : interval) (k : Z) (o : list Z) : out (interval * list Z) :=
  if size w <? k then Abort
  else
    let sum := u32 (added v + added w) in
    if (size v + k <=? n) && (k =? size w) then
      Ok ({| added := sum; sorted := sorted v; samples := samples v ++ samples w |}, o)
    else
      let '(s, o1) := draw n (Z.to_nat k) (samples w) (samples v) o in
      Ok ({| added := sum; sorted := sorted v; samples := s |}, o1).

(** Add32: lines 137-145. *)
Definition add32 (n : Z) (x : Z) (v : interval) : interval :=
  if n <=? size v then v
  else {| added := u32 (added v + 1); sorted := sorted v; samples := samples v ++ [x] |}.

(** PercentileSamples: lines 195-367. *)
Record group := { total : Z; ivs : list interval }.
Definition empty : group := {| total := 0; ivs := repeat fresh 32 |}.
Definition at_ (g : group) (i : nat) : interval := nth i (ivs g) fresh.

(** GetNumber: lines 246-267; [k] is ceil(ratio * num_added_). *)
Fixpoint find (k : Z) (l : list interval) : out Z :=
  match l with
  | [] => Abort
  | v :: m =>
      if k <=? added v then
        if added v =? 0 then UB
        else
          let i := k * size v / added v in
          Ok (fst (sample_at (if i =? 0 then 0 else i - 1) v))
      else find (k - added v) m
  end.
Definition get_number (k : Z) (g : group) : out Z :=
  if total g <? k then find (total g) (ivs g)
  else if k =? 0 then Ok 0
  else find k (ivs g).

(** Merge: lines 270-278. *)
Fixpoint merge_each (n : Z) (a b : list interval) (o : list Z) : out (list interval * list Z) :=
  match a, b with
  | v :: a', w :: b' =>
      let! (v1, o1) := (if size w =? 0 then Ok (v, o) else merge n v w o) in
      let! (l, o2) := merge_each n a' b' o1 in
      Ok (v1 :: l, o2)
  | _, _ => Ok (a, o)
  end.
Definition merge_group (n : Z) (a b : group) (o : list Z) : out (group * list Z) :=
  let! (l, o1) := merge_each n (ivs a) (ivs b) o in
  Ok ({| total := total a + total b; ivs := l |}, o1).

(** One interval of CombineOf: lines 299-335; [col] is this interval of all the
    groups, [t] the sum of their num_added_. *)
Fixpoint combine_at (n : Z) (t : Z) (col : list interval) (v : interval) (o : list Z) : out (interval * list Z) :=
  match col with
  | [] => Ok (v, o)
  | w :: m =>
      if size w =? 0 then combine_at n t m v o
      else if t <=? n then
        let! (v1, o1) := merge_some n v w (size w) o in
        combine_at n t m v1 o1
      else
        let '(r, o1) := round_of o (added w * n) t in
        let! (v1, o2) := merge_some n v w (Z.min r (size w)) o1 in
        combine_at n t m v1 o2
  end.
Definition column (i : nat) (gs : list group) : list interval := map (fun g => at_ g i) gs.
Definition sum_added (l : list interval) : Z := fold_right (fun v s => added v + s) 0 l.
Fixpoint combine_each (n : Z) (is : list nat) (gs : list group) (o : list Z) : out (list interval * list Z) :=
  match is with
  | [] => Ok ([], o)
  | i :: m =>
      let t := sum_added (column i gs) in
      let! (v, o1) := (if t =? 0 then Ok (fresh, o) else combine_at n t (column i gs) fresh o) in
      let! (l, o2) := combine_each n m gs o1 in
      Ok (v :: l, o2)
  end.
(** CombineOf, called on an empty group: lines 282-338. *)
Definition combine (n : Z) (gs : list group) (o : list Z) : out (group * list Z) :=
  let! (l, o1) := combine_each n (seq 0 32) gs o in
  Ok ({| total := fold_right (fun g s => total g + s) 0 gs; ivs := l |}, o1).

(** LatencyPercentile: trpc/tvar/compound_ops/latency_recorder.cc lines 134-140. *)
Definition percentile (k : Z) (gs : list group) (o : list Z) : out Z :=
  let! (g, _) := combine 1022 gs o in get_number k g.

Definition with_iv (i : nat) (v : interval) (t : Z) (g : group) : group :=
  {| total := t; ivs := lset (ivs g) i v |}.

(** * Threads

    A thread in AddLatency (percentile.cc lines 67-86) lets go of its own mutex
    to take that of the variable, and takes it again afterwards (GlobalValue:
    trpc/tvar/common/op_util.h lines 120-129). *)
Inductive ppc :=
| PIdle
| PFull (x : Z) (i : nat)    (** before write_mostly_->mutex_.lock() *)
| PMerged (x : Z) (i : nat). (** before write_buffer_->mutex_.lock() *)

(** [seen] and the like are ghosts: the latencies that were put into the group. *)
Record thread := { loc : group; seen : list Z; at_pc : ppc }.
(** Reset() is running. *)
Record taker := { acc : group; gacc : list Z; todo : list nat }.
Record st := { ths : list thread; glob : group; gglob : list Z; tak : option taker }.

(** [PNew]: a thread's first update; [PCall]: Update(x); [PNext]: the next part of
    an update; [PReset], [PVisit], [PReturn]: Reset() (write_mostly.h lines
    101-110).  [o] are the random numbers. *)
Inductive act :=
| PNew
| PCall (t : nat) (x : Z)
| PNext (t : nat) (o : list Z)
| PReset
| PVisit (o : list Z)
| PReturn.

Definition put_th (t : nat) (h : thread) (s : st) : st :=
  {| ths := lset (ths s) t h; glob := glob s; gglob := gglob s; tak := tak s |}.

Definition add_to (x : Z) (i : nat) (h : thread) : thread :=
  {| loc := with_iv i (add32 30 x (at_ (loc h) i)) (total (loc h) + 1) (loc h);
     seen := seen h ++ [x];
     at_pc := PIdle |}.

(** The latencies of interval i, for the ghosts. *)
Definition of_interval (i : nat) (x : Z) : bool :=
  match index_of x with Ok j => (j =? i)%nat | _ => false end.

(** [None]: the action is not possible now. *)
Definition step (a : act) (s : st) : option (out (st * option (group * list Z))) :=
  match a with
  | PNew =>
      match tak s with
      | Some _ => None
      | None => Some (Ok ({| ths := ths s ++ [{| loc := empty; seen := []; at_pc := PIdle |}]; glob := glob s; gglob := gglob s; tak := None |}, None))
      end
  | PCall t x =>
      match nth_error (ths s) t with
      | Some h =>
          match at_pc h with
          | PIdle => Some (
              let! i := index_of x in
              if size (at_ (loc h) i) =? 30 then
                Ok (put_th t {| loc := loc h; seen := seen h; at_pc := PFull x i |} s, None)
              else Ok (put_th t (add_to x i h) s, None))
          | _ => None
          end
      | None => None
      end
  | PNext t o =>
      match nth_error (ths s) t with
      | Some h =>
          match at_pc h with
          | PIdle => None
          | PFull x i =>
              match tak s with
              | Some _ => None
              | None => Some (
                  let v := at_ (loc h) i in
                  let! (w, _) := merge 254 (at_ (glob s) i) v o in
                  Ok ({| ths := lset (ths s) t {| loc := loc h; seen := seen h; at_pc := PMerged x i |};
                         glob := with_iv i w (total (glob s) + added v) (glob s);
                         gglob := gglob s ++ filter (of_interval i) (seen h);
                         tak := None |}, None))
              end
          | PMerged x i =>
              Some (Ok (put_th t (add_to x i
                {| loc := with_iv i fresh (total (loc h) - added (at_ (loc h) i)) (loc h);
                   seen := filter (fun y => negb (of_interval i y)) (seen h);
                   at_pc := PIdle |}) s, None))
          end
      | None => None
      end
  | PReset =>
      match tak s with
      | Some _ => None
      | None => Some (Ok ({| ths := ths s; glob := empty; gglob := [];
                             tak := Some {| acc := glob s; gacc := gglob s; todo := seq 0 (length (ths s)) |} |}, None))
      end
  | PVisit o =>
      match tak s with
      | Some r =>
          match todo r with
          | t :: m =>
              match nth_error (ths s) t with
              | Some h => Some (
                  let! (g, _) := merge_group 254 (acc r) (loc h) o in
                  Ok ({| ths := lset (ths s) t {| loc := empty; seen := []; at_pc := at_pc h |};
                         glob := glob s; gglob := gglob s;
                         tak := Some {| acc := g; gacc := gacc r ++ seen h; todo := m |} |}, None))
              | None => None
              end
          | [] => None
          end
      | None => None
      end
  | PReturn =>
      match tak s with
      | Some r =>
          match todo r with
          | [] => Some (Ok ({| ths := ths s; glob := glob s; gglob := gglob s; tak := None |}, Some (acc r, gacc r)))
          | _ => None
          end
      | None => None
      end
  end.

Definition init : st := {| ths := []; glob := empty; gglob := []; tak := None |}.

Fixpoint run (l : list act) (s : st) : option (out (st * list (group * list Z))) :=
  match l with
  | [] => Some (Ok (s, []))
  | a :: m =>
      match step a s with
      | None => None
      | Some (Ok (s1, x)) =>
          match run m s1 with
          | Some (Ok (s2, rs)) => Some (Ok (s2, match x with Some g => g :: rs | None => rs end))
          | y => y
          end
      | Some UB => Some UB
      | Some Abort => Some Abort
      | Some NoFuel => Some NoFuel
      end
  end.
