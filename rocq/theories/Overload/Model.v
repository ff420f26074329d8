(** Model of the rate limiters of trpc/overload_control: token bucket, seconds limiter, hit queue
    and smooth limiter (paths below are relative to that directory).

    Simplifications:
    - reporting (is_report_) and logging are left out;
    - the clock is an argument of every call;
    - counters are unbounded integers (they would need 2^63 requests to overflow). *)
From Verif.Lib Require Import Base ListX.
Local Open Scope Z_scope.
Local Open Scope out_scope.

(* ------------------------------------------------------------------------- *)
(** * Token bucket, token_bucket_limiter/token_bucket_overload_controller.cc *)

(** one_token_elapsed_, burst_elapsed_, last_alloc_time_, all uint64_t. *)
Record bucket := mk_tb { tb_one : Z; tb_burst_el : Z; tb_last : Z }.

Definition u64 (z : Z) : Z := z mod 2 ^ 64.

(** The constructor, lines 31-35 (nsecs_per_sec_ and min_rate_ from the header, lines 85-88),
    followed by Init at time [now], lines 37-40. *)
Definition tb_init (burst rate now : Z) : bucket :=
  let r := Z.max rate 1 in
  let one := 1000000000 / r in
  mk_tb one (u64 (burst * one)) now.

(** BeforeSchedule, lines 42-57, with the mutex held; true = admitted. *)
Definition tb_before (b : bucket) (now : Z) : bucket * bool :=
  if u64 (now - tb_one b) <? tb_last b then (b, false)
  else if tb_last b <? u64 (now - tb_burst_el b)
  then (mk_tb (tb_one b) (tb_burst_el b) (u64 (u64 (now - tb_burst_el b) + tb_one b)), true)
  else (mk_tb (tb_one b) (tb_burst_el b) (u64 (tb_last b + tb_one b)), true).

(** Successive calls at the given times: the mutex serialises callers, and the clock is read
    under it. *)
Fixpoint tb_run (b : bucket) (times : list Z) : bucket * list bool :=
  match times with
  | [] => (b, [])
  | t :: r => let '(b1, a) := tb_before b t in
              let '(b2, l) := tb_run b1 r in (b2, a :: l)
  end.

(* ------------------------------------------------------------------------- *)
(** * Seconds limiter, flow_control/seconds_limiter.cc *)

(** SecondsCounter, seconds_limiter.h:53-56: (counter, access_timestamp). *)
Definition seconds := list (Z * Z).

(** The constructor, lines 26-35. *)
Definition sl_init (window : Z) : seconds :=
  repeat (0, 0) (Z.to_nat (if window <=? 0 then 10 else window)).

(** CheckLimit, lines 37-66, by a caller nobody overlaps with; [now] in seconds; true =
    rejected. *)
Definition sl_check (limit : Z) (st : seconds) (now : Z) : seconds * bool :=
  let k := Z.to_nat (now mod Z.of_nat (length st)) in
  let '(c, ts) := nth k st (0, 0) in
  let '(c1, ts1) := if negb (ts =? now) then (0, now) else (c, ts) in
  (lset st k (c1 + 1, ts1), limit <? c1 + 1).

Fixpoint sl_run (limit : Z) (st : seconds) (times : list Z) : seconds * list bool :=
  match times with
  | [] => (st, [])
  | t :: r => let '(s1, a) := sl_check limit st t in
              let '(s2, l) := sl_run limit s1 r in (s2, a :: l)
  end.

(** GetCurrCounter, lines 68-76. *)
Definition sl_current (st : seconds) (now : Z) : Z :=
  let '(c, ts) := nth (Z.to_nat (now mod Z.of_nat (length st))) st (0, 0) in
  if negb (ts =? now) then 0 else c.

(** Overlapping callers of one bucket: program points of CheckLimit, one atomic access each.
    The argument is the second the caller read from the clock. *)
Inductive sl_pc :=
| LIdle
| LLoad (s : Z)      (* line 41: load access_timestamp *)
| LLock (s : Z)      (* line 45: acquire mutex_ *)
| LReload (s : Z)    (* line 46 *)
| LReset (s : Z)     (* line 48: counter.fetch_and(0) *)
| LStamp (s : Z)     (* line 49: store access_timestamp *)
| LUnlock (s : Z)    (* line 51 *)
| LAdd (s : Z).      (* line 52: counter.fetch_add(1) *)

(** The bucket, the mutex, the callers; [sm_log]: the completed calls (second, rejected), latest
    first; [sm_now]: the latest clock reading. *)
Record sl_mach := mk_slm {
  sm_count : Z; sm_stamp : Z; sm_lock : option nat; sm_thr : nat -> sl_pc;
  sm_log : list (Z * bool); sm_now : Z }.

Definition sl_start : sl_mach := mk_slm 0 0 None (fun _ => LIdle) [] 0.

(** One step of caller [t] inside CheckLimit; [None]: it cannot move. *)
Definition sl_move (limit : Z) (m : sl_mach) (t : nat) : option sl_mach :=
  let go pc := fset (sm_thr m) t pc in
  match sm_thr m t with
  | LIdle => None
  | LLoad s => Some (mk_slm (sm_count m) (sm_stamp m) (sm_lock m)
                       (go (if sm_stamp m =? s then LAdd s else LLock s)) (sm_log m) (sm_now m))
  | LLock s => match sm_lock m with
               | None => Some (mk_slm (sm_count m) (sm_stamp m) (Some t) (go (LReload s)) (sm_log m) (sm_now m))
               | Some _ => None
               end
  | LReload s => Some (mk_slm (sm_count m) (sm_stamp m) (sm_lock m)
                         (go (if sm_stamp m =? s then LUnlock s else LReset s)) (sm_log m) (sm_now m))
  | LReset s => Some (mk_slm 0 (sm_stamp m) (sm_lock m) (go (LStamp s)) (sm_log m) (sm_now m))
  | LStamp s => Some (mk_slm (sm_count m) s (sm_lock m) (go (LUnlock s)) (sm_log m) (sm_now m))
  | LUnlock s => Some (mk_slm (sm_count m) (sm_stamp m) None (go (LAdd s)) (sm_log m) (sm_now m))
  | LAdd s => Some (mk_slm (sm_count m + 1) (sm_stamp m) (sm_lock m) (go LIdle)
                      ((s, limit <? sm_count m + 1) :: sm_log m) (sm_now m))
  end.

(** A caller reads the clock (second [s]) and enters. *)
Definition sl_enter (m : sl_mach) (t : nat) (s : Z) : sl_mach :=
  mk_slm (sm_count m) (sm_stamp m) (sm_lock m) (fset (sm_thr m) t (LLoad s)) (sm_log m) s.

(** Executions in which the clock does not go back, and no caller is still inside when the clock
    has moved on to another second of the same bucket (that is, no caller stalls for a whole
    window of seconds). *)
Inductive sl_reach (limit : Z) : sl_mach -> Prop :=
| slr_init : sl_reach limit sl_start
| slr_enter m t s :
    sl_reach limit m -> sm_thr m t = LIdle -> sm_now m <= s ->
    (s = sm_now m \/ forall u, sm_thr m u = LIdle) ->
    sl_reach limit (sl_enter m t s)
| slr_move m t m' : sl_reach limit m -> sl_move limit m t = Some m' -> sl_reach limit m'.

(** Any schedule: [inl (t, s)] enters, [inr t] moves. *)
Fixpoint sl_sched (limit : Z) (m : sl_mach) (l : list (nat * Z + nat)) : option sl_mach :=
  match l with
  | [] => Some m
  | inl (t, s) :: r => sl_sched limit (sl_enter m t s) r
  | inr t :: r => match sl_move limit m t with Some m' => sl_sched limit m' r | None => None end
  end.

(* ------------------------------------------------------------------------- *)
(** * Hit queue, flow_control/hit_queue.{h,cc} *)

(** frame_hits_ and window_begin_. *)
Record hitq := mk_hq { hq_frames : list Z; hq_begin : nat }.

(** HitQueue(num_fps), hit_queue.cc:22-26. *)
Definition hq_new (w : nat) : hitq := mk_hq (repeat 0 (w + 1)) 0.

(** WindowSize, NextIndex, hit_queue.h:52-55; end position, hit_queue.cc:32, 49. *)
Definition hq_window (q : hitq) : nat := length (hq_frames q) - 1.
Definition hq_next_index (q : hitq) (i : nat) : nat := (i + 1) mod length (hq_frames q).
Definition hq_end (q : hitq) (begin : nat) : nat := (begin + hq_window q) mod length (hq_frames q).
Definition hq_current (q : hitq) (begin : nat) : nat := (begin + hq_window q - 1) mod length (hq_frames q).

(** NextFrame, hit_queue.cc:30-37. *)
Definition hq_clear (q : hitq) : hitq := mk_hq (lset (hq_frames q) (hq_end q (hq_begin q)) 0) (hq_begin q).
Definition hq_next_frame (q : hitq) : hitq :=
  let q1 := hq_clear q in mk_hq (hq_frames q1) (hq_next_index q (hq_begin q)).

(** The loop of ActiveSum, hit_queue.cc:50-54; it leaves at [en]. *)
Fixpoint hq_sum_loop (fuel : nat) (q : hitq) (i en : nat) (acc : Z) : out Z :=
  match fuel with
  | O => NoFuel
  | S f => if (i =? en)%nat then Ok acc
           else hq_sum_loop f q (hq_next_index q i) en (acc + nth i (hq_frames q) 0)
  end.
Definition hq_sum (q : hitq) : out Z :=
  hq_sum_loop (S (length (hq_frames q))) q (hq_begin q) (hq_end q (hq_begin q)) 0.

(** AddHit, hit_queue.cc:39-45. *)
Definition hq_hit (q : hitq) (k : nat) : hitq :=
  mk_hq (lset (hq_frames q) k (nth k (hq_frames q) 0 + 1)) (hq_begin q).
Definition hq_add (q : hitq) : out (hitq * Z) :=
  let q1 := hq_hit q (hq_current q (hq_begin q)) in
  let! s := hq_sum q1 in Ok (q1, s).

(** * Smooth limiter, flow_control/smooth_limiter.cc *)

(** CheckLimit, lines 39-64, by a caller nobody overlaps with; true = rejected. *)
Definition sm_check (limit : Z) (q : hitq) : out (hitq * bool) :=
  let! s := hq_sum q in
  if limit <=? s then Ok (q, true)
  else let! (q1, h) := hq_add q in
       if limit <? h then Ok (q1, true) else Ok (q1, false).

(** A history of ticks (true: OnNextFrame, smooth_limiter.cc:68) and requests (false). *)
Fixpoint smooth_run (limit : Z) (q : hitq) (evs : list bool) : out (list bool) :=
  match evs with
  | [] => Ok []
  | true :: r => smooth_run limit (hq_next_frame q) r
  | false :: r => bind (sm_check limit q) (fun '(q1, b) =>
                  bind (smooth_run limit q1 r) (fun l => Ok (b :: l)))
  end.

(** Overlapping callers: program points of CheckLimit, one atomic access each.  [ticket] is the
    value the caller's fetch_add produced (a ghost: the code drops it). *)
Inductive sm_pc :=
| MIdle
| MSum1 (i en : nat) (acc : Z)                  (* first ActiveSum: about to test i != end *)
| MBegin                                        (* AddHit: load window_begin_ *)
| MAdd (k : nat)                                (* AddHit: fetch_add on frame k *)
| MBegin2 (k : nat) (ticket : Z)                (* ActiveSum after AddHit: load window_begin_ *)
| MSum2 (i en : nat) (acc : Z) (k : nat) (ticket : Z).

(** Result of one step of a caller: new queue, new point, and the verdict when it returns. *)
Definition sm_move (limit : Z) (q : hitq) (pc : sm_pc) : hitq * sm_pc * option bool :=
  match pc with
  | MIdle => (q, MSum1 (hq_begin q) (hq_end q (hq_begin q)) 0, None)
  | MSum1 i en acc =>
      if (i =? en)%nat
      then if limit <=? acc then (q, MIdle, Some true) else (q, MBegin, None)
      else (q, MSum1 (hq_next_index q i) en (acc + nth i (hq_frames q) 0), None)
  | MBegin => (q, MAdd (hq_current q (hq_begin q)), None)
  | MAdd k => (hq_hit q k, MBegin2 k (nth k (hq_frames q) 0 + 1), None)
  | MBegin2 k n => (q, MSum2 (hq_begin q) (hq_end q (hq_begin q)) 0 k n, None)
  | MSum2 i en acc k n =>
      if (i =? en)%nat then (q, MIdle, Some (limit <? acc))
      else (q, MSum2 (hq_next_index q i) en (acc + nth i (hq_frames q) 0) k n, None)
  end.

(** The queue, the callers, and the number of admitted requests per frame (latest first). *)
Record sm_mach := mk_smm { mm_q : hitq; mm_thr : nat -> sm_pc; mm_log : list Z }.

Definition sm_bump (log : list Z) (r : option bool) : list Z :=
  match r, log with
  | Some false, a :: l => a + 1 :: l
  | _, _ => log
  end.

Definition sm_step (limit : Z) (m : sm_mach) (t : nat) : sm_mach :=
  let '(q, pc, r) := sm_move limit (mm_q m) (mm_thr m t) in
  mk_smm q (fset (mm_thr m) t pc) (sm_bump (mm_log m) r).

(** The timer's OnNextFrame. *)
Definition sm_tick (m : sm_mach) : sm_mach := mk_smm (hq_next_frame (mm_q m)) (mm_thr m) (0 :: mm_log m).

(** Executions in which callers overlap arbitrarily but none is inside at a tick. *)
Inductive sm_reach (limit : Z) (w : nat) : sm_mach -> Prop :=
| smr_init : sm_reach limit w (mk_smm (hq_new w) (fun _ => MIdle) [0])
| smr_step m t : sm_reach limit w m -> sm_reach limit w (sm_step limit m t)
| smr_tick m : sm_reach limit w m -> (forall t, mm_thr m t = MIdle) -> sm_reach limit w (sm_tick m).

(** Any schedule: [Some t] = caller t moves, [None] = tick. *)
Definition sm_sched (limit : Z) (m : sm_mach) (l : list (option nat)) : sm_mach :=
  fold_left (fun m o => match o with Some t => sm_step limit m t | None => sm_tick m end) l m.
