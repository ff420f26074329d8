(** Model of the fibers' run queue, trpc/runtime/threadmodel/fiber/detail/scheduling/v1/run_queue.{h,cc}, as an interleaving of any
    number of threads, one atomic access per step.

    Simplified: sequentially consistent memory; positions are numbers without bound (they are size_t, so this
    holds for the first 2^63 pushes); the first attempt that Push and Pop make inline is an attempt of PushSlow and PopSlow. *)
From Verif.Lib Require Import Base ListX.
From Verif.Queue Require Import ModelMpmc.
Local Open Scope Z_scope.

(** Init, run_queue.cc:22-28: the capacity. *)
Definition run_capacity (fuel : nat) (capacity : Z) : out Z :=
  if Z.land capacity ((capacity - 1) mod 2 ^ 64) =? 0 then Ok capacity else round_up fuel capacity.

Section RunQueue.
Context {V : Type}.
Variable cap : Z.

(** Where a thread is.  PushSlow, run_queue.cc:89-130; BatchPush, 40-79; PopIf, 146-170 ([steal]: for Steal, 81-83). *)
Inductive rpc :=
| RIdle
| PLoad (e : V) (f : bool)                       (* load head_seq_ *)
| PSeq (e : V) (f : bool) (head : Z)             (* load the sequence *)
| PCas (e : V) (f : bool) (head : Z)
| BLoad (l : list V) (f : bool)                  (* load head_seq_ *)
| BSeq (l : list V) (f : bool) (head : Z)        (* load the sequence behind the range *)
| BTest (l : list V) (f : bool) (head : Z) (i : nat)   (* load the i-th sequence *)
| BCas (l : list V) (f : bool) (head : Z)
| WCheck (l : list V) (f : bool) (pos : Z)       (* TRPC_CHECK_EQ; [l] is what is still to be written, from [pos] on *)
| WData (l : list V) (f : bool) (pos : Z)        (* n.fiber = ... *)
| WFlag (l : list V) (f : bool) (pos : Z)        (* n.instealable.store *)
| WPub (l : list V) (f : bool) (pos : Z)         (* n.seq.store *)
| QLoad (steal : bool)                           (* load tail_seq_ *)
| QSeq (steal : bool) (tail : Z)                 (* load the sequence *)
| QTest (tail : Z)                               (* load instealable *)
| QCas (steal : bool) (tail : Z)
| QRead (steal : bool) (tail : Z)
| QPub (steal : bool) (tail : Z) (x : option V).

(** [r_acc] and [r_out] are bookkeeping: the fibers, with instealable, in the order in which head_seq_ was advanced for them; what
    was returned, with the position and whether it was stolen. *)
Record runq := { r_head : Z; r_tail : Z; r_seq : Z -> Z; r_data : Z -> option V; r_flag : Z -> bool; r_thr : list rpc;
  r_abort : bool; r_acc : list (V * bool); r_out : list (Z * bool * option V) }.
(** Init, 30-37. *)
Definition rinit (n : nat) : runq :=
  {| r_head := 0; r_tail := 0; r_seq := fun i => i; r_data := fun _ => None; r_flag := fun _ => false; r_thr := repeat RIdle n;
     r_abort := false; r_acc := []; r_out := [] |}.

Definition rslot (pos : Z) : Z := Z.land pos (cap - 1).
Definition moves (i : nat) (p : rpc) (s : runq) : runq :=
  {| r_head := r_head s; r_tail := r_tail s; r_seq := r_seq s; r_data := r_data s; r_flag := r_flag s; r_thr := lset (r_thr s) i p;
     r_abort := r_abort s; r_acc := r_acc s; r_out := r_out s |}.
Definition len {A} (l : list A) : Z := Z.of_nat (length l).

Inductive rstep : runq -> runq -> Prop :=
| r_push i e f s : nth_error (r_thr s) i = Some RIdle -> rstep s (moves i (PLoad e f) s)
| r_pload i e f s : nth_error (r_thr s) i = Some (PLoad e f) -> rstep s (moves i (PSeq e f (r_head s)) s)
| (* 94, 102 (returns false), 126 *)
  r_pseq i e f h s : nth_error (r_thr s) i = Some (PSeq e f h) ->
    let nseq := r_seq s (rslot h) in
    rstep s (moves i (if nseq =? h then PCas e f h else if nseq + cap =? h + 1 then RIdle else PLoad e f) s)
| r_pcas i e f h s : nth_error (r_thr s) i = Some (PCas e f h) -> r_head s = h ->
    rstep s {| r_head := h + 1; r_tail := r_tail s; r_seq := r_seq s; r_data := r_data s; r_flag := r_flag s;
               r_thr := lset (r_thr s) i (WData [e] f h); r_abort := r_abort s; r_acc := r_acc s ++ [(e, f)]; r_out := r_out s |}
| (* compare_exchange_weak may fail *)
  r_pfail i e f h s : nth_error (r_thr s) i = Some (PCas e f h) -> rstep s (moves i (PLoad e f) s)
| r_batch i l f s : nth_error (r_thr s) i = Some RIdle -> rstep s (moves i (BLoad l f) s)
| r_bload i l f s : nth_error (r_thr s) i = Some (BLoad l f) -> rstep s (moves i (BSeq l f (r_head s)) s)
| (* 48, 73 (returns false), 75 *)
  r_bseq i l f h s : nth_error (r_thr s) i = Some (BSeq l f h) ->
    let head := h + len l in
    let hseq := r_seq s (rslot head) in
    rstep s (moves i (if hseq =? head then BTest l f h 0 else if hseq + cap =? head + 1 then RIdle else BLoad l f) s)
| (* 50-59: returns false, or goes on *)
  r_btest i l f h j s : nth_error (r_thr s) i = Some (BTest l f h j) -> (j < length l)%nat ->
    let p := h + Z.of_nat j in
    let seq := r_seq s (rslot p) in
    rstep s (moves i (if negb (seq =? p) && (seq + cap =? p + 1) then RIdle else BTest l f h (S j)) s)
| r_btested i l f h s : nth_error (r_thr s) i = Some (BTest l f h (length l)) -> rstep s (moves i (BCas l f h) s)
| r_bcas i l f h s : nth_error (r_thr s) i = Some (BCas l f h) -> r_head s = h ->
    rstep s {| r_head := h + len l; r_tail := r_tail s; r_seq := r_seq s; r_data := r_data s; r_flag := r_flag s;
               r_thr := lset (r_thr s) i (match l with [] => RIdle | _ => WCheck l f h end); r_abort := r_abort s;
               r_acc := r_acc s ++ map (fun e => (e, f)) l; r_out := r_out s |}
| r_bfail i l f h s : nth_error (r_thr s) i = Some (BCas l f h) -> rstep s (moves i (BLoad l f) s)
| (* 66 *)
  r_check i l f p s : nth_error (r_thr s) i = Some (WCheck l f p) ->
    rstep s {| r_head := r_head s; r_tail := r_tail s; r_seq := r_seq s; r_data := r_data s; r_flag := r_flag s;
               r_thr := lset (r_thr s) i (WData l f p); r_abort := r_abort s || negb (r_seq s (rslot p) =? p);
               r_acc := r_acc s; r_out := r_out s |}
| r_wdata i e l f p s : nth_error (r_thr s) i = Some (WData (e :: l) f p) ->
    rstep s {| r_head := r_head s; r_tail := r_tail s; r_seq := r_seq s; r_data := zset (r_data s) (rslot p) (Some e); r_flag := r_flag s;
               r_thr := lset (r_thr s) i (WFlag (e :: l) f p); r_abort := r_abort s; r_acc := r_acc s; r_out := r_out s |}
| r_wflag i l f p s : nth_error (r_thr s) i = Some (WFlag l f p) ->
    rstep s {| r_head := r_head s; r_tail := r_tail s; r_seq := r_seq s; r_data := r_data s; r_flag := zset (r_flag s) (rslot p) f;
               r_thr := lset (r_thr s) i (WPub l f p); r_abort := r_abort s; r_acc := r_acc s; r_out := r_out s |}
| r_wpub i e l f p s : nth_error (r_thr s) i = Some (WPub (e :: l) f p) ->
    rstep s {| r_head := r_head s; r_tail := r_tail s; r_seq := zset (r_seq s) (rslot p) (p + 1); r_data := r_data s; r_flag := r_flag s;
               r_thr := lset (r_thr s) i (match l with [] => RIdle | _ => WCheck l f (p + 1) end);
               r_abort := r_abort s; r_acc := r_acc s; r_out := r_out s |}
| r_pop i st s : nth_error (r_thr s) i = Some RIdle -> rstep s (moves i (QLoad st) s)
| r_qload i st s : nth_error (r_thr s) i = Some (QLoad st) -> rstep s (moves i (QSeq st (r_tail s)) s)
| (* 152, 163-165 (returns nullptr), 166 *)
  r_qseq i st t s : nth_error (r_thr s) i = Some (QSeq st t) ->
    let nseq := r_seq s (rslot t) in
    rstep s (moves i (if nseq =? t + 1 then (if st then QTest t else QCas st t)
                      else if (nseq =? t) || (nseq + cap =? t) then RIdle else QLoad st) s)
| (* 154: returns nullptr *)
  r_qtest i t s : nth_error (r_thr s) i = Some (QTest t) ->
    rstep s (moves i (if r_flag s (rslot t) then RIdle else QCas true t) s)
| r_qcas i st t s : nth_error (r_thr s) i = Some (QCas st t) -> r_tail s = t ->
    rstep s {| r_head := r_head s; r_tail := t + 1; r_seq := r_seq s; r_data := r_data s; r_flag := r_flag s;
               r_thr := lset (r_thr s) i (QRead st t); r_abort := r_abort s; r_acc := r_acc s; r_out := r_out s |}
| r_qfail i st t s : nth_error (r_thr s) i = Some (QCas st t) -> rstep s (moves i (QLoad st) s)
| r_qread i st t s : nth_error (r_thr s) i = Some (QRead st t) -> rstep s (moves i (QPub st t (r_data s (rslot t))) s)
| r_qpub i st t x s : nth_error (r_thr s) i = Some (QPub st t x) ->
    rstep s {| r_head := r_head s; r_tail := r_tail s; r_seq := zset (r_seq s) (rslot t) (t + cap); r_data := r_data s; r_flag := r_flag s;
               r_thr := lset (r_thr s) i RIdle; r_abort := r_abort s; r_acc := r_acc s; r_out := r_out s ++ [(t, st, x)] |}.
Inductive rreach (n : nat) : runq -> Prop :=
| rr_init : rreach n (rinit n)
| rr_step s s' : rreach n s -> rstep s s' -> rreach n s'.

(** UnsafeEmpty and UnsafeSize, 132-144, on what they load. *)
Definition run_empty (head tail : Z) : bool := head <=? tail.
Definition run_size (head tail : Z) : Z := let size := (head - tail) mod 2 ^ 64 in if cap <=? size then 0 else size.
End RunQueue.
Arguments rpc : clear implicits.
Arguments runq : clear implicits.
