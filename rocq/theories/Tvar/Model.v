(** Write-mostly variables (trpc/tvar/common/write_mostly.h) and what is built on
    them: Counter and Gauge (trpc/tvar/basic_ops/reducer.h), Maxer, Miner and
    IntRecorder (trpc/tvar/basic_ops/recorder.h).

    Every thread adds to a word of its own.  Reset() and GetValue() go through
    the words of all threads and merge them.  A thread's word is merged into
    exited_thread_combined_ when the thread exits.

    Steps of different threads are interleaved; each access to an atomic is one
    step.  The sections under WriteMostly::mutex_ in which no other thread can
    have a part (CommitAndClear() and the destructor of a wrapper) are one step.
    Not modelled: relaxed memory order, spurious failures of
    compare_exchange_weak (they only repeat the loop), and destroying the
    variable itself. *)
From Coq Require Import List ZArith Bool.
Import ListNotations.
Open Scope Z_scope.

Definition two64 : Z := 2 ^ 64.

(** A 64-bit word read as std::int64_t, and the word of such a number. *)
Definition to_signed (w : Z) : Z := if w <? 2 ^ 63 then w else w - two64.
Definition to_word (x : Z) : Z := x mod two64.

(** What distinguishes the variables.  [cas]: AtomicType::Modify() or Update()
    uses compare_exchange_weak, otherwise a load and a store
    (trpc/tvar/common/atomic_type.h lines 97-114).  [plan n v]: what Update(v)
    does after it has read n; None is CommitAndClear(). *)
Record kind (R : Type) := {
  cas : bool;
  b_id : Z;
  r_id : R;
  merge : R -> Z -> R;
  plan : Z -> Z -> option Z }.
Arguments cas {R} _.
Arguments b_id {R} _.
Arguments r_id {R} _.
Arguments merge {R} _ _ _.
Arguments plan {R} _ _ _.

(** Counter<uint64_t> with its initial value: trpc/tvar/basic_ops/reducer.h lines
    59-96, OpAdd: trpc/tvar/common/op_util.h lines 65-68; arithmetic modulo 2^64. *)
Definition counter (init : Z) : kind Z :=
  {| cas := false;
     b_id := init;
     r_id := init;
     merge := fun r b => (r + b) mod two64;
     plan := fun n v => Some ((n + v) mod two64) |}.

(** Maxer<uint32_t>, Maxer<uint64_t> and so on: reducer.h lines 181-211, OpMax:
    op_util.h lines 90-97. *)
Definition op_max (a b : Z) : Z := if a <? b then b else a.
Definition maxer (init : Z) : kind Z :=
  {| cas := true;
     b_id := init;
     r_id := init;
     merge := op_max;
     plan := fun n v => Some (op_max n v) |}.

(** Miner: reducer.h lines 148-178, OpMin: op_util.h lines 79-86. *)
Definition op_min (a b : Z) : Z := if b <? a then b else a.
Definition miner (init : Z) : kind Z :=
  {| cas := true;
     b_id := init;
     r_id := init;
     merge := op_min;
     plan := fun n v => Some (op_min n v) |}.

(** CompressedIntAvg: recorder.h lines 86-130.  A word holds the number of values
    in 20 bits and their sum in 44 bits. *)
Definition sum_bits : Z := 44.
Definition max_sum : Z := 2 ^ sum_bits - 1.
Definition max_num : Z := 2 ^ (64 - sum_bits) - 1.

(** GetSum, GetNum, Compress: lines 96-106. *)
Definition get_sum (n : Z) : Z := Z.land n max_sum.
Definition get_num (n : Z) : Z := Z.shiftr n sum_bits.
Definition compress (num sum : Z) : Z :=
  Z.lor (to_word (Z.shiftl num sum_bits)) (Z.land (to_word sum) max_sum).

(** WillOverflow: lines 108-118. *)
Definition will_overflow (lhs rhs : Z) : bool :=
  ((0 <? lhs) && (0 <? rhs) && (Z.shiftr max_sum 1 <? lhs + rhs))
  || ((lhs <? 0) && (rhs <? 0) && (lhs + rhs <? - Z.shiftr max_sum 1 - 1)).

(** ExtendSignBit: lines 123-126. *)
Definition extend_sign (sum : Z) : Z :=
  to_signed (Z.lor (to_word ((2 ^ (64 - sum_bits + 1) - 1) * Z.land (2 ^ (sum_bits - 1)) sum)) sum).

(** GetComplement: line 129. *)
Definition complement (v : Z) : Z := Z.land (to_word v) max_sum.

(** The value Update() records: lines 142-153. *)
Definition clamp (v : Z) : Z :=
  if 2 ^ 31 - 1 <? v then 2 ^ 31 - 1 else if v <? - 2 ^ 31 then - 2 ^ 31 else v.

(** IntRecorder: Update lines 142-175, MergeIntBuffer lines 132-138; the sum and
    number of an AvgBuffer are not bounded here. *)
Definition recorder : kind (Z * Z) :=
  {| cas := true;
     b_id := 0;
     r_id := (0, 0);
     merge := fun r b => (fst r + extend_sign (get_sum b), snd r + get_num b);
     plan := fun n v =>
       let num := get_num n in
       let sum := get_sum n in
       if (max_num <? num + 1) || will_overflow (extend_sign sum) (clamp v) then None
       else Some (compress (num + 1) (sum + complement (clamp v))) |}.

(** Where a thread is in Update(): not in it, before the load, having read n,
    before CommitAndClear(). *)
Inductive upc :=
| Idle
| Start (v : Z)
| Loaded (v n : Z)
| Commit (v : Z).

(** A thread is listed in ObjectArrayRegistry, has been removed from it but its
    wrapper is not destroyed yet, or its wrapper is destroyed
    (trpc/util/thread/internal/object_array.h lines 158-195). *)
Inductive life := Listed | Leaving | Gone.

(** A thread's wrapper; [held] is a ghost: the values recorded in the word. *)
Record tls := { buf : Z; pc : upc; alive : life; held : list Z }.

(** A call of Reset() or GetValue() that holds mutex_: what it has merged (and, as
    a ghost, which values these are), and the threads it has still to visit once
    it is inside ForEach(). *)
Record reader (R : Type) := { resets : bool; acc : R; gacc : list Z; todo : option (list nat) }.
Arguments resets {R} _.
Arguments acc {R} _.
Arguments gacc {R} _.
Arguments todo {R} _.

(** The variable.  Ghosts: [chel] the values in exited_thread_combined_, [fin] the
    values whose Update() has returned. *)
Record st (R : Type) := {
  ths : list tls;
  comb : R;
  chel : list Z;
  rdr : option (reader R);
  fin : list Z }.
Arguments ths {R} _.
Arguments comb {R} _.
Arguments chel {R} _.
Arguments rdr {R} _.
Arguments fin {R} _.

Definition with_ths {R} (l : list tls) (s : st R) : st R :=
  {| ths := l; comb := comb s; chel := chel s; rdr := rdr s; fin := fin s |}.
Definition with_fin {R} (f : list Z) (s : st R) : st R :=
  {| ths := ths s; comb := comb s; chel := chel s; rdr := rdr s; fin := f |}.
Definition with_comb {R} (c : R) (g : list Z) (s : st R) : st R :=
  {| ths := ths s; comb := c; chel := g; rdr := rdr s; fin := fin s |}.
Definition with_rdr {R} (r : option (reader R)) (s : st R) : st R :=
  {| ths := ths s; comb := comb s; chel := chel s; rdr := r; fin := fin s |}.

Fixpoint put {A} (i : nat) (x : A) (l : list A) : list A :=
  match l, i with
  | [], _ => []
  | _ :: m, O => x :: m
  | y :: m, S j => y :: put j x m
  end.

(** Thread i becomes t. *)
Definition with_th {R} (i : nat) (t : tls) (s : st R) : st R := with_ths (put i t (ths s)) s.

Definition goto (p : upc) (t : tls) : tls := {| buf := buf t; pc := p; alive := alive t; held := held t |}.
Definition become (a : life) (t : tls) : tls := {| buf := buf t; pc := pc t; alive := a; held := held t |}.
Definition hold (b : Z) (g : list Z) (t : tls) : tls := {| buf := b; pc := pc t; alive := alive t; held := g |}.

Definition listed (t : tls) : bool := match alive t with Listed => true | _ => false end.

(** The threads ForEach() visits: object_array.h lines 171-190. *)
Definition indices (l : list tls) : list nat :=
  filter (fun i => match nth_error l i with Some t => listed t | None => false end) (seq 0 (length l)).

(** ForEach() is running; MakeTlp() and Deregister() wait for it: thread_local.h
    lines 120-141, object_array.h lines 164-190. *)
Definition visiting {R} (s : st R) : bool :=
  match rdr s with Some r => match todo r with Some _ => true | None => false end | None => false end.

(** Actions: a thread's first use of the variable, a call of Update(), the next
    access of the Update() of thread i, its exit and the destruction of its
    wrapper, and the begin, the begin of ForEach(), a visit and the return of
    Reset() or GetValue(). *)
Inductive act :=
| ANew
| ACall (i : nat) (v : Z)
| AStep (i : nat)
| AExit (i : nat)
| ADestroy (i : nat)
| ABegin (reset : bool)
| AEnter
| AVisit
| AReturn.

(** What a call of Reset() (true) or GetValue() (false) returned, with the values
    that went into it. *)
Record ret (R : Type) := { was_reset : bool; value : R; values : list Z }.
Arguments was_reset {R} _.
Arguments value {R} _.
Arguments values {R} _.

(** The next access of Update(): atomic_type.h lines 97-114, recorder.h lines
    155-175, CommitAndClear: write_mostly.h lines 130-135 (after it n is 0). *)
Definition update {R} (k : kind R) (i : nat) (t : tls) (s : st R) : option (st R) :=
  match pc t with
  | Idle => None
  | Start v => Some (with_th i (goto (Loaded v (buf t)) t) s)
  | Loaded v n =>
      match plan k n v with
      | None => Some (with_th i (goto (Commit v) t) s)
      | Some n' =>
          if negb (cas k) || (buf t =? n) then
            Some (with_fin (fin s ++ [v]) (with_th i (hold n' (held t ++ [v]) (goto Idle t)) s))
          else Some (with_th i (goto (Loaded v (buf t)) t) s)
      end
  | Commit v =>
      match rdr s with
      | Some _ => None
      | None => Some (with_comb (merge k (comb s) (buf t)) (chel s ++ held t)
                        (with_th i (hold (b_id k) [] (goto (Loaded v 0) t)) s))
      end
  end.

Definition step {R} (k : kind R) (a : act) (s : st R) : option (st R * option (ret R)) :=
  match a with
  | ANew =>
      if visiting s then None
      else Some (with_ths (ths s ++ [{| buf := b_id k; pc := Idle; alive := Listed; held := [] |}]) s, None)
  | ACall i v =>
      match nth_error (ths s) i with
      | Some t => match pc t, alive t with
                  | Idle, Listed => Some (with_th i (goto (Start v) t) s, None)
                  | _, _ => None
                  end
      | None => None
      end
  | AStep i =>
      match nth_error (ths s) i with
      | Some t => match update k i t s with Some s' => Some (s', None) | None => None end
      | None => None
      end
  | AExit i =>
      match nth_error (ths s) i with
      | Some t => match pc t, alive t with
                  | Idle, Listed => if visiting s then None else Some (with_th i (become Leaving t) s, None)
                  | _, _ => None
                  end
      | None => None
      end
  | ADestroy i =>
      (* ~WriteBufferWrapper: write_mostly.h lines 138-141 *)
      match nth_error (ths s) i with
      | Some t =>
          match alive t, rdr s with
          | Leaving, None =>
              Some (with_comb (merge k (comb s) (buf t)) (chel s ++ held t)
                      (with_th i (hold (buf t) [] (become Gone t)) s), None)
          | _, _ => None
          end
      | None => None
      end
  | ABegin reset =>
      (* write_mostly.h lines 102-104 and 114-115 *)
      match rdr s with
      | Some _ => None
      | None =>
          Some (with_rdr (Some {| resets := reset; acc := comb s; gacc := chel s; todo := None |})
                  (if reset then with_comb (r_id k) [] s else s), None)
      end
  | AEnter =>
      match rdr s with
      | Some r => match todo r with
                  | None => Some (with_rdr (Some {| resets := resets r; acc := acc r; gacc := gacc r; todo := Some (indices (ths s)) |}) s, None)
                  | Some _ => None
                  end
      | None => None
      end
  | AVisit =>
      (* write_mostly.h lines 105-108 and 116 *)
      match rdr s with
      | Some r =>
          match todo r with
          | Some (i :: l) =>
              match nth_error (ths s) i with
              | Some t =>
                  Some (with_rdr (Some {| resets := resets r; acc := merge k (acc r) (buf t); gacc := gacc r ++ held t; todo := Some l |})
                          (if resets r then with_th i (hold (b_id k) [] t) s else s), None)
              | None => None
              end
          | _ => None
          end
      | None => None
      end
  | AReturn =>
      match rdr s with
      | Some r =>
          match todo r with
          | Some [] => Some (with_rdr None s, Some {| was_reset := resets r; value := acc r; values := gacc r |})
          | _ => None
          end
      | None => None
      end
  end.

(** A new variable: write_mostly.h lines 60-64. *)
Definition init {R} (k : kind R) : st R :=
  {| ths := []; comb := r_id k; chel := []; rdr := None; fin := [] |}.

(** A run, with all that was returned. *)
Fixpoint run {R} (k : kind R) (l : list act) (s : st R) : option (st R * list (ret R)) :=
  match l with
  | [] => Some (s, [])
  | a :: m =>
      match step k a s with
      | None => None
      | Some (s1, o) =>
          match run k m s1 with
          | None => None
          | Some (s2, rs) => Some (s2, match o with Some x => x :: rs | None => rs end)
          end
      end
  end.
