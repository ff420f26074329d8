(** Model of trpc/util/container/bounded_queue.h and trpc/util/algorithm/power_of_two.cc.

    The queue's memory is a function from item positions to "holds a constructed item" or "raw".
    Destroying or reading a raw position is undefined behaviour, and so is constructing over a live
    item (the code would leak it; the model does not tell these apart).
    uint32_t arithmetic wraps; a loop that makes no progress is NoFuel. *)
From Verif.Lib Require Import Base.
Local Open Scope Z_scope.
Local Open Scope out_scope.

Definition u32 (z : Z) : Z := z mod 2 ^ 32.

(** bounded_queue.h:269-273; ownership_ plays no role. *)
Record bq (A : Type) := mk_bq { bq_count : Z; bq_cap : Z; bq_start : Z; bq_items : Z -> option A }.
Arguments mk_bq {A}. Arguments bq_count {A}. Arguments bq_cap {A}. Arguments bq_start {A}. Arguments bq_items {A}.

(** Constructor, lines 44-52: cap_ is the capacity cut down to 32 bits. *)
Definition bq_new (A : Type) (capacity : Z) : bq A := mk_bq 0 (u32 capacity) 0 (fun _ => None).

(** Mod, lines 262-267.  Offsets are below twice the capacity, so the loop runs at most once. *)
Fixpoint bq_mod_loop (fuel : nat) (off cap : Z) : out Z :=
  match fuel with
  | O => NoFuel
  | S f => if off >=? cap then bq_mod_loop f (u32 (off - cap)) cap else Ok off
  end.
Definition bq_mod (off cap : Z) : out Z := bq_mod_loop 3 (u32 off) cap.

Section Ops.
Context {A : Type}.
Implicit Types q : bq A.

Definition zset (f : Z -> option A) (i : Z) (x : option A) : Z -> option A :=
  fun j => if j =? i then x else f j.

(** Placement new at a position; writing outside the memory is undefined. *)
Definition construct q (i : Z) (x : A) : out (Z -> option A) :=
  if (0 <=? i) && (i <? bq_cap q)
  then match bq_items q i with None => Ok (zset (bq_items q) i (Some x)) | Some _ => UB end
  else UB.

(** Copying out and destroying the item at a position. *)
Definition destroy q (i : Z) : out (A * (Z -> option A)) :=
  if (0 <=? i) && (i <? bq_cap q)
  then match bq_items q i with Some x => Ok (x, zset (bq_items q) i None) | None => UB end
  else UB.

(** Push(item), lines 70-77 (Push(), lines 93-98, with a default item). *)
Definition bq_push q (x : A) : out (bq A * bool) :=
  if bq_count q <? bq_cap q then
    let! i := bq_mod (bq_start q + bq_count q) (bq_cap q) in
    let! m := construct q i x in
    Ok (mk_bq (u32 (bq_count q + 1)) (bq_cap q) (bq_start q) m, true)
  else Ok (q, false).

(** ElimPush, lines 81-89. *)
Definition bq_elim_push q (x : A) : out (bq A) :=
  if bq_count q <? bq_cap q then
    let! (q1, _) := bq_push q x in Ok q1
  else
    let! (_, m) := destroy q (bq_start q) in
    let! s := bq_mod (bq_start q + 1) (bq_cap q) in
    Ok (mk_bq (bq_count q) (bq_cap q) s (zset m (bq_start q) (Some x))).

(** PushTop(item), lines 102-110 (PushTop(), lines 114-121, with a default item). *)
Definition bq_push_top q (x : A) : out (bq A * bool) :=
  if bq_count q <? bq_cap q then
    let s := if negb (bq_start q =? 0) then bq_start q - 1 else u32 (bq_cap q - 1) in
    let! m := construct q s x in
    Ok (mk_bq (u32 (bq_count q + 1)) (bq_cap q) s m, true)
  else Ok (q, false).

(** Pop(T* ), lines 137-147 (Pop(), lines 125-133, drops the item). *)
Definition bq_pop q : out (bq A * option A) :=
  if negb (bq_count q =? 0) then
    let! (x, m) := destroy q (bq_start q) in
    let! s := bq_mod (bq_start q + 1) (bq_cap q) in
    Ok (mk_bq (bq_count q - 1) (bq_cap q) s m, Some x)
  else Ok (q, None).

(** PopBottom(T* ), lines 162-171 (PopBottom(), lines 151-158, drops the item). *)
Definition bq_pop_bottom q : out (bq A * option A) :=
  if negb (bq_count q =? 0) then
    let! i := bq_mod (bq_start q + (bq_count q - 1)) (bq_cap q) in
    let! (x, m) := destroy q i in
    Ok (mk_bq (bq_count q - 1) (bq_cap q) (bq_start q) m, Some x)
  else Ok (q, None).

(** Clear, lines 174-180; the loop of [n] remaining items from the [i]-th. *)
Fixpoint bq_clear_loop q (n : nat) (i : Z) : out (bq A) :=
  match n with
  | O => Ok q
  | S n1 => let! k := bq_mod (bq_start q + i) (bq_cap q) in
            let! (_, m) := destroy q k in
            bq_clear_loop (mk_bq (bq_count q) (bq_cap q) (bq_start q) m) n1 (i + 1)
  end.
Definition bq_clear q : out (bq A) :=
  let! q1 := bq_clear_loop q (Z.to_nat (bq_count q)) 0 in
  Ok (mk_bq 0 (bq_cap q1) 0 (bq_items q1)).

(** Reading through a pointer returned by Top or Bottom. *)
Definition bq_read q (i : Z) : out (option A) :=
  if (0 <=? i) && (i <? bq_cap q)
  then match bq_items q i with Some x => Ok (Some x) | None => UB end
  else UB.

(** Top(index), lines 189-195; Top(), line 183, is Top(0). *)
Definition bq_top q (index : Z) : out (option A) :=
  if index <? bq_count q then let! i := bq_mod (bq_start q + index) (bq_cap q) in bq_read q i
  else Ok None.

(** Bottom(index), lines 217-223; Bottom(), lines 206-208, is Bottom(0). *)
Definition bq_bottom q (index : Z) : out (option A) :=
  if index <? bq_count q then let! i := bq_mod (bq_start q + bq_count q - index - 1) (bq_cap q) in bq_read q i
  else Ok None.

(** Empty, Full, Size, lines 233-238. *)
Definition bq_empty q : bool := bq_count q =? 0.
Definition bq_full q : bool := bq_cap q =? bq_count q.

(** Calls on two queues of the same type; [Swap] exchanges all fields, lines 250-256. *)
Inductive bq_call :=
| QPush (x : A) | QElimPush (x : A) | QPushTop (x : A) | QPop | QPopBottom | QClear
| QTop (i : nat) | QBottom (i : nat) | QEmpty | QFull | QSize.

Inductive bq_answer := AUnit | ABool (b : bool) | AItem (x : option A) | ASize (n : Z).

Definition bq_do q (c : bq_call) : out (bq A * bq_answer) :=
  match c with
  | QPush x => let! (q1, b) := bq_push q x in Ok (q1, ABool b)
  | QElimPush x => let! q1 := bq_elim_push q x in Ok (q1, AUnit)
  | QPushTop x => let! (q1, b) := bq_push_top q x in Ok (q1, ABool b)
  | QPop => let! (q1, r) := bq_pop q in Ok (q1, AItem r)
  | QPopBottom => let! (q1, r) := bq_pop_bottom q in Ok (q1, AItem r)
  | QClear => let! q1 := bq_clear q in Ok (q1, AUnit)
  | QTop i => let! r := bq_top q (Z.of_nat i) in Ok (q, AItem r)
  | QBottom i => let! r := bq_bottom q (Z.of_nat i) in Ok (q, AItem r)
  | QEmpty => Ok (q, ABool (bq_empty q))
  | QFull => Ok (q, ABool (bq_full q))
  | QSize => Ok (q, ASize (bq_count q))
  end.

(** [inl (b, c)]: call on the first (true) or second queue; [inr tt]: first.Swap(second). *)
Fixpoint bq_calls (q1 q2 : bq A) (l : list (bool * bq_call + unit)) : out (bq A * bq A * list bq_answer) :=
  match l with
  | [] => Ok (q1, q2, [])
  | inr tt :: r => bq_calls q2 q1 r
  | inl (true, c) :: r => let! (q, a) := bq_do q1 c in
                          let! (p1, p2, l) := bq_calls q q2 r in Ok (p1, p2, a :: l)
  | inl (false, c) :: r => let! (q, a) := bq_do q2 c in
                           let! (p1, p2, l) := bq_calls q1 q r in Ok (p1, p2, a :: l)
  end.
End Ops.
Arguments bq_call : clear implicits.
Arguments bq_answer : clear implicits.

(* ------------------------------------------------------------------------- *)
(** * RoundUpPowerOf2, trpc/util/algorithm/power_of_two.cc:18-29 *)

(** The loop of lines 22-24; [tmp] is uint64_t. *)
Fixpoint round_loop (fuel : nat) (tmp n : Z) : out Z :=
  match fuel with
  | O => NoFuel
  | S f => if tmp <=? n then round_loop f ((tmp * 2) mod 2 ^ 64) n else Ok tmp
  end.
Definition round_up (n : Z) : out Z :=
  if (2 <=? n) && (Z.land n (n - 1) =? 0) then Ok n else round_loop 70 1 n.
