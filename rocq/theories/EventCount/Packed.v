(** The word of the event count as the code has it: 64 bits.
    Source: trpc/util/thread/predicate_notifier.h lines 209-222. *)
From Coq Require Import ZArith.
Local Open Scope Z_scope.

(** Arithmetic on uint64_t. *)
Definition u64 (x : Z) : Z := x mod 2 ^ 64.
(** Conversion to int64_t. *)
Definition i64 (x : Z) : Z := if u64 x <? 2 ^ 63 then u64 x else u64 x - 2 ^ 64.

(** Lines 213-222. *)
Definition kStackMask : Z := Z.shiftl 1 16 - 1.
Definition kWaiterMask : Z := Z.shiftl (Z.shiftl 1 16 - 1) 16.
Definition kWaiterInc : Z := Z.shiftl 1 16.
Definition kEpochMask : Z := Z.shiftl (Z.shiftl 1 32 - 1) 32.
Definition kEpochInc : Z := Z.shiftl 1 32.

(** Line 91. *)
Definition b_prepare (x : Z) : Z := u64 (x + kWaiterInc).
(** Lines 100 and 129. *)
Definition b_ticket (x : Z) : Z :=
  u64 (Z.land x kEpochMask + Z.shiftl (Z.shiftr (Z.land x kWaiterMask) 16) 32).
(** Lines 103 and 111, 132 and 140. *)
Definition b_compare (x t : Z) : Z := i64 (Z.land x kEpochMask - t).
(** Lines 114-116. *)
Definition b_commit (x w : Z) : Z :=
  Z.lor (Z.land (u64 (x - kWaiterInc + kEpochInc)) (u64 (Z.lnot kStackMask))) w.
(** Line 143. *)
Definition b_cancel (x : Z) : Z := u64 (x - kWaiterInc + kEpochInc).
(** Line 155. *)
Definition b_nobody (x : Z) : bool := (Z.land x kStackMask =? kStackMask) && (Z.land x kWaiterMask =? 0).
(** Lines 156 and 160. *)
Definition b_all (x : Z) : Z :=
  u64 (Z.land x kEpochMask + kEpochInc * Z.shiftr (Z.land x kWaiterMask) 16 + kStackMask).
(** Line 163. *)
Definition b_one (x : Z) : Z := u64 (x + kEpochInc - kWaiterInc).
(** Line 175. *)
Definition b_pop (x next : Z) : Z := u64 (Z.land x kEpochMask + next).

(** The word with epoch [e] (modulo 2^32), [p] undecided, top of the stack [k]
    (2^16 - 1 when the stack is empty). *)
Definition packed (e p k : Z) : Z := (e mod 2 ^ 32) * 2 ^ 32 + p * 2 ^ 16 + k.
