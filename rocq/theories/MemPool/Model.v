(** Model of FixedMemoryPool, trpc/util/container/fixed_arena_allocator.h, and of IndexAlloc,
    trpc/util/internal/index_alloc.{h,cc}.

    A pointer is its distance in bytes from mem_ptr_ (negative or beyond the end for other memory).  The memory is a function
    from the offset to the 32-bit word that starts there; the code only uses offsets that are multiples of four, and so must its user.
    The sizes are uint32_t and wrap.  assert is compiled out (NDEBUG).  Not modelled: FixedArenaAllocator, which calls Allocate and
    falls back to std::allocator when it fails, and failing allocations. *)
From Verif.Lib Require Import Base.
Local Open Scope Z_scope.
Local Open Scope out_scope.

Definition u32 (x : Z) : Z := x mod 2 ^ 32.

(** fixed_arena_allocator.h:112-120; [p_bytes] is the size of the allocated memory. *)
Record pool := { p_num : Z; p_size : Z; p_bytes : Z; p_mem : Z -> Z; p_head : Z; p_avail : Z }.

(** Writing a word. *)
Definition store (bytes : Z) (mem : Z -> Z) (off v : Z) : out (Z -> Z) :=
  if (0 <=? off) && (off + 4 <=? bytes) then Ok (fun o => if o =? off then v else mem o) else UB.

(** The constructor, 40-57: the loop. *)
Fixpoint init_loop (n : nat) (bytes size i off : Z) (mem : Z -> Z) : out (Z -> Z) :=
  match n with
  | O => Ok mem
  | S m => let! mem' := store bytes mem off (u32 (i + 1)) in init_loop m bytes size (i + 1) (off + size) mem'
  end.
(** 41-43. *)
Definition item_size (sz : Z) : Z :=
  let s := u32 (Z.max sz 8) in
  let md := s mod 8 in
  if 0 <? md then u32 (s - md + 8) else s.
(** [garbage]: what the new memory holds. *)
Definition pool_new (garbage : Z -> Z) (item_num item_mem_size : Z) : out pool :=
  let num := u32 item_num in
  let size := item_size item_mem_size in
  let bytes := u32 (size * num) in
  let! mem := init_loop (Z.to_nat num) bytes size 0 0 garbage in
  Ok {| p_num := num; p_size := size; p_bytes := bytes; p_mem := mem; p_head := 0; p_avail := num |}.

(** Allocate, 66-82. *)
Definition allocate (p : pool) : out (option Z * pool) :=
  if p_avail p =? 0 then Ok (None, p) else
  let ptr := u32 (p_head p * p_size p) in
  if ptr + p_size p <=? p_bytes p then
    Ok (Some ptr, {| p_num := p_num p; p_size := p_size p; p_bytes := p_bytes p;
                     p_mem := fun o => if (ptr <=? o) && (o <? ptr + p_size p) then 0 else p_mem p o;
                     p_head := p_mem p ptr; p_avail := p_avail p - 1 |})
  else UB.

(** Deallocate, 85-106. *)
Definition deallocate (ptr : Z) (p : pool) : out (bool * pool) :=
  if (ptr <? 0) || (u32 (p_size p * p_num p) <? ptr) then Ok (false, p) else
  if p_num p <=? p_avail p then Ok (false, p) else
  let! mem := store (p_bytes p) (p_mem p) ptr (p_head p) in
  Ok (true, {| p_num := p_num p; p_size := p_size p; p_bytes := p_bytes p; p_mem := mem; p_head := u32 (ptr / p_size p);
               p_avail := u32 (p_avail p + 1) |}).

(** The user of a block writes into it. *)
Definition user_store (off v : Z) (p : pool) : out pool :=
  let! mem := store (p_bytes p) (p_mem p) off v in
  Ok {| p_num := p_num p; p_size := p_size p; p_bytes := p_bytes p; p_mem := mem; p_head := p_head p; p_avail := p_avail p |}.

(** IndexAlloc, index_alloc.h:49-51, index_alloc.cc:15-28 (under a lock): current_, and recycled_ with the back first. *)
Definition ialloc := (Z * list Z)%type.
Definition ialloc_new : ialloc := (0, []).
Definition next (a : ialloc) : Z * ialloc :=
  match snd a with
  | i :: r => (i, (fst a, r))
  | [] => (fst a, (fst a + 1, []))
  end.
Definition free (i : Z) (a : ialloc) : ialloc := (fst a, i :: snd a).
