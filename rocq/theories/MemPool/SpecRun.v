(** The histories of the modelled allocators. *)
From Verif.Lib Require Import Base.
From Verif.MemPool Require Import Model Spec.
Local Open Scope Z_scope.

(** [pool_run p0 h p]: a user that frees only what is in use, stores (at aligned places) only into what is in use and otherwise frees only
    memory outside the pool, has brought the pool from p0 to p.  The history is in reverse order. *)
Inductive pool_run (p0 : pool) : list act -> pool -> Prop :=
| r_new : pool_run p0 [] p0
| r_alloc h p r p' : pool_run p0 h p -> allocate p = Ok (r, p') -> pool_run p0 (AAlloc r :: h) p'
| r_free h p ptr b p' : pool_run p0 h p -> In ptr (in_use h) -> deallocate ptr p = Ok (b, p') -> pool_run p0 (AFree ptr :: h) p'
| r_other h p ptr b p' : pool_run p0 h p -> ptr < 0 \/ p_bytes p < ptr -> deallocate ptr p = Ok (b, p') -> pool_run p0 (AFreeOther ptr :: h) p'
| r_store h p a off v p' : pool_run p0 h p -> In a (in_use h) -> a <= off -> off + 4 <= a + p_size p -> off mod 4 = 0 ->
    user_store off v p = Ok p' -> pool_run p0 (AStore off v :: h) p'.

(** The same for the index allocator: only live indexes are freed. *)
Inductive ialloc_run : list iact -> ialloc -> Prop :=
| i_new : ialloc_run [] ialloc_new
| i_next h a i a' : ialloc_run h a -> next a = (i, a') -> ialloc_run (INext i :: h) a'
| i_free h a i : ialloc_run h a -> In i (live h) -> ialloc_run (IFree i :: h) (free i a).

(** The geometry for which the sizes do not wrap: [n] items of [sz] bytes, which the pool rounds up to [item] bytes. *)
Definition geometry (n sz item : Z) : Prop :=
  0 <= n /\ 0 <= sz /\ sz <= item < Z.max sz 8 + 8 /\ item mod 8 = 0 /\ 8 <= item /\ item * n < 2 ^ 32 /\ n < 2 ^ 32 /\ item < 2 ^ 32.
