(** C43: the fixed memory pool.  C44: the index allocator. *)
From Coq Require Import Permutation.
From Verif.Lib Require Import Base.
From Verif.MemPool Require Import Model Spec SpecRun Proofs ProofsProps.
Local Open Scope Z_scope.
Local Open Scope out_scope.

(** A pool whose size fits 32 bits can be made. *)
Theorem C43_new g n sz item : geometry n sz item -> exists p0, pool_new g n sz = Ok p0.
Proof. exact (new_ok g n sz item). Qed.
Print Assumptions C43_new.

(** The blocks in use are distinct, inside the pool, on multiples of the item size and do not overlap. *)
Theorem C43_blocks g n sz item p0 h p : geometry n sz item -> pool_new g n sz = Ok p0 -> pool_run p0 h p ->
  NoDup (in_use h) /\
  forall a, In a (in_use h) -> a mod item = 0 /\ 0 <= a /\ a + item <= item * n /\ (forall b, In b (in_use h) -> a = b \/ a + item <= b \/ b + item <= a).
Proof. exact (blocks g n sz item p0 h p). Qed.
Print Assumptions C43_blocks.

(** Allocation has no undefined behaviour, fails exactly when all items are in use and otherwise gives a block that is not in use, inside the
    pool and full of zeros. *)
Theorem C43_allocate g n sz item p0 h p : geometry n sz item -> pool_new g n sz = Ok p0 -> pool_run p0 h p ->
  exists r p', allocate p = Ok (r, p') /\
    match r with
    | None => Z.of_nat (length (in_use h)) = n /\ p' = p
    | Some a => Z.of_nat (length (in_use h)) < n /\ a mod item = 0 /\ 0 <= a /\ a + item <= item * n /\ ~ In a (in_use h) /\
                (forall o, a <= o < a + item -> o mod 4 = 0 -> p_mem p' o = 0)
    end.
Proof. exact (alloc_step g n sz item p0 h p). Qed.
Print Assumptions C43_allocate.

(** A block in use can be returned; the next allocation hands it out again. *)
Theorem C43_free g n sz item p0 h p ptr : geometry n sz item -> pool_new g n sz = Ok p0 -> pool_run p0 h p -> In ptr (in_use h) ->
  exists p', deallocate ptr p = Ok (true, p') /\ exists p'', allocate p' = Ok (Some ptr, p'').
Proof. exact (free_step g n sz item p0 h p ptr). Qed.
Print Assumptions C43_free.

(** A block in use holds what its user stored, whatever happens to the other blocks. *)
Theorem C43_content g n sz item p0 h p a o : geometry n sz item -> pool_new g n sz = Ok p0 -> pool_run p0 h p ->
  In a (in_use h) -> a <= o < a + item -> o mod 4 = 0 -> p_mem p o = stored item h o.
Proof. exact (content g n sz item p0 h p a o). Qed.
Print Assumptions C43_content.

(** Memory that does not belong to the pool is refused... *)
Theorem C43_other g n sz item p0 h p ptr : geometry n sz item -> pool_new g n sz = Ok p0 -> pool_run p0 h p -> ptr < 0 \/ item * n < ptr ->
  deallocate ptr p = Ok (false, p).
Proof. exact (other_step g n sz item p0 h p ptr). Qed.
Print Assumptions C43_other.

(** ...except memory that begins right after the pool: the pool writes into it and so beyond its own end, whenever a block is in use. *)
Theorem C43_past_end_refuted g n sz item p0 h p : geometry n sz item -> pool_new g n sz = Ok p0 -> pool_run p0 h p -> in_use h <> [] ->
  deallocate (item * n) p = UB.
Proof. exact (past_end g n sz item p0 h p). Qed.
Print Assumptions C43_past_end_refuted.

(** When nothing is in use nothing is accepted. *)
Theorem C43_none_in_use g n sz item p0 h p ptr : geometry n sz item -> pool_new g n sz = Ok p0 -> pool_run p0 h p -> in_use h = [] ->
  deallocate ptr p = Ok (false, p).
Proof. exact (full_other g n sz item p0 h p ptr). Qed.
Print Assumptions C43_none_in_use.

(** The size of the memory is computed in 32 bits: a pool of 2^29 items of 8 bytes writes outside what it allocated. *)
Theorem C43_large_refuted g : pool_new g (2 ^ 29) 8 = UB.
Proof. exact (large_pool g). Qed.
Print Assumptions C43_large_refuted.

(** A block that is freed twice is handed out twice. *)
Theorem C43_double_free_refuted g :
  (let! p := pool_new g 3 8 in let! (a, p) := allocate p in let! (b, p) := allocate p in
   let! (f1, p) := deallocate 0 p in let! (f2, p) := deallocate 0 p in
   let! (c, p) := allocate p in let! (d, _) := allocate p in Ok (a, b, f1, f2, c, d)) = Ok (Some 0, Some 8, true, true, Some 0, Some 0).
Proof. exact (double_free g). Qed.
Print Assumptions C43_double_free_refuted.

(** A pointer into the middle of a block is accepted. *)
Theorem C43_inside_refuted g :
  (let! p := pool_new g 1 16 in let! (a, p) := allocate p in let! (f, _) := deallocate 8 p in Ok (a, f)) = Ok (Some 0, true).
Proof. exact (inside_free g). Qed.
Print Assumptions C43_inside_refuted.

(** Three items of 12 bytes, each in a block of 16 bytes: three allocations, the second block is returned and handed out again. *)
Example C43_example :
  geometry 3 12 16 /\
  (let! p := pool_new (fun o => o) 3 12 in
   let! (a, p) := allocate p in let! (b, p) := allocate p in let! (c, p) := allocate p in let! (d, p) := allocate p in
   let! p := user_store 20 7 p in
   let! (f, p) := deallocate 16 p in let! (e, p) := allocate p in
   Ok (a, b, c, d, f, e, p_mem p 20, p_avail p)) = Ok (Some 0, Some 16, Some 32, None, true, Some 16, 0, 0).
Proof. split; [repeat split; discriminate|reflexivity]. Qed.

(** Live indexes are distinct. *)
Theorem C44_distinct h a : ialloc_run h a -> NoDup (live h).
Proof. exact (fun R => proj1 (ialloc_inv h a R)). Qed.
Print Assumptions C44_distinct.

(** The indexes ever issued are those below the largest number of indexes that were live at the same time. *)
Theorem C44_initial_segment h a i : ialloc_run h a -> (issued h i <-> 0 <= i < peak h).
Proof. exact (fun R => initial_segment h a i R). Qed.
Print Assumptions C44_initial_segment.

(** The next index is not live. *)
Theorem C44_next h a : ialloc_run h a -> ~ In (fst (next a)) (live h).
Proof. exact (fun R => next_fresh h a R). Qed.
Print Assumptions C44_next.

(** An index that is freed twice is issued twice. *)
Theorem C44_double_free_refuted : let a := free 0 (free 0 (snd (next ialloc_new))) in fst (next a) = 0 /\ fst (next (snd (next a))) = 0.
Proof. exact (conj eq_refl eq_refl). Qed.
Print Assumptions C44_double_free_refuted.

Example C44_example : exists a, ialloc_run [INext 2; INext 1; IFree 1; INext 1; INext 0] a /\ peak [INext 2; INext 1; IFree 1; INext 1; INext 0] = 3.
Proof.
  eexists. split; [|reflexivity]. eapply i_next; [eapply i_next; [eapply i_free; [eapply i_next; [eapply i_next; [apply i_new|]|]|]|]|]; try reflexivity.
  left. reflexivity.
Qed.
