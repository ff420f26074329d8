(** The properties of the pool, in the form in which they are stated. *)
From Coq Require Import Lia Permutation.
From Verif.Lib Require Import Base ListX.
From Verif.MemPool Require Import Model Spec SpecRun Proofs.
Local Open Scope Z_scope.
Local Open Scope out_scope.

Lemma geometry_size n sz item : geometry n sz item -> 0 <= sz <= 2 ^ 32 - 8 /\ item_size sz = item.
Proof.
  intros (Hn & H0 & H1 & H2 & H3 & H4 & H5 & H6). change (2 ^ 32) with 4294967296 in *.
  assert (R : 0 <= sz <= 2 ^ 32 - 8).
  { change (2 ^ 32) with 4294967296. pose proof (Z.div_mod item 8 ltac:(lia)). lia. }
  split; [exact R|]. destruct (item_size_spec sz R) as (A & B & C). pose proof (Z.div_mod item 8 ltac:(lia)). pose proof (Z.div_mod (item_size sz) 8 ltac:(lia)).
  unfold item_size in *. set (x := if 0 <? u32 (Z.max sz 8) mod 8 then _ else _) in *. clearbody x. cbv zeta in *.
  assert (x <= item - 8 \/ x = item \/ item <= x - 8) by lia. destruct (Z_le_gt_dec sz 8); [|lia].
  assert (8 <= x < 16) by lia. lia.
Qed.

Lemma geo_good g n sz item p0 h p : geometry n sz item -> pool_new g n sz = Ok p0 -> pool_run p0 h p ->
  exists fl lv, good h p fl lv /\ p_num p = n /\ p_size p = item.
Proof.
  intros Ge E R. destruct (geometry_size n sz item Ge) as (A & <-). destruct Ge as (Hn & H0 & H1 & H2 & H3 & H4 & H5 & H6).
  apply (run_good g n sz p0 h p); auto; lia.
Qed.

Lemma new_ok g n sz item : geometry n sz item -> exists p0, pool_new g n sz = Ok p0.
Proof.
  intros Ge. destruct (geometry_size n sz item Ge) as (A & <-). destruct Ge as (Hn & H0 & H1 & H2 & H3 & H4 & H5 & H6).
  destruct (new_good g n sz) as (p & E & _); auto; try lia. eauto.
Qed.

Lemma blocks g n sz item p0 h p : geometry n sz item -> pool_new g n sz = Ok p0 -> pool_run p0 h p ->
  NoDup (in_use h) /\
  forall a, In a (in_use h) -> a mod item = 0 /\ 0 <= a /\ a + item <= item * n /\ (forall b, In b (in_use h) -> a = b \/ a + item <= b \/ b + item <= a).
Proof.
  intros Ge E R. destruct (geo_good _ _ _ _ _ _ _ Ge E R) as (fl & lv & G & <- & <-). pose proof (good_nodup G) as ND. pose proof (g_size _ _ _ _ G) as [S8 _].
  split.
  - rewrite (g_use _ _ _ _ G). apply FinFun.Injective_map_NoDup; [intros x y; nia|]. clear -ND. induction fl; [exact ND|]. inversion_clear ND. auto.
  - intros a Ha. rewrite (good_use G) in Ha. destruct Ha as (i & Hi & ->). pose proof (proj1 (good_in G i) (in_or_app _ _ _ (or_intror Hi))) as Ri.
    pose proof (good_block G i Ri). rewrite <- (g_bytes _ _ _ _ G). split; [apply Z.mod_mul; lia|]. do 2 (split; [lia|]).
    intros b Hb. rewrite (good_use G) in Hb. destruct Hb as (j & Hj & ->). clear -S8.
    destruct (Z.lt_trichotomy i j) as [L|[->|L]]; [right; left|left; reflexivity|right; right]; nia.
Qed.

Lemma alloc_step g n sz item p0 h p : geometry n sz item -> pool_new g n sz = Ok p0 -> pool_run p0 h p ->
  exists r p', allocate p = Ok (r, p') /\
    match r with
    | None => Z.of_nat (length (in_use h)) = n /\ p' = p
    | Some a => Z.of_nat (length (in_use h)) < n /\ a mod item = 0 /\ 0 <= a /\ a + item <= item * n /\ ~ In a (in_use h) /\
                (forall o, a <= o < a + item -> o mod 4 = 0 -> p_mem p' o = 0)
    end.
Proof.
  intros Ge E R. destruct (geo_good _ _ _ _ _ _ _ Ge E R) as (fl & lv & G & <- & <-). pose proof (alloc_spec h p fl lv G) as A. pose proof (good_len G) as L.
  assert (LU : length (in_use h) = length lv) by (rewrite (g_use _ _ _ _ G); apply map_length).
  destruct fl as [|i t].
  - exists None, p. split; [exact A|]. rewrite LU. cbn [length] in L. split; [lia|reflexivity].
  - destruct A as (p' & A & Q1 & Q2 & Q3 & Q4). exists (Some (i * p_size p)), p'. split; [exact A|].
    pose proof (proj1 (good_in G i) (or_introl eq_refl)) as Ri. pose proof (good_block G i Ri). pose proof (g_size _ _ _ _ G) as [S8 _].
    rewrite LU, <- (g_bytes _ _ _ _ G). cbn [length] in L. split; [lia|]. split; [apply Z.mod_mul; lia|]. do 2 (split; [lia|]). split.
    + rewrite (good_use G). intros (j & Hj & Ej). assert (i = j) by nia. subst j. pose proof (good_nodup G) as ND. inversion_clear ND as [|? ? N1 N2].
      apply N1. apply in_or_app. right. exact Hj.
    + intros o Ho M. rewrite (g_mem _ _ _ _ Q4 (i * p_size p) o); [|left; reflexivity|rewrite Q2; exact Ho|exact M]. cbn [stored]. rewrite Q2.
      destruct (Z.leb_spec (i * p_size p) o); [|lia]. destruct (Z.ltb_spec o (i * p_size p + p_size p)); [reflexivity|lia].
Qed.

Lemma content g n sz item p0 h p a o : geometry n sz item -> pool_new g n sz = Ok p0 -> pool_run p0 h p ->
  In a (in_use h) -> a <= o < a + item -> o mod 4 = 0 -> p_mem p o = stored item h o.
Proof.
  intros Ge E R. destruct (geo_good _ _ _ _ _ _ _ Ge E R) as (fl & lv & G & <- & <-). apply (g_mem _ _ _ _ G).
Qed.

Lemma free_step g n sz item p0 h p ptr : geometry n sz item -> pool_new g n sz = Ok p0 -> pool_run p0 h p -> In ptr (in_use h) ->
  exists p', deallocate ptr p = Ok (true, p') /\ exists p'', allocate p' = Ok (Some ptr, p'').
Proof.
  intros Ge E R Hin. destruct (geo_good _ _ _ _ _ _ _ Ge E R) as (fl & lv & G & <- & <-).
  destruct (free_spec h p fl lv ptr G Hin) as (p' & i & D & Q1 & Q2 & Q3 & -> & Q4). exists p'. split; [exact D|].
  pose proof (alloc_spec _ _ _ _ Q4) as A. cbn iota in A. destruct A as (p'' & A & _). exists p''. rewrite Q2 in A. exact A.
Qed.

Lemma other_step g n sz item p0 h p ptr : geometry n sz item -> pool_new g n sz = Ok p0 -> pool_run p0 h p -> ptr < 0 \/ item * n < ptr ->
  deallocate ptr p = Ok (false, p).
Proof.
  intros Ge E R Hp. destruct (geo_good _ _ _ _ _ _ _ Ge E R) as (fl & lv & G & <- & <-). rewrite <- (g_bytes _ _ _ _ G) in Hp.
  apply (other_spec h p fl lv ptr G Hp).
Qed.

Lemma past_end g n sz item p0 h p : geometry n sz item -> pool_new g n sz = Ok p0 -> pool_run p0 h p -> in_use h <> [] ->
  deallocate (item * n) p = UB.
Proof.
  intros Ge E R NE. destruct (geo_good _ _ _ _ _ _ _ Ge E R) as (fl & lv & G & <- & <-). pose proof (good_len G) as L. pose proof (good_byte G).
  unfold deallocate. rewrite (good_bytes G), <- (g_bytes _ _ _ _ G), (g_avail _ _ _ _ G).
  destruct (Z.ltb_spec (p_bytes p) 0) as [N|_]; [lia|]. destruct (Z.ltb_spec (p_bytes p) (p_bytes p)) as [N|_]; [lia|]. cbn [orb].
  assert (lv <> []) by (intros ->; apply NE; rewrite (g_use _ _ _ _ G); reflexivity).
  destruct (Z.leb_spec (p_num p) (Z.of_nat (length fl))) as [N|_]; [destruct lv; [congruence|cbn [length] in L; lia]|].
  unfold store. destruct (Z.leb_spec (p_bytes p + 4) (p_bytes p)) as [N|_]; [lia|]. rewrite andb_false_r. reflexivity.
Qed.

Lemma full_other g n sz item p0 h p ptr : geometry n sz item -> pool_new g n sz = Ok p0 -> pool_run p0 h p -> in_use h = [] -> deallocate ptr p = Ok (false, p).
Proof.
  intros Ge E R NE. destruct (geo_good _ _ _ _ _ _ _ Ge E R) as (fl & lv & G & <- & <-). pose proof (good_len G) as L.
  assert (lv = []) by (pose proof (g_use _ _ _ _ G) as U; rewrite NE in U; destruct lv; [reflexivity|discriminate]). subst lv.
  unfold deallocate. rewrite (g_avail _ _ _ _ G). cbn [length] in L. destruct ((ptr <? 0) || _); [reflexivity|].
  destruct (Z.leb_spec (p_num p) (Z.of_nat (length fl))) as [_|N]; [reflexivity|lia].
Qed.

(** A pool of 4 GiB or more. *)
Lemma large_pool g : pool_new g (2 ^ 29) 8 = UB.
Proof.
  assert (A : u32 (2 ^ 29) = 2 ^ 29) by reflexivity. assert (B : item_size 8 = 8) by reflexivity. assert (C : u32 (8 * 2 ^ 29) = 0) by reflexivity.
  unfold pool_new. cbv zeta. rewrite A, B, C. assert (P : 0 < 2 ^ 29) by reflexivity. clear A B C. revert P. generalize (2 ^ 29). intros n P.
  destruct (Z.to_nat n) as [|k] eqn:E; [lia|]. reflexivity.
Qed.

(** Freeing twice. *)
Lemma double_free g :
  (let! p := pool_new g 3 8 in let! (a, p) := allocate p in let! (b, p) := allocate p in
   let! (f1, p) := deallocate 0 p in let! (f2, p) := deallocate 0 p in
   let! (c, p) := allocate p in let! (d, _) := allocate p in Ok (a, b, f1, f2, c, d)) = Ok (Some 0, Some 8, true, true, Some 0, Some 0).
Proof. reflexivity. Qed.

Lemma inside_free g :
  (let! p := pool_new g 1 16 in let! (a, p) := allocate p in let! (f, _) := deallocate 8 p in Ok (a, f)) = Ok (Some 0, true).
Proof. reflexivity. Qed.

Lemma initial_segment h a i : ialloc_run h a -> (issued h i <-> 0 <= i < peak h).
Proof. intro R. destruct (ialloc_inv h a R) as (_ & <- & _ & _ & I). apply I. Qed.
Lemma next_fresh h a : ialloc_run h a -> ~ In (fst (next a)) (live h).
Proof.
  intros R. destruct (next a) as [i a'] eqn:E. pose proof (i_next h a i a' R E) as R'. destruct (ialloc_inv _ _ R') as (ND & _).
  cbn in *. inversion_clear ND; assumption.
Qed.
