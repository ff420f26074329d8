(** Proofs about the fixed memory pool and the index allocator. *)
From Coq Require Import Lia Permutation.
From Verif.Lib Require Import Base ListX.
From Verif.MemPool Require Import Model Spec SpecRun.
Local Open Scope Z_scope.
Local Open Scope out_scope.

Lemma u32_small x : 0 <= x < 2 ^ 32 -> u32 x = x.
Proof. intro H. unfold u32. apply Z.mod_small, H. Qed.
Lemma u32_range x : 0 <= u32 x < 2 ^ 32.
Proof. apply Z.mod_pos_bound. reflexivity. Qed.

Lemma remove_in (l : list Z) a x : In x (List.remove Z.eq_dec a l) <-> In x l /\ x <> a.
Proof. split; [apply in_remove|intros [H N]; apply in_in_remove; auto]. Qed.
Lemma remove_nodup (l : list Z) a : NoDup l -> NoDup (List.remove Z.eq_dec a l).
Proof.
  induction 1; cbn; [constructor|]. destruct (Z.eq_dec a x) as [E|N]; [exact IHNoDup|].
  constructor; [rewrite remove_in; tauto|exact IHNoDup].
Qed.
Lemma remove_perm (l : list Z) a : NoDup l -> In a l -> Permutation l (a :: List.remove Z.eq_dec a l).
Proof.
  induction 1 as [|x l Hx Hl IH]; [intros []|]. intros [->|Hin]; cbn.
  - destruct (Z.eq_dec a a) as [_|N]; [|congruence]. rewrite notin_remove by exact Hx. reflexivity.
  - destruct (Z.eq_dec a x) as [->|N]; [tauto|]. etransitivity; [apply perm_skip, IH, Hin|apply perm_swap].
Qed.

(** Item sizes. *)
Lemma item_size_spec sz : 0 <= sz <= 2 ^ 32 - 8 -> 8 <= item_size sz < 2 ^ 32 /\ item_size sz mod 8 = 0 /\ sz <= item_size sz < Z.max sz 8 + 8.
Proof.
  intro H. unfold item_size. change (2 ^ 32) with 4294967296 in *. rewrite (u32_small (Z.max sz 8)) by (change (2 ^ 32) with 4294967296; lia).
  pose proof (Z.mod_pos_bound (Z.max sz 8) 8 ltac:(lia)). pose proof (Z.div_mod (Z.max sz 8) 8 ltac:(lia)) as D.
  set (m := Z.max sz 8 mod 8) in *. set (q := Z.max sz 8 / 8) in *.
  destruct (Z.ltb_spec 0 m) as [L|L].
  - assert (E : Z.max sz 8 - m + 8 = (q + 1) * 8) by lia. rewrite E.
    rewrite u32_small by (change (2 ^ 32) with 4294967296; lia). rewrite Z.mod_mul by lia. lia.
  - repeat split; lia.
Qed.

(** The free list: the blocks [fl], first to be handed out first. *)
Fixpoint chain (size : Z) (mem : Z -> Z) (head : Z) (fl : list Z) : Prop :=
  match fl with
  | [] => True
  | i :: t => head = i /\ chain size mem (mem (i * size)) t
  end.
Lemma chain_ext size mem mem' fl : forall head, (forall i, In i fl -> mem (i * size) = mem' (i * size)) -> chain size mem head fl -> chain size mem' head fl.
Proof.
  induction fl as [|i t IH]; intros head E; [trivial|]. cbn. intros [-> C]. split; [reflexivity|].
  rewrite <- E by (left; reflexivity). apply IH; [|exact C]. intros j Hj. apply E. right. exact Hj.
Qed.

Record good (h : list act) (p : pool) (fl lv : list Z) : Prop := {
  g_size : 8 <= p_size p /\ p_size p mod 8 = 0;
  g_num : 0 <= p_num p < 2 ^ 32;
  g_fit : p_size p * p_num p < 2 ^ 32;
  g_bytes : p_bytes p = p_size p * p_num p;
  g_avail : p_avail p = Z.of_nat (length fl);
  g_chain : chain (p_size p) (p_mem p) (p_head p) fl;
  g_use : in_use h = map (fun i => i * p_size p) lv;
  g_all : Permutation (map Z.of_nat (seq 0 (Z.to_nat (p_num p)))) (fl ++ lv);
  g_mem : forall a o, In a (in_use h) -> a <= o < a + p_size p -> o mod 4 = 0 -> p_mem p o = stored (p_size p) h o }.

Section Good.
Context {h : list act} {p : pool} {fl lv : list Z} (G : good h p fl lv).
Lemma good_nodup : NoDup (fl ++ lv).
Proof.
  eapply Permutation_NoDup; [apply (g_all _ _ _ _ G)|]. apply FinFun.Injective_map_NoDup; [intros a b; apply Nat2Z.inj|apply seq_NoDup].
Qed.
Lemma good_in i : In i (fl ++ lv) <-> 0 <= i < p_num p.
Proof.
  pose proof (g_num _ _ _ _ G). split.
  - intro H1. apply (Permutation_in _ (Permutation_sym (g_all _ _ _ _ G))) in H1. rewrite in_map_iff in H1. destruct H1 as (k & <- & H1).
    rewrite in_seq in H1. lia.
  - intro H1. apply (Permutation_in _ (g_all _ _ _ _ G)). rewrite in_map_iff. exists (Z.to_nat i). rewrite in_seq. lia.
Qed.
Lemma good_len : Z.of_nat (length fl) + Z.of_nat (length lv) = p_num p.
Proof.
  pose proof (Permutation_length (g_all _ _ _ _ G)) as L. rewrite map_length, seq_length, app_length in L. pose proof (g_num _ _ _ _ G). lia.
Qed.
Lemma good_block i : 0 <= i < p_num p -> 0 <= i * p_size p /\ i * p_size p + p_size p <= p_bytes p.
Proof. pose proof (g_size _ _ _ _ G). rewrite (g_bytes _ _ _ _ G). nia. Qed.
Lemma good_byte : 0 <= p_bytes p < 2 ^ 32.
Proof. pose proof (g_fit _ _ _ _ G). pose proof (g_num _ _ _ _ G). pose proof (g_size _ _ _ _ G). rewrite (g_bytes _ _ _ _ G). nia. Qed.
Lemma good_bytes : u32 (p_size p * p_num p) = p_bytes p.
Proof. rewrite (g_bytes _ _ _ _ G). apply u32_small. pose proof (g_fit _ _ _ _ G). pose proof (g_num _ _ _ _ G). pose proof (g_size _ _ _ _ G). nia. Qed.
Lemma good_use a : In a (in_use h) <-> exists i, In i lv /\ a = i * p_size p.
Proof.
  rewrite (g_use _ _ _ _ G), in_map_iff. split; intros (i & A & B); exists i; auto.
Qed.
(** Different blocks do not overlap. *)
Lemma apart i j o : i * p_size p <= o < i * p_size p + p_size p -> j * p_size p <= o < j * p_size p + p_size p -> i = j.
Proof. pose proof (g_size _ _ _ _ G). nia. Qed.
Lemma mul4 i : (i * p_size p) mod 4 = 0.
Proof.
  pose proof (g_size _ _ _ _ G) as [_ S8]. apply Z.mod_divide; [lia|]. apply Z.divide_mul_r.
  apply Z.divide_trans with 8; [exists 2; reflexivity|]. apply Z.mod_divide; [lia|exact S8].
Qed.
(** A whole word of a block. *)
Lemma aligned_end i o : i * p_size p <= o < i * p_size p + p_size p -> o mod 4 = 0 -> o + 4 <= i * p_size p + p_size p.
Proof.
  intros H M. pose proof (mul4 (i + 1)) as M'. rewrite Z.mul_add_distr_r, Z.mul_1_l in M'.
  apply Z.mod_divide in M; [|lia]. apply Z.mod_divide in M'; [|lia]. destruct M as (x & ->), M' as (y & E). lia.
Qed.
End Good.

(** The constructor. *)
Lemma init_loop_spec bytes size : 8 <= size -> forall n i mem, 0 <= i -> (i + Z.of_nat n) * size <= bytes -> bytes < 2 ^ 32 ->
  exists mem', init_loop n bytes size i (i * size) mem = Ok mem' /\
    (forall j, i <= j < i + Z.of_nat n -> mem' (j * size) = j + 1) /\ (forall o, o < i * size -> mem' o = mem o).
Proof.
  intro Hs. induction n as [|n IH]; intros i mem Hi Hb Hm; cbn [init_loop].
  - exists mem. split; [reflexivity|]. split; [intros; lia|reflexivity].
  - unfold store. destruct (Z.leb_spec 0 (i * size)) as [_|N]; [|nia]. destruct (Z.leb_spec (i * size + 4) bytes) as [_|N]; [|nia].
    cbn [andb bind]. replace (i * size + size) with ((i + 1) * size) by ring.
    destruct (IH (i + 1) (fun o => if o =? i * size then u32 (i + 1) else mem o)) as (mem' & E & A & B); [lia|nia|lia|].
    exists mem'. split; [exact E|]. split.
    + intros j Hj. destruct (Z.eq_dec j i) as [->|N]; [|apply A; lia].
      rewrite B by nia. rewrite Z.eqb_refl. apply u32_small. nia.
    + intros o Ho. rewrite B by nia. destruct (Z.eqb_spec o (i * size)) as [N|_]; [lia|reflexivity].
Qed.

Lemma chain_seq size mem : forall n i, (forall j, i <= j < i + Z.of_nat n -> mem (j * size) = j + 1) ->
  chain size mem i (map (fun k => i + Z.of_nat k) (seq 0 n)).
Proof.
  induction n as [|n IH]; intros i H; [exact Logic.I|]. cbn [seq map chain]. replace (i + Z.of_nat 0) with i by lia. split; [reflexivity|].
  rewrite H by lia. specialize (IH (i + 1)). rewrite <- seq_shift, map_map.
  erewrite map_ext; [apply IH; intros; apply H; lia|]. intro k. cbn. lia.
Qed.

Lemma new_good g n sz : 0 <= n < 2 ^ 32 -> 0 <= sz <= 2 ^ 32 - 8 -> item_size sz * n < 2 ^ 32 ->
  exists p, pool_new g n sz = Ok p /\ p_num p = n /\ p_size p = item_size sz /\ good [] p (map Z.of_nat (seq 0 (Z.to_nat n))) [].
Proof.
  intros Hn Hsz Hfit. destruct (item_size_spec sz Hsz) as (S1 & S2 & S3). unfold pool_new. rewrite (u32_small n) by exact Hn. cbv zeta.
  rewrite (u32_small (item_size sz * n)) by nia.
  destruct (init_loop_spec (item_size sz * n) (item_size sz) ltac:(lia) (Z.to_nat n) 0 g) as (mem & E & A & _); [lia|rewrite Z2Nat.id; lia|lia|].
  change (0 * item_size sz) with 0 in E. rewrite E. cbn [bind]. eexists. split; [reflexivity|]. split; [reflexivity|]. split; [reflexivity|].
  constructor; cbn [p_num p_size p_bytes p_mem p_head p_avail in_use map].
  - lia.
  - lia.
  - lia.
  - reflexivity.
  - rewrite map_length, seq_length. lia.
  - change (map Z.of_nat (seq 0 (Z.to_nat n))) with (map (fun k => 0 + Z.of_nat k) (seq 0 (Z.to_nat n))). apply chain_seq. exact A.
  - reflexivity.
  - rewrite app_nil_r. reflexivity.
  - intros a o [].
Qed.

(** Allocate. *)
Lemma alloc_spec h p fl lv : good h p fl lv ->
  match fl with
  | [] => allocate p = Ok (None, p)
  | i :: t => exists p', allocate p = Ok (Some (i * p_size p), p') /\ p_num p' = p_num p /\ p_size p' = p_size p /\ p_bytes p' = p_bytes p /\
                good (AAlloc (Some (i * p_size p)) :: h) p' t (i :: lv)
  end.
Proof.
  intro G. pose proof (g_avail _ _ _ _ G) as Av. unfold allocate. destruct fl as [|i t].
  - rewrite Av. reflexivity.
  - rewrite Av. cbn [length]. destruct (Z.eqb_spec (Z.of_nat (S (length t))) 0) as [N|_]; [lia|].
    destruct (g_chain _ _ _ _ G) as [Hh Hc]. pose proof (proj1 (good_in G i) (or_introl eq_refl)) as Hi. rewrite Hh. cbv zeta.
    destruct (good_block G i Hi) as (B0 & B1). pose proof (good_byte G).
    pose proof (g_size _ _ _ _ G) as [S8 _]. rewrite (u32_small (i * p_size p)) by lia.
    destruct (Z.leb_spec (i * p_size p + p_size p) (p_bytes p)) as [_|N]; [|lia].
    eexists. split; [reflexivity|]. cbn [p_num p_size p_bytes]. split; [reflexivity|]. split; [reflexivity|]. split; [reflexivity|].
    pose proof (good_nodup G) as ND. cbn in ND. inversion_clear ND as [|? ? ND1 ND2].
    constructor; cbn [p_num p_size p_bytes p_mem p_head p_avail in_use map].
    + apply (g_size _ _ _ _ G).
    + apply (g_num _ _ _ _ G).
    + apply (g_fit _ _ _ _ G).
    + apply (g_bytes _ _ _ _ G).
    + lia.
    + eapply chain_ext; [|exact Hc]. intros j Hj. destruct (Z.leb_spec (i * p_size p) (j * p_size p)) as [L|L]; [|reflexivity].
      destruct (Z.ltb_spec (j * p_size p) (i * p_size p + p_size p)) as [L'|L']; [|reflexivity].
      exfalso. apply ND1. apply in_or_app. left. replace i with j; [exact Hj|]. apply (apart G j i (j * p_size p)); lia.
    + f_equal. apply (g_use _ _ _ _ G).
    + etransitivity; [apply (g_all _ _ _ _ G)|]. cbn. apply Permutation_middle.
    + intros a o [<-|Ha] Ho M; cbn [stored].
      * destruct (Z.leb_spec (i * p_size p) o) as [_|N]; [|lia]. destruct (Z.ltb_spec o (i * p_size p + p_size p)) as [_|N]; [|lia]. reflexivity.
      * destruct ((i * p_size p <=? o) && (o <? i * p_size p + p_size p)); [reflexivity|]. apply (g_mem _ _ _ _ G _ _ Ha Ho M).
Qed.

(** Deallocate. *)
Lemma free_spec h p fl lv ptr : good h p fl lv -> In ptr (in_use h) ->
  exists p' i, deallocate ptr p = Ok (true, p') /\ p_num p' = p_num p /\ p_size p' = p_size p /\ p_bytes p' = p_bytes p /\ ptr = i * p_size p /\
    good (AFree ptr :: h) p' (i :: fl) (List.remove Z.eq_dec i lv).
Proof.
  intros G Hin. rewrite (good_use G) in Hin. destruct Hin as (i & Hi & ->). pose proof (proj1 (good_in G i) (in_or_app _ _ _ (or_intror Hi))) as Ri.
  destruct (good_block G i Ri) as (B0 & B1). pose proof (good_byte G). pose proof (g_size _ _ _ _ G) as [S8 _].
  unfold deallocate. rewrite (good_bytes G).
  destruct (Z.ltb_spec (i * p_size p) 0) as [N|_]; [lia|]. destruct (Z.ltb_spec (p_bytes p) (i * p_size p)) as [N|_]; [lia|]. cbn [orb].
  pose proof (good_len G) as GL. assert (L : (1 <= length lv)%nat) by (destruct lv; [destruct Hi|cbn; lia]).
  rewrite (g_avail _ _ _ _ G). destruct (Z.leb_spec (p_num p) (Z.of_nat (length fl))) as [N|_]; [lia|].
  unfold store. destruct (Z.leb_spec 0 (i * p_size p)) as [_|N]; [|lia]. destruct (Z.leb_spec (i * p_size p + 4) (p_bytes p)) as [_|N]; [|lia].
  cbn [andb bind]. eexists. exists i. split; [reflexivity|]. cbn [p_num p_size p_bytes]. do 4 (split; [reflexivity|]).
  pose proof (good_nodup G) as ND. pose proof (g_num _ _ _ _ G).
  assert (Hd : NoDup lv) by (clear -ND; induction fl as [|x l IH]; [exact ND|inversion_clear ND; auto]).
  constructor; cbn [p_num p_size p_bytes p_mem p_head p_avail in_use map].
  - apply (g_size _ _ _ _ G).
  - apply (g_num _ _ _ _ G).
  - apply (g_fit _ _ _ _ G).
  - apply (g_bytes _ _ _ _ G).
  - rewrite u32_small by lia. cbn [length]. lia.
  - rewrite Z.div_mul by lia. cbn [chain]. cbv beta. rewrite Z.eqb_refl. split; [apply u32_small; lia|].
    eapply chain_ext; [|apply (g_chain _ _ _ _ G)]. intros j Hj. cbn beta.
    destruct (Z.eqb_spec (j * p_size p) (i * p_size p)) as [E|_]; [|reflexivity].
    exfalso. assert (j = i) by nia. subst j. clear -ND Hj Hi. apply in_split in Hi. destruct Hi as (a & b & ->).
    rewrite app_assoc in ND. apply NoDup_remove_2 in ND. apply ND. apply in_or_app. left. apply in_or_app. left. exact Hj.
  - rewrite (g_use _ _ _ _ G). clear -S8. induction lv as [|x l IH]; [reflexivity|]. cbn [map List.remove].
    destruct (Z.eq_dec (i * p_size p) (x * p_size p)) as [E|E], (Z.eq_dec i x) as [E'|E']; cbn [map]; try (rewrite IH); try reflexivity; [nia|congruence].
  - etransitivity; [apply (g_all _ _ _ _ G)|]. cbn. rewrite (remove_perm lv i Hd Hi) at 1. symmetry. apply Permutation_middle.
  - intros a o Ha Ho M. cbn [stored]. apply remove_in in Ha. destruct Ha as [Ha Na].
    destruct (Z.eqb_spec o (i * p_size p)) as [->|N].
    + exfalso. apply Na. rewrite (good_use G) in Ha. destruct Ha as (j & _ & ->). rewrite (apart G j i (i * p_size p)); lia.
    + apply (g_mem _ _ _ _ G _ _ Ha Ho M).
Qed.

Lemma other_spec h p fl lv ptr : good h p fl lv -> ptr < 0 \/ p_bytes p < ptr -> deallocate ptr p = Ok (false, p).
Proof.
  intros G H. unfold deallocate. rewrite (good_bytes G).
  destruct (Z.ltb_spec ptr 0) as [N|N]; [reflexivity|]. destruct (Z.ltb_spec (p_bytes p) ptr) as [N'|N']; [reflexivity|lia].
Qed.

Lemma store_spec h p fl lv a off v : good h p fl lv -> In a (in_use h) -> a <= off -> off + 4 <= a + p_size p -> off mod 4 = 0 ->
  exists p', user_store off v p = Ok p' /\ p_num p' = p_num p /\ p_size p' = p_size p /\ p_bytes p' = p_bytes p /\ good (AStore off v :: h) p' fl lv.
Proof.
  intros G Ha L1 L2 M. pose proof Ha as Ha'. rewrite (good_use G) in Ha'. destruct Ha' as (i & Hi & ->).
  pose proof (proj1 (good_in G i) (in_or_app _ _ _ (or_intror Hi))) as Ri. destruct (good_block G i Ri) as (B0 & B1).
  pose proof (g_size _ _ _ _ G) as [S8 _].
  unfold user_store, store. destruct (Z.leb_spec 0 off) as [_|N]; [|lia]. destruct (Z.leb_spec (off + 4) (p_bytes p)) as [_|N]; [|lia].
  cbn [andb bind]. eexists. split; [reflexivity|]. cbn [p_num p_size p_bytes]. do 3 (split; [reflexivity|]). pose proof (good_nodup G) as ND.
  constructor; cbn [p_num p_size p_bytes p_mem p_head p_avail in_use map]; try apply G.
  - eapply chain_ext; [|apply (g_chain _ _ _ _ G)]. intros j Hj. cbn beta.
    destruct (Z.eqb_spec (j * p_size p) off) as [E|_]; [|reflexivity]. exfalso.
    assert (j = i) by (apply (apart G j i off); lia). subst j. apply in_split in Hi. destruct Hi as (x & y & ->).
    rewrite app_assoc in ND. apply NoDup_remove_2 in ND. apply ND. apply in_or_app. left. apply in_or_app. left. exact Hj.
  - intros b o Hb Ho Mo. cbn [stored]. destruct (Z.eqb_spec o off) as [->|N]; [reflexivity|]. apply (g_mem _ _ _ _ G _ _ Hb Ho Mo).
Qed.

(** Histories. *)
Lemma run_good g n sz p0 h p : 0 <= n < 2 ^ 32 -> 0 <= sz <= 2 ^ 32 - 8 -> item_size sz * n < 2 ^ 32 -> pool_new g n sz = Ok p0 ->
  pool_run p0 h p -> exists fl lv, good h p fl lv /\ p_num p = n /\ p_size p = item_size sz.
Proof.
  intros Hn Hsz Hfit E R. destruct (new_good g n sz Hn Hsz Hfit) as (p1 & E1 & N1 & S1 & G1). rewrite E1 in E. injection E as <-.
  induction R as [|h p r p' R IH St|h p ptr b p' R IH Hin St|h p ptr b p' R IH Hin St|h p a off v p' R IH Hin L1 L2 M St].
  - eauto.
  - destruct IH as (fl & lv & G & N & S). pose proof (alloc_spec h p fl lv G) as A. destruct fl as [|i t].
    + rewrite A in St. injection St as <- <-. exists [], lv. split; [|auto]. destruct G. constructor; auto.
    + destruct A as (q & A & Q1 & Q2 & Q3 & Q4). rewrite A in St. injection St as <- <-. exists t, (i :: lv). split; [exact Q4|]. rewrite Q1, Q2. auto.
  - destruct IH as (fl & lv & G & N & S). destruct (free_spec h p fl lv ptr G Hin) as (q & i & A & Q1 & Q2 & Q3 & _ & Q4).
    rewrite A in St. injection St as <- <-. exists (i :: fl), (List.remove Z.eq_dec i lv). rewrite Q1, Q2. auto.
  - destruct IH as (fl & lv & G & N & S). rewrite (other_spec h p fl lv ptr G Hin) in St. injection St as <- <-. exists fl, lv. split; [|auto].
    destruct G. constructor; auto.
  - destruct IH as (fl & lv & G & N & S). destruct (store_spec h p fl lv a off v G Hin L1 L2 M) as (q & A & Q1 & Q2 & Q3 & Q4).
    rewrite A in St. injection St as <-. exists fl, lv. rewrite Q1, Q2. auto.
Qed.

(** The index allocator. *)
Lemma ialloc_inv h a : ialloc_run h a ->
  NoDup (live h) /\ fst a = peak h /\ 0 <= fst a /\ Permutation (map Z.of_nat (seq 0 (Z.to_nat (fst a)))) (snd a ++ live h) /\
  (forall i, issued h i <-> 0 <= i < fst a).
Proof.
  assert (AL : forall (c : Z) (r l : list Z), 0 <= c -> Permutation (map Z.of_nat (seq 0 (Z.to_nat c))) (r ++ l) ->
            NoDup (r ++ l) /\ (forall i, In i (r ++ l) <-> 0 <= i < c) /\ Z.of_nat (length r) + Z.of_nat (length l) = c).
  { intros c r l Hc P. split; [|split].
    - eapply Permutation_NoDup; [exact P|]. apply FinFun.Injective_map_NoDup; [intros x y; apply Nat2Z.inj|apply seq_NoDup].
    - intro i. split.
      + intro H1. apply (Permutation_in _ (Permutation_sym P)) in H1. rewrite in_map_iff in H1. destruct H1 as (k & <- & H1). rewrite in_seq in H1. lia.
      + intro H1. apply (Permutation_in _ P). rewrite in_map_iff. exists (Z.to_nat i). rewrite in_seq. lia.
    - pose proof (Permutation_length P) as L. rewrite map_length, seq_length, app_length in L. lia. }
  induction 1 as [|h a i a' R IH St|h a i R IH Hin].
  - cbn. split; [constructor|]. split; [reflexivity|]. split; [lia|]. split; [constructor|]. intro i. unfold issued. cbn. lia.
  - destruct IH as (ND & Pk & P0 & Pm & Is). destruct (AL _ _ _ P0 Pm) as (N2 & I2 & L2). destruct a as [c r]. cbn [fst snd] in *.
    unfold next in St. cbn [fst snd] in St. destruct r as [|j r].
    + injection St as <- <-. cbn [fst snd live peak]. cbn [app length] in *.
      split; [constructor; [rewrite I2; lia|exact ND]|]. split; [rewrite <- Pk; cbn [live length]; lia|]. split; [lia|]. split.
      * replace (Z.to_nat (c + 1)) with (S (Z.to_nat c)) by lia. rewrite seq_S, map_app. cbn [map]. rewrite Nat.add_0_l, Z2Nat.id by lia.
        rewrite Pm. symmetry. apply Permutation_cons_append.
      * intro k. unfold issued in *. cbn [In]. rewrite Is. split; [intros [E|H1]; [injection E as ->|]; lia|]. intro H1.
        destruct (Z.eq_dec k c) as [->|N]; [left; reflexivity|right; lia].
    + injection St as <- <-. cbn [fst snd live peak]. cbn [app length] in *. inversion_clear N2 as [|? ? N3 N4].
      split; [constructor; [intro K; apply N3; apply in_or_app; right; exact K|exact ND]|]. split; [rewrite <- Pk; cbn [live length]; lia|].
      split; [lia|]. split; [etransitivity; [exact Pm|]; apply Permutation_middle|].
      intro k. unfold issued in *. cbn [In]. rewrite Is. split; [|auto]. intros [E|H1]; [|exact H1]. injection E as ->. apply I2. left. reflexivity.
  - destruct IH as (ND & Pk & P0 & Pm & Is). destruct (AL _ _ _ P0 Pm) as (N2 & I2 & L2). destruct a as [c r]. cbn [fst snd free live peak] in *.
    pose proof (remove_perm _ _ ND Hin) as Rp.
    split; [apply remove_nodup, ND|]. split; [pose proof (Permutation_length Rp) as L; cbn [length] in L; lia|]. split; [exact P0|]. split.
    + etransitivity; [exact Pm|]. rewrite Rp at 1. symmetry. apply Permutation_middle.
    + intro k. unfold issued in *. cbn [In]. rewrite Is. split; [intros [E|H1]; [discriminate|exact H1]|auto].
Qed.
