(** The four variables. *)
From Coq Require Import List ZArith Bool Lia Arith Permutation.
From Verif.Lib Require Import Count.
From Verif.Tvar Require Import Model Spec ProofsWord Proofs ProofsRead.
Import ListNotations.
Open Scope Z_scope.

Definition good {R} (k : kind R) (f : list Z -> R) (b : bool) : Prop :=
  cas k = b /\ exists rep : Z -> list Z -> Prop,
    rep (b_id k) [] /\ f [] = r_id k /\
    (forall l w g, rep w g -> merge k (f l) w = f (l ++ g)) /\
    (forall n g v n', rep n g -> plan k n v = Some n' -> rep n' (g ++ [v])) /\
    (forall n v, plan k n v = None -> b_id k = 0 /\ forall w, plan k 0 w <> None).

Lemma op_max_max a b : op_max a b = Z.max a b.
Proof. unfold op_max. destruct (Z.ltb_spec a b); lia. Qed.
Lemma op_min_min a b : op_min a b = Z.min a b.
Proof. unfold op_min. destruct (Z.ltb_spec b a); lia. Qed.

Lemma largest_le l : forall i, i <= largest i l.
Proof. unfold largest. induction l as [|x l IH]; intros i; cbn [fold_left]; [lia|]. specialize (IH (Z.max i x)). lia. Qed.
Lemma largest_max l : forall i j, largest (Z.max i j) l = Z.max i (largest j l).
Proof. unfold largest. induction l as [|x l IH]; intros i j; cbn [fold_left]; [lia|]. rewrite <- Z.max_assoc. apply IH. Qed.
Lemma largest_app i l m : Z.max (largest i l) (largest i m) = largest i (l ++ m).
Proof.
  unfold largest at 3. rewrite fold_left_app. change (fold_left Z.max l i) with (largest i l). change (fold_left Z.max m (largest i l)) with (largest (largest i l) m).
  rewrite <- largest_max. rewrite Z.max_l by apply largest_le. reflexivity.
Qed.
Lemma least_le l : forall i, least i l <= i.
Proof. unfold least. induction l as [|x l IH]; intros i; cbn [fold_left]; [lia|]. specialize (IH (Z.min i x)). lia. Qed.
Lemma least_min l : forall i j, least (Z.min i j) l = Z.min i (least j l).
Proof. unfold least. induction l as [|x l IH]; intros i j; cbn [fold_left]; [lia|]. rewrite <- Z.min_assoc. apply IH. Qed.
Lemma least_app i l m : Z.min (least i l) (least i m) = least i (l ++ m).
Proof.
  unfold least at 3. rewrite fold_left_app. change (fold_left Z.min l i) with (least i l). change (fold_left Z.min m (least i l)) with (least (least i l) m).
  rewrite <- least_min. rewrite Z.min_l by apply least_le. reflexivity.
Qed.
Lemma count_app l m : (count_of l + count_of m) mod two64 = count_of (l ++ m).
Proof. unfold count_of, two64. rewrite sum_app. change (2 ^ 64) with 18446744073709551616. rewrite <- Z.add_mod by lia. reflexivity. Qed.
Lemma count_snoc l v : (count_of l + v) mod two64 = count_of (l ++ [v]).
Proof.
  unfold count_of, two64. rewrite sum_app. change (2 ^ 64) with 18446744073709551616. rewrite Z.add_mod_idemp_l by lia.
  change (sum [v]) with (v + 0). rewrite Z.add_0_r. reflexivity.
Qed.

Lemma shows_good {R} (k : kind R) f b : shows k f b -> good k f b.
Proof.
  intros H. destruct H as [|i|i|].
  - split; [reflexivity|]. exists (fun w g => w = count_of g). split; [reflexivity|]; split; [reflexivity|]; cbn [counter b_id r_id merge plan]; split; [|split].
    + intros l w g ->. apply count_app.
    + intros n g v n' -> [= <-]. apply count_snoc.
    + discriminate.
  - split; [reflexivity|]. exists (fun w g => w = largest i g). split; [reflexivity|]; split; [reflexivity|]; cbn [maxer b_id r_id merge plan]; split; [|split].
    + intros l w g ->. rewrite op_max_max. apply largest_app.
    + intros n g v n' -> [= <-]. rewrite op_max_max. unfold largest. rewrite fold_left_app. reflexivity.
    + discriminate.
  - split; [reflexivity|]. exists (fun w g => w = least i g). split; [reflexivity|]; split; [reflexivity|]; cbn [miner b_id r_id merge plan]; split; [|split].
    + intros l w g ->. rewrite op_min_min. apply least_app.
    + intros n g v n' -> [= <-]. rewrite op_min_min. unfold least. rewrite fold_left_app. reflexivity.
    + discriminate.
  - split; [reflexivity|]. exists rep_rec. split; [exact rep_rec_nil|]. split; [reflexivity|]. split; [exact merge_rec|].
    split; [exact plan_rec|]. intros n v _. split; [reflexivity|exact plan_rec_0].
Qed.

Section Good.
Context {R : Type} (k : kind R) (f : list Z -> R) (b : bool).
Hypothesis HG : shows k f b.

Lemma value_right l s rs : (b = true \/ existsb begins_reset l = false) -> run k l (init k) = Some (s, rs) ->
  Forall (fun x => value x = f (values x)) rs.
Proof.
  intros HB H. destruct (shows_good _ _ _ HG) as (<- & rep & A1 & A2 & A3 & A4 & A5).
  eapply (run_inv R k f rep A1 A2 A3 A4 A5); [eapply inv_init; eassumption|exact HB|exact H].
Qed.

Lemma cnt_count p l : cnt (Z.eqb p) l = count_occ Z.eq_dec l p.
Proof.
  induction l as [|x l IH]; cbn [cnt count_occ]; [reflexivity|]. rewrite IH. destruct (Z.eq_dec x p), (Z.eqb_spec p x); cbn [b2n]; lia.
Qed.
Lemma cnt_perm (l m : list Z) : (forall p, cnt p l = cnt p m) -> Permutation l m.
Proof. intros H. apply (Permutation_count_occ Z.eq_dec). intros x. rewrite <- !cnt_count. apply H. Qed.

Lemma all_once l s rs : run k l (init k) = Some (s, rs) -> Permutation (fin s) (given rs ++ pending s).
Proof.
  intros H. apply cnt_perm. intros p. rewrite cnt_app. destruct (shows_good _ _ _ HG) as (_ & rep & A1 & A2 & A3 & A4 & A5). pose proof (run_once R k f rep A3 A4 A5 l p _ _ _ H) as Q. cbn [fin init cnt pending rdr chel ths map concat app] in Q. lia.
Qed.

Lemma reads_between l s rs mid s' x : (b = true \/ existsb begins_reset l = false) -> run k l (init k) = Some (s, rs) -> rdr s = None ->
  existsb returns mid = false -> (b = true \/ existsb begins_reset mid = false) ->
  run k (ABegin false :: mid ++ [AReturn]) s = Some (s', [x]) ->
  value x = f (values x) /\ forall p, (cnt p (pending s) <= cnt p (values x) + cnt p (leaving s') /\ cnt p (values x) <= cnt p (pending s'))%nat.
Proof.
  intros HB H RD NR HB2 H2. destruct (shows_good _ _ _ HG) as (<- & rep & A1 & A2 & A3 & A4 & A5).
  destruct (run_inv R k f rep A1 A2 A3 A4 A5 l _ _ _ (inv_init R k f rep A2) HB H) as (Iv & _).
  destruct (read_bounds R k f rep A1 A2 A3 A4 A5 s mid s' [x] Iv RD NR HB2 H2) as (y & [= <-] & _ & E & B). auto.
Qed.

Lemma alone_all l s rs reset : (b = true \/ existsb begins_reset l = false) -> (reset = true -> b = true) -> run k l (init k) = Some (s, rs) -> rdr s = None ->
  exists s' x, run k (alone reset s) s = Some (s', [x]) /\ was_reset x = reset /\ value x = f (values x) /\
    Permutation (values x ++ leaving s) (pending s).
Proof.
  intros HB HR H RD. destruct (shows_good _ _ _ HG) as (<- & rep & A1 & A2 & A3 & A4 & A5).
  destruct (run_inv R k f rep A1 A2 A3 A4 A5 l _ _ _ (inv_init R k f rep A2) HB H) as (Iv & _).
  destruct (run_alone R k f rep A1 A2 A3 A4 A5 s reset Iv RD HR) as (s' & x & E & W & V & _ & C).
  exists s', x. split; [exact E|]. split; [exact W|]. split; [exact V|]. apply cnt_perm. intros p. rewrite cnt_app. apply C.
Qed.

Lemma update_ends l s rs i v : (b = true \/ existsb begins_reset l = false) -> run k l (init k) = Some (s, rs) -> rdr s = None -> updates i v s ->
  exists n s', (n <= 4)%nat /\ run k (repeat (AStep i) n) s = Some (s', []) /\ fin s' = fin s ++ [v] /\ ~ updating i s'.
Proof.
  intros HB H RD (t & N & P). destruct (shows_good _ _ _ HG) as (<- & rep & A1 & A2 & A3 & A4 & A5).
  destruct (run_inv R k f rep A1 A2 A3 A4 A5 l _ _ _ (inv_init R k f rep A2) HB H) as (Iv & _).
  exact (update_finishes R k f rep A3 A4 A5 i s t Iv N RD v P).
Qed.
End Good.

(** Every call of Update() ends up in [fin] once. *)
Lemma adding_put p ts i t t' : nth_error ts i = Some t ->
  (cnt p (concat (map adding (put i t' ts))) + cnt p (adding t) = cnt p (concat (map adding ts)) + cnt p (adding t'))%nat.
Proof.
  intros H. destruct (put_split _ _ _ H) as (l1 & l2 & E & _ & P). rewrite P, E, !map_app, !concat_app. cbn [map concat]. rewrite !cnt_app. lia.
Qed.

Section Calls.
Context {R : Type} (k : kind R).
Lemma update_calls p i t (s s' : st R) : nth_error (ths s) i = Some t -> update k i t s = Some s' ->
  (cnt p (fin s') + cnt p (running s') = cnt p (fin s) + cnt p (running s))%nat.
Proof.
  intros N U. unfold running.
  assert (Q : forall t', (cnt p (concat (map adding (put i t' (ths s)))) + cnt p (adding t) = cnt p (concat (map adding (ths s))) + cnt p (adding t'))%nat)
    by (intros t'; apply adding_put; exact N).
  unfold update in U. unfold adding at 2 in Q. unfold adding at 3 in Q. destruct (pc t) as [|v|v n|v] eqn:P; [discriminate|..].
  - injection U as <-. cbn [fin ths with_th with_ths]. specialize (Q (goto (Loaded v (buf t)) t)). cbn [pc goto] in Q. lia.
  - destruct (plan k n v) as [n'|].
    + destruct (negb (cas k) || (buf t =? n)).
      * injection U as <-. cbn [fin ths with_th with_ths with_fin]. specialize (Q (hold n' (held t ++ [v]) (goto Idle t))). cbn [pc goto hold] in Q.
        rewrite cnt_app. change (cnt p []) with 0%nat in Q. lia.
      * injection U as <-. cbn [fin ths with_th with_ths]. specialize (Q (goto (Loaded v (buf t)) t)). cbn [pc goto] in Q. lia.
    + injection U as <-. cbn [fin ths with_th with_ths]. specialize (Q (goto (Commit v) t)). cbn [pc goto] in Q. lia.
  - destruct (rdr s); [discriminate|]. injection U as <-. cbn [fin ths with_th with_ths with_comb]. specialize (Q (hold (b_id k) [] (goto (Loaded v 0) t))).
    cbn [pc goto hold] in Q. lia.
Qed.
Lemma keep_running p (s : st R) i t t' : nth_error (ths s) i = Some t -> pc t' = pc t ->
  cnt p (concat (map adding (put i t' (ths s)))) = cnt p (concat (map adding (ths s))).
Proof. intros N P. pose proof (adding_put p (ths s) i t t' N) as Q. unfold adding in Q at 2. unfold adding in Q at 3. rewrite P in Q. lia. Qed.

Lemma step_calls p a (s s' : st R) o : step k a s = Some (s', o) ->
  (cnt p (fin s') + cnt p (running s') = cnt p (fin s) + cnt p (running s) + cnt p (called [a]))%nat.
Proof.
  intros H. destruct a as [|i v|i|i|i|b| | |]; cbn [step called map concat app] in *; try change (cnt p []) with 0%nat.
  - destruct (visiting s); [discriminate|]. injection H as <- <-. unfold running. cbn [fin ths with_ths]. rewrite map_app, concat_app. cbn [map concat adding pc]. rewrite cnt_app. cbn [app cnt]. lia.
  - destruct (nth_error (ths s) i) as [t|] eqn:N; [|discriminate]. destruct (pc t) eqn:P; try discriminate. destruct (alive t); try discriminate. injection H as <- <-.
    unfold running. cbn [fin ths with_th with_ths]. pose proof (adding_put p (ths s) i t (goto (Start v) t) N) as Q. unfold adding in Q at 2. unfold adding in Q at 3.
    rewrite P in Q. cbn [pc goto] in Q. change (cnt p []) with 0%nat in Q. lia.
  - destruct (nth_error (ths s) i) as [t|] eqn:N; [|discriminate]. destruct (update k i t s) as [s1|] eqn:U; [|discriminate]. injection H as <- <-.
    pose proof (update_calls p i t s s1 N U). lia.
  - destruct (nth_error (ths s) i) as [t|] eqn:N; [|discriminate]. destruct (pc t) eqn:P; try discriminate. destruct (alive t); try discriminate. destruct (visiting s); [discriminate|].
    injection H as <- <-. unfold running. cbn [fin ths with_th with_ths]. rewrite (keep_running p s i t (become Leaving t) N eq_refl). lia.
  - destruct (nth_error (ths s) i) as [t|] eqn:N; [|discriminate]. destruct (alive t), (rdr s); try discriminate. injection H as <- <-. unfold running.
    cbn [fin ths with_th with_ths with_comb]. rewrite (keep_running p s i t _ N); [lia|reflexivity].
  - destruct (rdr s); [discriminate|]. injection H as <- <-. unfold running. destruct b; cbn [fin ths with_rdr with_comb]; lia.
  - destruct (rdr s) as [r|]; [|discriminate]. destruct (todo r); [discriminate|]. injection H as <- <-. unfold running. cbn [fin ths with_rdr]. lia.
  - destruct (rdr s) as [r|]; [|discriminate]. destruct (todo r) as [[|i l]|]; try discriminate. destruct (nth_error (ths s) i) as [t|] eqn:N; [|discriminate].
    injection H as <- <-. unfold running. cbn [fin ths with_rdr]. destruct (resets r); cbn [fin ths with_rdr with_th with_ths]; [|lia]. rewrite (keep_running p s i t _ N); [lia|reflexivity].
  - destruct (rdr s) as [r|]; [|discriminate]. destruct (todo r) as [[|i l]|]; try discriminate. injection H as <- <-. unfold running. cbn [fin ths with_rdr]. lia.
Qed.
Lemma run_calls p l : forall (s s' : st R) rs, run k l s = Some (s', rs) ->
  (cnt p (fin s') + cnt p (running s') = cnt p (fin s) + cnt p (running s) + cnt p (called l))%nat.
Proof.
  induction l as [|a l IH]; intros s s' rs H; cbn [run] in H.
  - injection H as <- <-. cbn. lia.
  - destruct (step k a s) as [[s1 o]|] eqn:S1; [|discriminate]. destruct (run k l s1) as [[s2 rs2]|] eqn:R2; [|discriminate]. injection H as <- _.
    pose proof (step_calls p a s s1 o S1). pose proof (IH _ _ _ R2). change (a :: l) with ([a] ++ l). unfold called in *. rewrite map_app, concat_app, cnt_app. lia.
Qed.
Lemma calls_end l s rs : run k l (init k) = Some (s, rs) -> Permutation (called l) (fin s ++ running s).
Proof. intros H. apply cnt_perm. intros p. rewrite cnt_app. pose proof (run_calls p l _ _ _ H) as Q. cbn in Q. lia. Qed.
End Calls.

Lemma concat_none {A B} (g : A -> list B) l : (forall x, In x l -> g x = []) -> concat (map g l) = [].
Proof.
  induction l as [|x l IH]; intros H; [reflexivity|]. cbn [map concat]. rewrite (H x (or_introl eq_refl)), IH; [reflexivity|]. intros y Y. apply H. right. exact Y.
Qed.
Lemma all_shown {R} (k : kind R) f b l s rs reset : shows k f b -> (b = true \/ existsb begins_reset l = false) -> (reset = true -> b = true) ->
  run k l (init k) = Some (s, rs) -> quiet s ->
  exists s' x, run k (alone reset s) s = Some (s', [x]) /\ was_reset x = reset /\ value x = f (values x) /\ Permutation (called l) (given rs ++ values x).
Proof.
  intros HG HB HR H (RD & Q). destruct (alone_all k f b HG l s rs reset HB HR H RD) as (s' & x & E & W & V & P).
  exists s', x. split; [exact E|]. split; [exact W|]. split; [exact V|].
  assert (L : leaving s = []). { apply concat_none. intros t T. destruct (Q t T) as (_ & A). destruct (alive t); [reflexivity|congruence|reflexivity]. }
  assert (U : running s = []). { apply concat_none. intros t T. destruct (Q t T) as (A & _). unfold adding. rewrite A. reflexivity. }
  pose proof (calls_end k l s rs H) as C. rewrite U, app_nil_r in C. rewrite L, app_nil_r in P.
  eapply Permutation_trans; [exact C|]. eapply Permutation_trans; [exact (all_once k f b HG l s rs H)|]. apply Permutation_app_head. apply Permutation_sym. exact P.
Qed.

(** The word of IntRecorder. *)
Lemma overflow_iff x v : - 2 ^ 43 <= x < 2 ^ 43 -> - 2 ^ 31 <= v < 2 ^ 31 ->
  will_overflow x v = negb ((- 2 ^ 43 <=? x + v) && (x + v <? 2 ^ 43)).
Proof.
  intros Hx Hv. unfold will_overflow. change (Z.shiftr max_sum 1) with 8796093022207. change (2 ^ 43) with 8796093022208 in *. change (2 ^ 31) with 2147483648 in *. cbn [Z.opp] in *.
  destruct (Z.leb_spec (- 8796093022208) (x + v)) as [L1|L1].
  - destruct (Z.ltb_spec (x + v) 8796093022208) as [L2|L2]; cbn [andb negb].
    + destruct (Z.ltb_spec 8796093022207 (x + v)); [lia|]. destruct (Z.ltb_spec (x + v) (- 8796093022207 - 1)); [lia|]. rewrite !andb_false_r. reflexivity.
    + destruct (Z.ltb_spec 0 x); [|lia]. destruct (Z.ltb_spec 0 v); [|lia]. destruct (Z.ltb_spec 8796093022207 (x + v)); [|lia]. reflexivity.
  - cbn [andb negb]. destruct (Z.ltb_spec x 0); [|lia]. destruct (Z.ltb_spec v 0); [|lia]. destruct (Z.ltb_spec (x + v) (- 8796093022207 - 1)); [|lia].
    cbn [andb]. apply orb_true_r.
Qed.

Lemma plan_word c x v : 0 <= c < 2 ^ 20 -> - 2 ^ 43 <= x < 2 ^ 43 ->
  plan recorder (word c x) v =
  if (c + 1 <? 2 ^ 20) && ((- 2 ^ 43 <=? x + as_int v) && (x + as_int v <? 2 ^ 43)) then Some (word (c + 1) (x + as_int v)) else None.
Proof.
  intros Hc Hx. cbn [plan recorder]. rewrite get_sum_word, get_num_word, extend_word, clamp_int by exact Hx.
  change max_num with (2 ^ 20 - 1). rewrite overflow_iff by (auto using as_int_range).
  destruct (Z.ltb_spec (2 ^ 20 - 1) (c + 1)) as [L|L], (Z.ltb_spec (c + 1) (2 ^ 20)); try lia; cbn [orb andb]; [reflexivity|].
  destruct ((- 2 ^ 43 <=? x + as_int v) && (x + as_int v <? 2 ^ 43)); cbn [negb]; [|reflexivity].
  rewrite compress_word by lia. reflexivity.
Qed.

Lemma merge_word c x r : 0 <= c < 2 ^ 20 -> - 2 ^ 43 <= x < 2 ^ 43 -> merge recorder r (word c x) = (fst r + x, snd r + c).
Proof. intros Hc Hx. cbn [merge recorder]. rewrite get_sum_word, get_num_word, extend_word by exact Hx. reflexivity. Qed.

(** Runs. *)
Lemma counter_twice : exists l s x y, run (counter 0) l (init (counter 0)) = Some (s, [x; y]) /\
  was_reset x = true /\ was_reset y = false /\ fin s = [5; 7] /\ value x = 5 /\ value y = 12.
Proof.
  eexists ([ANew] ++ add 0 5 ++ [ACall 0 7; AStep 0] ++ read true 1 ++ [AStep 0] ++ read false 1), _, _, _.
  split; [vm_compute; reflexivity|]. repeat split.
Qed.
Lemma counter_initial : exists l s x, run (counter 10) l (init (counter 10)) = Some (s, [x]) /\ fin s = [5] /\ value x = 25.
Proof. eexists ([ANew] ++ add 0 5 ++ read false 1), _, _. split; [vm_compute; reflexivity|]. repeat split. Qed.
Lemma counter_dips : exists l s x y, run (counter 0) l (init (counter 0)) = Some (s, [x; y]) /\
  existsb begins_reset l = false /\ fin s = [5] /\ value x = 5 /\ value y = 0.
Proof. eexists ([ANew] ++ add 0 5 ++ read false 1 ++ [AExit 0] ++ read false 0), _, _, _. split; [vm_compute; reflexivity|]. repeat split. Qed.

Lemma recorder_case : exists s x y, run recorder
   ([ANew; ANew] ++ add 0 7 ++ [ACall 1 (-3); AStep 1; ACall 0 3000000000; AStep 0; ABegin true; AEnter; AVisit; AStep 1; AVisit; AReturn]
    ++ [AStep 0; AStep 0; AExit 1; ADestroy 1] ++ read false 1) (init recorder) = Some (s, [x; y]) /\
  fin s = [7; -3; 3000000000] /\ value x = (4, 2) /\ value y = (2147483647, 1).
Proof. eexists _, _, _. split; [vm_compute; reflexivity|]. repeat split. Qed.

(** The statements with the variable in front. *)
Lemma value_right_all R (k : kind R) f b l s rs : shows k f b ->
  (b = true \/ existsb begins_reset l = false) -> run k l (init k) = Some (s, rs) -> Forall (fun x => value x = f (values x)) rs.
Proof. intros HG. exact (value_right k f b HG l s rs). Qed.
Lemma all_once_all R (k : kind R) f b l s rs : shows k f b ->
  run k l (init k) = Some (s, rs) -> Permutation (fin s) (given rs ++ pending s).
Proof. intros HG. exact (all_once k f b HG l s rs). Qed.
Lemma reads_between_all R (k : kind R) f b l s rs mid s' x : shows k f b ->
  (b = true \/ existsb begins_reset l = false) -> run k l (init k) = Some (s, rs) -> rdr s = None ->
  existsb returns mid = false -> (b = true \/ existsb begins_reset mid = false) ->
  run k (ABegin false :: mid ++ [AReturn]) s = Some (s', [x]) ->
  value x = f (values x) /\ forall p, (cnt p (pending s) <= cnt p (values x) + cnt p (leaving s') /\ cnt p (values x) <= cnt p (pending s'))%nat.
Proof. intros HG. exact (reads_between k f b HG l s rs mid s' x). Qed.
Lemma update_ends_all R (k : kind R) f b l s rs i v : shows k f b ->
  (b = true \/ existsb begins_reset l = false) -> run k l (init k) = Some (s, rs) -> rdr s = None -> updates i v s ->
  exists n s', (n <= 4)%nat /\ run k (repeat (AStep i) n) s = Some (s', []) /\ fin s' = fin s ++ [v] /\ ~ updating i s'.
Proof. intros HG. exact (update_ends k f b HG l s rs i v). Qed.
