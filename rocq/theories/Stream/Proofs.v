(** Proofs about flow control. *)
From Verif.Lib Require Import Base.
From Verif.Stream Require Import Model Spec.
Local Open Scope Z_scope.

Lemma sum_total l : sum l = total l.
Proof. induction l as [|x l IH]; [reflexivity|]. cbn [sum fold_right total]. unfold sum in IH. lia. Qed.
Lemma total_app a b : total (a ++ b) = total a + total b.
Proof. induction a as [|x a IH]; cbn [app total]; lia. Qed.
Lemma total_nonneg l : Forall (fun x => 0 <= x) l -> 0 <= total l.
Proof. induction 1; cbn [total]; lia. Qed.

Definition sizes (m : Z) (l : list Z) : Prop := Forall (fun x => 0 <= x <= m) l.
Lemma sizes_nonneg m l : sizes m l -> 0 <= total l.
Proof. intros H. apply total_nonneg. eapply Forall_impl; [|exact H]. cbv beta. lia. Qed.
Lemma sizes_app m a b : sizes m (a ++ b) <-> sizes m a /\ sizes m b.
Proof. apply Forall_app. Qed.
Lemma sizes_one m n : 0 <= n <= m -> sizes m [n].
Proof. intros H. constructor; [exact H|constructor]. Qed.
Lemma sizes_mid m a n b : sizes m (a ++ n :: b) -> sizes m (a ++ b) /\ 0 <= n <= m.
Proof. unfold sizes. rewrite !Forall_app. intros (H1 & H2). inversion H2; subst. auto. Qed.

Record inv (w m : Z) (s : st) : Prop := {
  i_rw : f_rwindow s = w;
  i_cons : 0 <= f_consumed s <= w / 4;
  i_checked : sizes m (f_checked s);
  i_waiting : sizes m (f_waiting s);
  i_pushing : sizes m (f_pushing s);
  i_wire : sizes m (f_wire s);
  i_feedback : Forall (fun x => 0 <= x) (f_feedback s);
  i_sum : f_window s + unacked s = w + f_woken s - f_dropped s;
  i_wait : f_waiting s <> [] -> f_window s <= 0;
  i_low : - m <= f_window s;
  i_woken : 0 <= f_woken s;
  i_dropped : 0 <= f_dropped s;
  i_ok : f_failed s = false -> f_closed s = false -> f_dropped s = 0 }.

Lemma u32_id x : 0 <= x < 2 ^ 32 -> u32 x = x.
Proof. apply Z.mod_small. Qed.

Lemma inv_init w m : 0 <= w -> 0 <= m -> inv w m (init w).
Proof.
  intros Hw Hm. constructor; cbn; try lia; try constructor; try congruence.
Qed.

Lemma inv_step w m s s' : 0 <= w -> m + w / 4 < 2 ^ 32 -> inv w m s -> step m s s' -> inv w m s'.
Proof.
  intros Hw Hm I S. destruct I as [Irw Ic Ich Iwt Ip Iwi If Isum Iwait Ilow Iwk Idr Iok].
  assert (Hw4 : 0 <= w / 4) by (apply Z.div_pos; lia).
  inversion S; subst; clear S.
  - constructor; cbn -[sum total]; try assumption; try reflexivity. apply sizes_app. split; [assumption|]. apply sizes_one. assumption.
  - rewrite H in Ich. apply sizes_mid in Ich. destruct Ich as (Ich & Hn).
    unfold decrease_window in H0. destruct (Z.ltb_spec (f_window s) 0) as [L|L]; [discriminate|].
    injection H0 as <-. rewrite u32_id by lia.
    constructor; cbn -[sum total]; try assumption; try reflexivity; try lia.
    + apply sizes_app. split; [assumption|apply sizes_one; lia].
    + unfold unacked in *. cbn -[sum total] in *. rewrite total_app. cbn [total]. lia.
  - rewrite H in Ich. apply sizes_mid in Ich. destruct Ich as (Ich & Hn).
    unfold decrease_window in H0. destruct (Z.ltb_spec (f_window s) 0) as [L|L]; [|discriminate].
    constructor; cbn -[sum total]; try assumption; try reflexivity; try lia.
    apply sizes_app. split; [assumption|apply sizes_one; lia].
  - rewrite H in Ip. apply sizes_mid in Ip. destruct Ip as (Ip & Hn).
    constructor; cbn -[sum total]; try assumption; try reflexivity.
    + destruct (f_failed s || f_closed s); [assumption|]. apply sizes_app. split; [assumption|apply sizes_one; lia].
    + unfold unacked in *. cbn -[sum total] in *. rewrite H in Isum. rewrite total_app in Isum. cbn [total] in Isum.
      rewrite total_app. destruct (f_failed s || f_closed s); [lia|]. rewrite total_app. cbn [total]. lia.
    + destruct (f_failed s || f_closed s); lia.
    + intros E1 E2. rewrite E1, E2. apply Iok; assumption.
  - rewrite H in Iwi. inversion Iwi as [|? ? Hn Hr]; subst.
    unfold update_consume in H0. rewrite (u32_id n) in H0 by lia. rewrite u32_id in H0 by lia.
    destruct (Z.ltb_spec (f_rwindow s / 4) (f_consumed s + n)) as [L|L]; injection H0 as <- <-.
    + constructor; cbn -[sum total]; try assumption; try reflexivity; try lia.
      * destruct (_ =? 0); [assumption|]. apply Forall_app. split; [assumption|]. constructor; [lia|constructor].
      * unfold unacked in *. cbn -[sum total] in *. rewrite H in Isum. cbn [total] in Isum.
        destruct (Z.eqb_spec (f_consumed s + n) 0); [lia|]. rewrite total_app. cbn [total]. lia.
    + constructor; cbn -[sum total]; try assumption; try reflexivity; try lia.
      unfold unacked in *. cbn -[sum total] in *. rewrite H in Isum. cbn [total] in Isum. lia.
  - rewrite H0 in If. inversion If as [|? ? Hk Hr]; subst.
    unfold increase_window in H1. injection H1 as <- <-.
    constructor; cbn -[sum total]; try assumption; try reflexivity; try lia.
    + destruct (0 <? _); [constructor|assumption].
    + destruct (0 <? _); [|assumption]. apply sizes_app. auto.
    + unfold unacked in *. cbn -[sum total] in *. rewrite H0 in Isum. cbn [total] in Isum. pose proof (sum_total (f_waiting s)) as ES.
      destruct (0 <? _); [rewrite total_app; lia|lia].
    + destruct (Z.ltb_spec 0 (f_window s + k)); [congruence|]. intros _. lia.
    + pose proof (sum_total (f_waiting s)) as ES. pose proof (sizes_nonneg _ _ Iwt). destruct (0 <? _); lia.
  - rewrite H0 in If. inversion If as [|? ? Hk Hr]; subst.
    constructor; cbn -[sum total]; try assumption; try reflexivity; try lia; try congruence.
    unfold unacked in *. cbn -[sum total] in *. rewrite H0 in Isum. cbn [total] in Isum. lia.
  - constructor; cbn -[sum total]; try assumption; try reflexivity. discriminate.
  - constructor; cbn -[sum total]; try assumption; try reflexivity. discriminate.
  - constructor; cbn -[sum total]; try assumption; try reflexivity; try congruence.
    + constructor.
    + apply sizes_app. auto.
    + unfold unacked in *. cbn -[sum total] in *. pose proof (sum_total (f_waiting s)) as ES. rewrite total_app. lia.
    + pose proof (sum_total (f_waiting s)) as ES. pose proof (sizes_nonneg _ _ Iwt). lia.
Qed.

Lemma inv_reach w m s : 0 <= w -> 0 <= m -> m + w / 4 < 2 ^ 32 -> reach w m s -> inv w m s.
Proof.
  intros Hw Hm Hb R. induction R as [|s s' R IH S]; [apply inv_init; assumption|]. eapply inv_step; eassumption.
Qed.

Lemma bound w m s : 0 <= w -> 0 <= m -> m + w / 4 < 2 ^ 32 -> reach w m s ->
  unacked s <= w + m + f_woken s.
Proof.
  intros Hw Hm Hb R. destruct (inv_reach w m s Hw Hm Hb R). lia.
Qed.

Lemma exact_account w m s : 0 <= w -> 0 <= m -> m + w / 4 < 2 ^ 32 -> reach w m s -> f_failed s = false -> f_closed s = false ->
  f_window s + unacked s = w + f_woken s.
Proof.
  intros Hw Hm Hb R F C. destruct (inv_reach w m s Hw Hm Hb R). specialize (i_ok0 F C). lia.
Qed.

Lemma no_deadlock w m s : 0 < w -> 0 <= m -> m + w / 4 < 2 ^ 32 -> reach w m s -> f_failed s = false -> f_closed s = false -> settled s ->
  f_waiting s = [] /\ 0 < f_window s.
Proof.
  intros Hw Hm Hb R F C (S1 & S2 & S3 & S4 & S5).
  destruct (inv_reach w m s ltac:(lia) Hm Hb R) as [Irw Ic Ich Iwt Ip Iwi If Isum Iwait Ilow Iwk Idr Iok].
  specialize (Iok F C). unfold unacked in Isum. rewrite S2, S3, S4 in Isum. cbn [total] in Isum.
  assert (L : 4 * (w / 4) <= w) by (apply Z.mul_div_le; lia).
  assert (0 < f_window s) by lia. split; [|assumption].
  destruct (f_waiting s); [reflexivity|]. assert (f_window s <= 0) by (apply Iwait; discriminate). lia.
Qed.

(** ** A run: every writer that has to wait enlarges the window for good *)
Definition plain (win : Z) (pushing wire : list Z) (woken : Z) : st :=
  {| f_window := win; f_checked := []; f_waiting := []; f_pushing := pushing; f_wire := wire; f_rwindow := 65535; f_consumed := 0;
     f_feedback := []; f_failed := false; f_closed := false; f_notify := false; f_woken := woken; f_dropped := 0 |}.

Lemma one_write m win wire woken : 0 <= win -> 0 <= m < 2 ^ 32 -> reach 65535 m (plain win [] wire woken) ->
  reach 65535 m (plain (win - m) [] (wire ++ [m]) woken).
Proof.
  intros Hw Hm R.
  unshelve epose proof (r_step _ _ _ _ R (s_check m m _ _ _)) as R1; [reflexivity|lia|]. cbn in R1.
  unshelve epose proof (r_step _ _ _ _ R1 (s_decrease m [] m [] (win - m) _ _ _)) as R2; [reflexivity|cbn; unfold decrease_window; destruct (Z.ltb_spec win 0); [lia|]; rewrite u32_id by lia; reflexivity|]. cbn in R2.
  unshelve epose proof (r_step _ _ _ _ R2 (s_push m [] m [] _ _)) as R3; [reflexivity|]. exact R3.
Qed.

Lemma one_read m win wire woken : 16384 <= m < 2 ^ 32 -> 0 < win + m -> reach 65535 m (plain win [] (m :: wire) woken) ->
  reach 65535 m (plain (win + m) [] wire woken).
Proof.
  intros Hm Hw R.
  assert (E : update_consume 65535 0 m = (0, m)).
  { unfold update_consume. rewrite (u32_id m) by lia. cbn [Z.add]. rewrite u32_id by lia.
    change (65535 / 4) with 16383. destruct (Z.ltb_spec 16383 m); [reflexivity|lia]. }
  unshelve epose proof (r_step _ _ _ _ R (s_read m m wire _ 0 m _ _)) as R1; [reflexivity|exact E|]. cbn in R1.
  destruct (Z.eqb_spec m 0) as [Z0|_]; [lia|]. cbn in R1.
  unshelve epose proof (r_step _ _ _ _ R1 (s_feedback m m [] _ (win + m) true _ _ _)) as R2; [reflexivity|reflexivity|cbn; unfold increase_window; match goal with |- context [0 <? ?x] => destruct (Z.ltb_spec 0 x) end; [reflexivity|lia]|]. cbn in R2.
  rewrite Z.add_0_r in R2. exact R2.
Qed.

Lemma reads wire : forall win woken, -1 <= win -> Forall (fun x => x = 65536) wire ->
  reach 65535 65536 (plain win [] wire woken) -> reach 65535 65536 (plain (win + total wire) [] [] woken).
Proof.
  induction wire as [|x wire IH]; intros win woken Hw Hx R; [rewrite Z.add_0_r; exact R|].
  inversion Hx; subst. cbn [total]. replace (win + (65536 + total wire)) with (win + 65536 + total wire) by lia.
  apply IH; [lia|assumption|]. apply one_read; [lia|lia|exact R].
Qed.

(** One round from a window of 65535 + 65536 k: exhaust it, let a writer wait, read everything. *)
Lemma writes_all k : forall win wire woken, 65536 * Z.of_nat k <= win + 65536 -> reach 65535 65536 (plain win [] wire woken) ->
  reach 65535 65536 (plain (win - 65536 * Z.of_nat k) [] (wire ++ repeat 65536 k) woken).
Proof.
  induction k as [|k IH]; intros win wire woken Hk R.
  - cbn [repeat]. rewrite app_nil_r. replace (win - 65536 * Z.of_nat 0) with win by lia. exact R.
  - replace (win - 65536 * Z.of_nat (S k)) with (win - 65536 - 65536 * Z.of_nat k) by lia.
    replace (wire ++ repeat 65536 (S k)) with ((wire ++ [65536]) ++ repeat 65536 k) by (rewrite <- app_assoc; reflexivity).
    apply IH; [lia|]. apply one_write; [lia|lia|exact R].
Qed.

Lemma total_repeat x k : total (repeat x k) = x * Z.of_nat k.
Proof. induction k as [|k IH]; [cbn; lia|]. cbn [repeat total]. lia. Qed.

(** [one_wait] with more on the wire. *)
Lemma wait_read rest win woken : win < 0 -> 0 < win + 65536 -> reach 65535 65536 (plain win [] (65536 :: rest) woken) ->
  reach 65535 65536 (plain (win + 65536) [] (rest ++ [65536]) (woken + (65536 + 0))).
Proof.
  intros Hn Hw R.
  unshelve epose proof (r_step _ _ _ _ R (s_check 65536 65536 _ _ _)) as R1; [reflexivity|lia|]. cbn in R1.
  unshelve epose proof (r_step _ _ _ _ R1 (s_wait 65536 [] 65536 [] _ _ _)) as R2; [reflexivity|cbn; unfold decrease_window; destruct (Z.ltb_spec win 0); [reflexivity|lia]|]. cbn in R2.
  assert (E : update_consume 65535 0 65536 = (0, 65536)) by reflexivity.
  unshelve epose proof (r_step _ _ _ _ R2 (s_read 65536 65536 rest _ 0 65536 _ _)) as R3; [reflexivity|exact E|]. cbn in R3.
  unshelve epose proof (r_step _ _ _ _ R3 (s_feedback 65536 65536 [] _ (win + 65536) true _ _ _)) as R4; [reflexivity|reflexivity|cbn; unfold increase_window; match goal with |- context [0 <? ?x] => destruct (Z.ltb_spec 0 x) end; [reflexivity|lia]|]. cbn in R4.
  unshelve epose proof (r_step _ _ _ _ R4 (s_push 65536 [] 65536 [] _ _)) as R5; [reflexivity|]. exact R5.
Qed.

Lemma rounds k : exists woken, reach 65535 65536 (plain (65535 + 65536 * Z.of_nat k) [] [] woken).
Proof.
  induction k as [|k (woken & R)].
  - exists 0. apply r_init.
  - exists (woken + (65536 + 0)).
    apply (writes_all (S k)) in R; [|lia]. cbn [app] in R.
    replace (65535 + 65536 * Z.of_nat k - 65536 * Z.of_nat (S k)) with (-1) in R by lia.
    apply wait_read in R; [|lia|lia]. apply reads in R; [|lia|].
    + rewrite total_app, total_repeat in R. cbn [total] in R.
      replace (65535 + 65536 * Z.of_nat (S k)) with (-1 + 65536 + (65536 * Z.of_nat k + (65536 + 0))) by lia. exact R.
    + apply Forall_app. split; [|repeat constructor]. apply Forall_forall. intros x Hx. eapply repeat_spec, Hx.
Qed.

Lemma unbounded n : exists s, reach 65535 65536 s /\ f_failed s = false /\ f_closed s = false /\ n < unacked s.
Proof.
  destruct (rounds (Z.to_nat n)) as (woken & R). apply (writes_all (S (Z.to_nat n))) in R; [|lia].
  eexists. split; [exact R|]. split; [reflexivity|]. split; [reflexivity|]. unfold unacked.
  cbn -[total repeat Z.mul]. rewrite total_repeat. cbn [total]. lia.
Qed.

Lemma window_size_max w : 0 <= w -> get_window_size w = if Z.eq_dec w 0 then 0 else Z.max 65535 w.
Proof.
  intros Hw. unfold get_window_size. destruct (Z.eqb_spec w 0) as [->|N]; [reflexivity|].
  destruct (Z.eq_dec w 0); [contradiction|]. destruct (Z.ltb_spec w 65535); lia.
Qed.

(** ** Writers that wait for ever *)
Lemma error_wait : exists s, reach 65535 65536 s /\ f_failed s = true /\ f_notify s = false /\ f_waiting s <> [] /\ settled s.
Proof.
  assert (R : reach 65535 65536 (plain 65535 [] [] 0)) by apply r_init.
  apply one_write in R; [|lia|lia]. cbn [app] in R. cbn in R.
  unshelve epose proof (r_step _ _ _ _ R (s_check 65536 1 _ _ _)) as R1; [reflexivity|lia|]. cbn in R1.
  unshelve epose proof (r_step _ _ _ _ R1 (s_fail 65536 _ _)) as R2; [reflexivity|]. cbn in R2.
  unshelve epose proof (r_step _ _ _ _ R2 (s_notify 65536 _ _)) as R3; [reflexivity|]. cbn in R3.
  unshelve epose proof (r_step _ _ _ _ R3 (s_wait 65536 [] 1 [] _ _ _)) as R4; [reflexivity|reflexivity|]. cbn in R4.
  unshelve epose proof (r_step _ _ _ _ R4 (s_read 65536 65536 [] _ 0 65536 _ _)) as R5; [reflexivity|reflexivity|]. cbn in R5.
  unshelve epose proof (r_step _ _ _ _ R5 (s_close 65536 _ _)) as R6; [reflexivity|]. cbn in R6.
  unshelve epose proof (r_step _ _ _ _ R6 (s_stale 65536 65536 [] _ _ _)) as R7; [reflexivity|reflexivity|]. cbn in R7.
  eexists. split; [exact R7|]. repeat split; discriminate.
Qed.

Lemma closed_wait : exists s, reach 65535 65536 s /\ f_failed s = false /\ f_waiting s <> [] /\ settled s.
Proof.
  assert (R : reach 65535 65536 (plain 65535 [] [] 0)) by apply r_init.
  apply one_write in R; [|lia|lia]. cbn [app] in R. cbn in R.
  unshelve epose proof (r_step _ _ _ _ R (s_check 65536 1 _ _ _)) as R1; [reflexivity|lia|]. cbn in R1.
  unshelve epose proof (r_step _ _ _ _ R1 (s_wait 65536 [] 1 [] _ _ _)) as R4; [reflexivity|reflexivity|]. cbn in R4.
  unshelve epose proof (r_step _ _ _ _ R4 (s_read 65536 65536 [] _ 0 65536 _ _)) as R5; [reflexivity|reflexivity|]. cbn in R5.
  unshelve epose proof (r_step _ _ _ _ R5 (s_close 65536 _ _)) as R6; [reflexivity|]. cbn in R6.
  unshelve epose proof (r_step _ _ _ _ R6 (s_stale 65536 65536 [] _ _ _)) as R7; [reflexivity|reflexivity|]. cbn in R7.
  eexists. split; [exact R7|]. repeat split; discriminate.
Qed.

Lemma overflow_wait : exists s, reach 65535 (2 ^ 32 - 1) s /\ f_failed s = false /\ f_closed s = false /\ f_waiting s <> [] /\ settled s.
Proof.
  change (2 ^ 32 - 1) with 4294967295.
  assert (R : reach 65535 4294967295 (plain 65535 [] [] 0)) by apply r_init.
  unshelve epose proof (r_step _ _ _ _ R (s_check _ 1 _ _ _)) as R1; [reflexivity|lia|]. cbn in R1.
  unshelve epose proof (r_step _ _ _ _ R1 (s_decrease _ [] 1 [] 65534 _ _ _)) as R2; [reflexivity|reflexivity|]. cbn in R2.
  unshelve epose proof (r_step _ _ _ _ R2 (s_push _ [] 1 [] _ _)) as R3; [reflexivity|]. cbn in R3.
  unshelve epose proof (r_step _ _ _ _ R3 (s_read _ 1 [] _ 1 0 _ _)) as R4; [reflexivity|reflexivity|]. cbn in R4.
  unshelve epose proof (r_step _ _ _ _ R4 (s_check _ 4294967295 _ _ _)) as R5; [reflexivity|lia|]. cbn in R5.
  unshelve epose proof (r_step _ _ _ _ R5 (s_decrease _ [] 4294967295 [] (-4294901761) _ _ _)) as R6; [reflexivity|reflexivity|]. cbn in R6.
  unshelve epose proof (r_step _ _ _ _ R6 (s_push _ [] 4294967295 [] _ _)) as R7; [reflexivity|]. cbn in R7.
  unshelve epose proof (r_step _ _ _ _ R7 (s_read _ 4294967295 [] _ 0 0 _ _)) as R8; [reflexivity|reflexivity|]. cbn in R8.
  unshelve epose proof (r_step _ _ _ _ R8 (s_check _ 1 _ _ _)) as R9; [reflexivity|lia|]. cbn in R9.
  unshelve epose proof (r_step _ _ _ _ R9 (s_wait _ [] 1 [] _ _ _)) as R10; [reflexivity|reflexivity|]. cbn in R10.
  eexists. split; [exact R10|]. repeat split; discriminate.
Qed.
