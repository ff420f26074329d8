(** However the bytes are cut into reads, the result is the same. *)
From Verif Require Import Lib.Base Lib.Bytes Lib.ListX HttpCodec.Model HttpFrame.Model HttpFrame.Spec.
From Coq Require Import Strings.Byte.
Open Scope Z_scope.

Lemma blen_app a b : blen (a ++ b) = blen a + blen b.
Proof. unfold blen. rewrite app_length. lia. Qed.
Lemma blen_nonneg a : 0 <= blen a. Proof. unfold blen. lia. Qed.
Lemma blen_nil a : blen a = 0 -> a = [].
Proof. unfold blen. destruct a; [auto|simpl; lia]. Qed.
Lemma limit_room mp : limit mp = room mp.
Proof. unfold limit, room. destruct (mp >? 0) eqn:A; destruct (mp <=? 0) eqn:B; lia. Qed.
Lemma limit_pos mp : 0 < limit mp.
Proof. unfold limit. destruct (mp >? 0) eqn:A; lia. Qed.

Section S.
Variable L : lib.

Lemma decode_app l1 : forall d l2, decode L d (l1 ++ l2) =
  match decode L d l1 with
  | OErr _ => OErr L
  | ODone _ o r => ODone L o (r ++ l2)
  | OMore _ d1 o => match decode L d1 l2 with
                    | OErr _ => OErr L
                    | OMore _ d2 o2 => OMore L d2 (o ++ o2)
                    | ODone _ o2 r => ODone L (o ++ o2) r
                    end
  end.
Proof.
  induction l1 as [|b r IH]; intros d l2; cbn [decode app].
  - destruct (decode L d l2); reflexivity.
  - destruct (d_step L d b); try reflexivity. rewrite IH. destruct (decode L d0 r); try reflexivity.
    destruct (decode L d1 l2); try reflexivity; rewrite app_assoc; reflexivity.
Qed.

Lemma decodes_decode d e p r : decodes L d e p -> decode L d (e ++ r) = ODone L p r.
Proof.
  induction 1 as [d b o H|d b d1 o e p H H1 IH]; cbn [decode app]; rewrite H; [reflexivity|]. rewrite IH. reflexivity.
Qed.

(** What the body takes of an input in two parts. *)
Lemma take_body_none ch ex d x y : take_body L ch ex d x = None -> take_body L ch ex d (x ++ y) = None.
Proof.
  unfold take_body. destruct ch; cbn [negb]; [|discriminate]. rewrite decode_app.
  destruct (decode L d x); try discriminate. reflexivity.
Qed.
Lemma take_body_full ch ex d x y o ex1 d1 r : 0 <= ex -> take_body L ch ex d x = Some (o, true, ex1, d1, r) ->
  take_body L ch ex d (x ++ y) = Some (o, true, ex1, d1, r ++ y).
Proof.
  intros P. unfold take_body. destruct ch; cbn [negb].
  - rewrite decode_app. destruct (decode L d x); try discriminate. intros E. injection E as <- <- <- <-. reflexivity.
  - intros E. injection E as <- H <- <- <-. apply Z.eqb_eq in H. assert (X := blen_nonneg y).
    rewrite blen_app. assert (M : Z.min ex (blen x + blen y) = Z.min ex (blen x)) by lia. rewrite M.
    assert (N : (Z.to_nat (Z.min ex (blen x)) <= length x)%nat) by (unfold blen; lia).
    rewrite firstn_app, skipn_app. replace (Z.to_nat (Z.min ex (blen x)) - length x)%nat with 0%nat by lia.
    simpl. rewrite app_nil_r. replace (ex - Z.min ex (blen x) =? 0) with true by lia. reflexivity.
Qed.
Lemma take_body_part ch ex d x y o ex1 d1 r : 0 <= ex -> take_body L ch ex d x = Some (o, false, ex1, d1, r) ->
  r = [] /\ 0 <= ex1 /\ (ch = false -> 0 < ex1) /\
  take_body L ch ex d (x ++ y) =
    match take_body L ch ex1 d1 y with
    | None => None
    | Some (o2, f, ex2, d2, r2) => Some (o ++ o2, f, ex2, d2, r2)
    end.
Proof.
  intros P. unfold take_body. destruct ch; cbn [negb].
  - rewrite decode_app. destruct (decode L d x); try discriminate. intros E. injection E as <- <- <- <-.
    split; [reflexivity|]. split; [exact P|]. split; [discriminate|]. destruct (decode L d0 y); reflexivity.
  - intros E. injection E as <- H <- <- <-. apply Z.eqb_neq in H.
    assert (X := blen_nonneg x). assert (Y := blen_nonneg y). assert (M : Z.min ex (blen x) = blen x) by lia. rewrite M.
    assert (Lx : Z.to_nat (blen x) = length x) by (unfold blen; lia). rewrite Lx, firstn_all, skipn_all. split; [reflexivity|]. split; [lia|]. split; [lia|].
    rewrite blen_app. replace (Z.to_nat (Z.min ex (blen x + blen y))) with
      (length x + Z.to_nat (Z.min (ex - blen x) (blen y)))%nat by (unfold blen in *; lia).
    rewrite firstn_app_2. rewrite skipn_app. rewrite (skipn_all2 x) by lia.
    replace (length x + Z.to_nat (Z.min (ex - blen x) (blen y)) - length x)%nat
      with (Z.to_nat (Z.min (ex - blen x) (blen y))) by lia. simpl.
    replace (ex - Z.min ex (blen x + blen y)) with (ex - blen x - Z.min (ex - blen x) (blen y)) by lia. reflexivity.
Qed.

(** What the flattening of a head sees of an input in two parts. *)
Lemma starts_app p l y : starts p l = true -> starts p (l ++ y) = true.
Proof.
  revert l. induction p as [|a p IH]; intros l H; [reflexivity|]. destruct l as [|b l]; [discriminate|].
  cbn [starts app] in *. apply andb_prop in H. destruct H as [H1 H2]. rewrite H1, (IH l H2). reflexivity.
Qed.
Lemma starts_short p l y : starts p (l ++ y) = true -> (length p <= length l)%nat -> starts p l = true.
Proof.
  revert l. induction p as [|a p IH]; intros l H N; [reflexivity|]. destruct l as [|b l]; [simpl in N; lia|].
  cbn [starts app] in *. apply andb_prop in H. destruct H as [H1 H2]. rewrite H1, IH; auto. simpl in N. lia.
Qed.
Lemma starts_long p l : starts p l = true -> (length p <= length l)%nat.
Proof.
  revert l. induction p as [|a p IH]; intros l H; [simpl; lia|]. destruct l as [|b l]; [discriminate|].
  cbn [starts] in H. apply andb_prop in H. destruct H as [_ H]. apply IH in H. simpl. lia.
Qed.
Lemma starts_split p l : starts p l = true -> exists y, l = p ++ y.
Proof.
  revert l. induction p as [|a p IH]; intros l H; [exists l; reflexivity|]. destruct l as [|b l]; [discriminate|].
  cbn [starts] in H. apply andb_prop in H. destruct H as [H1 H2]. apply Byte.byte_dec_bl in H1.
  destruct (IH l H2) as [y ->]. subst. exists y. reflexivity.
Qed.
Lemma find_end_le l n : find_end l = Some n -> (n <= length l)%nat.
Proof.
  revert n. induction l as [|b l IH]; intros n; cbn [find_end].
  - destruct (starts marker []) eqn:E; discriminate.
  - destruct (starts marker (b :: l)) eqn:E.
    + intros H. injection H as <-. apply starts_long in E. exact E.
    + destruct (find_end l) as [k|]; [|discriminate]. intros H. injection H as <-. specialize (IH k eq_refl). simpl. lia.
Qed.
Lemma find_end_app l y n : find_end l = Some n -> find_end (l ++ y) = Some n.
Proof.
  revert n. induction l as [|b l IH]; intros n; cbn [find_end app].
  - destruct (starts marker []) eqn:E; discriminate.
  - destruct (starts marker (b :: l)) eqn:E.
    + intros H. assert (E2 := starts_app _ _ y E). cbn [app] in E2. rewrite E2. exact H.
    + destruct (find_end l) as [k|] eqn:F; [|discriminate]. intros H. injection H as <-.
      assert (G := find_end_le _ _ F). assert (K : (4 <= k)%nat).
      { clear -F. revert k F. induction l as [|c l IH]; intros k; cbn [find_end].
        - destruct (starts marker []); [intros H; injection H as <-; lia|discriminate].
        - destruct (starts marker (c :: l)); [intros H; injection H as <-; lia|].
          destruct (find_end l) as [j|]; [|discriminate]. intros H. injection H as <-. specialize (IH j eq_refl). lia. }
      destruct (starts marker (b :: l ++ y)) eqn:E2.
      * change (b :: l ++ y) with ((b :: l) ++ y) in E2. apply starts_short in E2; [congruence|]. simpl. lia.
      * rewrite (IH k eq_refl). reflexivity.
Qed.
Lemma find_end_new l y n : find_end l = None -> find_end (l ++ y) = Some n -> (length l < n)%nat.
Proof.
  revert n. induction l as [|b l IH]; intros n A B.
  - simpl in B. simpl. destruct y as [|c y]; [discriminate|]. cbn [find_end] in B.
    destruct (starts marker (c :: y)); [injection B as <-; lia|]. destruct (find_end y); [|discriminate].
    injection B as <-. lia.
  - cbn [find_end app] in *. destruct (starts marker (b :: l)) eqn:E; [discriminate|].
    destruct (find_end l) as [k|] eqn:F; [discriminate|].
    destruct (starts marker (b :: l ++ y)) eqn:E2.
    + injection B as <-. change (b :: l ++ y) with ((b :: l) ++ y) in E2. destruct (le_lt_dec 4 (length (b :: l))) as [G|G].
      * apply starts_short in E2; [congruence|exact G].
      * exact G.
    + destruct (find_end (l ++ y)) as [k|]; [|discriminate]. injection B as <-. specialize (IH k eq_refl eq_refl). simpl. lia.
Qed.
Lemma find_end_has x y : find_end (x ++ marker ++ y) <> None.
Proof.
  induction x as [|b x IH].
  - change ([] ++ marker ++ y) with (marker ++ y). intros E. simpl in E. discriminate.
  - cbn [app find_end]. destruct (starts marker (b :: x ++ marker ++ y)); [discriminate|].
    destruct (find_end (x ++ marker ++ y)); [discriminate|congruence].
Qed.

Lemma until_found l y m n : find_end l = Some n -> 0 <= m -> until (l ++ y) m = until l m.
Proof.
  intros F M. unfold until. rewrite (find_end_app _ y _ F), F. assert (G := find_end_le _ _ F).
  rewrite firstn_app. replace (n - length l)%nat with 0%nat by lia. simpl. rewrite app_nil_r.
  rewrite !firstn_firstn. f_equal. rewrite blen_app. assert (Y := blen_nonneg y). unfold blen in *. lia.
Qed.
Lemma until_none l m : find_end l = None -> until l m = firstn (Z.to_nat (Z.min m (blen l))) l.
Proof. intros F. unfold until. rewrite F. reflexivity. Qed.
(** Without a marker in the first part the flattening is an extension of it, as far as the limit goes. *)
Lemma until_more l y m : find_end l = None -> 0 <= m ->
  (m <= blen l /\ blen (until l m) = m /\ blen (until (l ++ y) m) = m) \/
  (blen l < m /\ until l m = l /\ exists z, until (l ++ y) m = l ++ z).
Proof.
  intros F M. assert (Ln := blen_nonneg l). assert (Yn := blen_nonneg y).
  assert (T : exists t, match find_end (l ++ y) with Some n => firstn n (l ++ y) | None => l ++ y end = l ++ t).
  { destruct (find_end (l ++ y)) as [n|] eqn:G; [|eauto]. apply find_end_new in G; [|exact F].
    rewrite firstn_app. rewrite (firstn_all2 l) by lia. eauto. }
  rewrite (until_none l m F). unfold until. destruct T as [t ->]. rewrite blen_app.
  destruct (Z_le_gt_dec m (blen l)) as [C|C].
  - left. split; [exact C|]. replace (Z.min m (blen l)) with m by lia. replace (Z.min m (blen l + blen y)) with m by lia.
    unfold blen in *. rewrite !firstn_length, app_length. lia.
  - right. split; [lia|]. replace (Z.min m (blen l)) with (blen l) by lia. split.
    + unfold blen. rewrite Nat2Z.id. apply firstn_all.
    + rewrite firstn_app. rewrite (firstn_all2 l) by (unfold blen in *; lia). eauto.
Qed.

End S.
