(** The small library. *)
From Coq Require Import Strings.String.
From Verif Require Import Lib.Base Lib.Bytes HttpFrame.Model HttpFrame.Spec HttpFrame.Toy.
From Coq Require Import Strings.Byte.
Open Scope Z_scope.

Lemma prefix_iff p l : prefix p l = true <-> exists y, l = p ++ y.
Proof.
  revert l. induction p as [|a p IH]; intros l.
  - simpl. split; [intros _; exists l; reflexivity|reflexivity].
  - destruct l as [|b l]; simpl; [split; [discriminate|intros [y Y]; discriminate]|].
    rewrite andb_true_iff, IH. split.
    + intros [H [y ->]]. apply Byte.byte_dec_bl in H. subst b. exists y. reflexivity.
    + intros [y Y]. injection Y as -> ->. split; [apply Byte.byte_dec_lb; reflexivity|eauto].
Qed.
Lemma ending_le lf l n : ending lf l = Some n -> (2 <= n <= length l)%nat.
Proof.
  revert n. induction l as [|b l IH]; intros n; cbn [ending].
  - destruct (prefix (crlf ++ crlf) []) eqn:P; [discriminate|]. rewrite andb_false_r. discriminate.
  - destruct (prefix (crlf ++ crlf) (b :: l)) eqn:P.
    + intros H. injection H as <-. apply prefix_iff in P. destruct P as [y ->]. simpl. lia.
    + destruct (lf && prefix [x0a; x0a] (b :: l)) eqn:Q.
      * intros H. injection H as <-. apply andb_prop in Q. destruct Q as [_ Q]. apply prefix_iff in Q. destruct Q as [y ->]. simpl. lia.
      * destruct (ending lf l) as [k|]; [|discriminate]. intros H. injection H as <-. specialize (IH k eq_refl). simpl. lia.
Qed.
Lemma ending_app lf l y n : ending lf l = Some n -> ending lf (l ++ y) = Some n.
Proof.
  revert n. induction l as [|b l IH]; intros n; cbn [ending].
  - rewrite andb_false_r. discriminate.
  - cbn [app ending]. destruct (prefix (crlf ++ crlf) (b :: l)) eqn:P.
    + intros H. injection H as <-. apply prefix_iff in P. destruct P as [z E].
      replace (prefix (crlf ++ crlf) (b :: l ++ y)) with true; [reflexivity|]. symmetry. apply prefix_iff.
      exists (z ++ y). change (b :: l ++ y) with ((b :: l) ++ y). rewrite E, <- app_assoc. reflexivity.
    + destruct (lf && prefix [x0a; x0a] (b :: l)) eqn:Q.
      * intros H. injection H as <-. apply andb_prop in Q. destruct Q as [-> Q]. apply prefix_iff in Q. destruct Q as [z E].
        injection E as -> ->. cbn. reflexivity.
      * destruct (ending lf l) as [k|] eqn:F; [|discriminate]. intros H. injection H as <-.
        assert (G := ending_le _ _ _ F).
        replace (lf && prefix [x0a; x0a] (b :: l ++ y)) with false.
        2: { symmetry. rewrite <- Q. f_equal. destruct l as [|c l]; [simpl in G; lia|]. reflexivity. }
        rewrite (IH k eq_refl).
        assert (N : prefix (crlf ++ crlf) (b :: l ++ y) = false); [|rewrite N; reflexivity].
        destruct l as [|c [|d [|e l]]]; [simpl in G; lia|simpl in G; lia| |exact P].
        (* two bytes behind: an end in them is LF LF *)
        cbn [ending] in F. destruct (prefix (crlf ++ crlf) [c; d]) eqn:P2.
        { apply prefix_iff in P2. destruct P2 as [z Z0]. discriminate. }
        destruct (lf && prefix [x0a; x0a] [c; d]) eqn:Q2.
        { apply andb_prop in Q2. destruct Q2 as [_ Q2]. apply prefix_iff in Q2. destruct Q2 as [z Z0]. injection Z0 as -> -> _.
          cbn. rewrite !andb_false_r. reflexivity. }
        cbn in F. rewrite !andb_false_r in F. discriminate.
Qed.
Lemma ending_has lf x y : ending lf (x ++ crlf ++ crlf ++ y) <> None.
Proof.
  induction x as [|b x IH].
  - discriminate.
  - cbn [app ending]. destruct (prefix _ _); [discriminate|]. destruct (lf && prefix _ _); [discriminate|].
    change (x ++ [x0d; x0a] ++ [x0d; x0a] ++ y) with (x ++ crlf ++ crlf ++ y).
    destruct (ending lf (x ++ crlf ++ crlf ++ y)); [discriminate|congruence].
Qed.
Lemma toy_stable lf : stable (toy_head lf).
Proof.
  unfold stable, toy_head. split; [|split; [|split]].
  - intros b n f x. destruct (ending lf b) as [k|] eqn:E; [|discriminate]. intros H. injection H as <- <-.
    rewrite (ending_app _ _ x _ E). apply ending_le in E. rewrite firstn_app. replace (k - length b)%nat with 0%nat by lia.
    simpl. rewrite app_nil_r. reflexivity.
  - intros b n f. destruct (ending lf b) as [k|] eqn:E; [|discriminate]. intros H. injection H as <- <-. apply ending_le in E. lia.
  - intros b x. destruct (ending lf b); discriminate.
  - intros b. assert (X := ending_has lf b []). rewrite app_nil_r in X. destruct (ending lf (b ++ crlf ++ crlf)); [discriminate|congruence].
Qed.
Lemma toy_strict : strict (toy_head false).
Proof.
  unfold strict, toy_head. intros b n f. destruct (ending false b) as [k|] eqn:E; [|discriminate]. intros _.
  revert k E. induction b as [|c b IH]; intros k; cbn [ending]; [discriminate|].
  destruct (prefix (crlf ++ crlf) (c :: b)) eqn:P.
  - intros _. apply prefix_iff in P. destruct P as [y ->]. exists [], y. reflexivity.
  - cbn [andb]. destruct (ending false b) as [j|]; [|discriminate]. intros _. destruct (IH j eq_refl) as (x & y & ->).
    exists (c :: x), y. reflexivity.
Qed.

Definition hv (b : byte) : Z := match hex_digit b with Some v => v | None => 0 end.
Lemma toy_digits lf ds : forall a k rest p, Forall (fun b => hex_digit b <> None) ds -> (k + length ds <= 16)%nat ->
  decodes (toy lf) (TSize (fold_left (fun a b => 16 * a + hv b) ds a) (k + length ds)) rest p ->
  decodes (toy lf) (TSize a k) (ds ++ rest) p.
Proof.
  induction ds as [|b ds IH]; intros a k rest p F K D.
  - simpl in *. replace (k + 0)%nat with k in D by lia. exact D.
  - inversion F; subst. simpl in K. cbn [app].
    apply (decodes_more (toy lf) (TSize a k) b (TSize (16 * a + hv b) (S k)) []).
    + cbn [d_step toy toy_step]. unfold hv. destruct (hex_digit b) as [v|]; [|congruence].
      destruct (k <? 16)%nat eqn:Q; [reflexivity|]. apply Nat.ltb_ge in Q. lia.
    + apply IH; [assumption|lia|]. simpl in D. replace (S k + length ds)%nat with (k + S (length ds))%nat by lia. exact D.
Qed.
Lemma toy_data lf data : forall rest p, data <> [] -> decodes (toy lf) TCr rest p ->
  decodes (toy lf) (TData (size data)) (data ++ rest) (data ++ p).
Proof.
  induction data as [|b data IH]; intros rest p Nn D; [congruence|]. cbn [app].
  destruct data as [|c data].
  - apply (decodes_more (toy lf) _ b TCr [b]); [reflexivity|exact D].
  - apply (decodes_more (toy lf) _ b (TData (size (c :: data))) [b]).
    + cbn [d_step toy toy_step]. replace (size (b :: c :: data) =? 1) with false by (unfold size; simpl length; lia).
      replace (size (b :: c :: data) - 1) with (size (c :: data)) by (unfold size; simpl length; lia). reflexivity.
    + apply IH; [discriminate|exact D].
Qed.
Lemma toy_size lf ds n rest p : hexnum ds n -> decodes (toy lf) (if n =? 0 then TCr2 else TData n) rest p ->
  decodes (toy lf) (TSize 0 0) (ds ++ crlf ++ rest) p.
Proof.
  intros (Nn & Ln & F & V) D. apply toy_digits; [exact F|lia|]. simpl plus.
  change (fold_left (fun a b => 16 * a + hv b) ds 0) with (fold_left (fun a b => 16 * a + match hex_digit b with Some v => v | None => 0 end) ds 0).
  rewrite V. cbn [app crlf].
  apply (decodes_more (toy lf) _ x0d (TEnd n) []).
  - cbn. destruct ds; [congruence|]. reflexivity.
  - apply (decodes_more (toy lf) _ x0a (if n =? 0 then TCr2 else TData n) []); [reflexivity|exact D].
Qed.
Lemma toy_chunked lf e p : chunked e p -> decodes (toy lf) (TSize 0 0) e p.
Proof.
  induction 1 as [z Z0|ds data e p H Nn C IH].
  - apply (toy_size lf z 0 crlf []); [exact Z0|]. simpl. apply (decodes_more (toy lf) _ x0d TLf2 []); [reflexivity|].
    apply decodes_end. reflexivity.
  - apply (toy_size lf ds (size data)); [exact H|].
    replace (size data =? 0) with false by (destruct data; [congruence|]; unfold size; simpl length; lia).
    apply toy_data; [exact Nn|].
    apply (decodes_more (toy lf) _ x0d TLf []); [reflexivity|]. apply (decodes_more (toy lf) _ x0a (TSize 0 0) []); [reflexivity|exact IH].
Qed.
Lemma toy_lawful lf : lawful (toy lf).
Proof. split; [exact (toy_stable lf)|exact (toy_stable lf)|exact (toy_chunked lf)]. Qed.
