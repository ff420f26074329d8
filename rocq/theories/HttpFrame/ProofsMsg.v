(** Streams of messages. *)
From Coq Require Import Strings.String.
From Verif Require Import Lib.Base Lib.Bytes Lib.ListX HttpCodec.Model HttpFrame.Model HttpFrame.Spec.
From Verif Require HttpChunk.Spec HttpChunk.ProofsServer.
From Verif Require Import HttpFrame.ProofsSplit HttpFrame.ProofsServer.
From Coq Require Import Strings.Byte.
Open Scope Z_scope.

Lemma decnum_parse v n : decnum v n -> n < 2 ^ 63 -> parse_content_length v = Some n /\ 0 <= n.
Proof. exact (HttpChunk.ProofsServer.decnum_parse v n). Qed.

(** Names. *)
Lemma low_to_lower b : b2z (to_lower b) = low b.
Proof. destruct b; reflexivity. Qed.
Lemma b2z_inj a b : b2z a = b2z b -> a = b.
Proof. intros H. apply (f_equal z2b) in H. rewrite !z2b_b2z in H. exact H. Qed.
Lemma eqb_low a b : Byte.eqb (to_lower a) (to_lower b) = true <-> low a = low b.
Proof.
  rewrite <- !low_to_lower. split.
  - intros H. apply Byte.byte_dec_bl in H. congruence.
  - intros H. apply b2z_inj in H. apply Byte.byte_dec_lb. exact H.
Qed.
Lemma eic_low a b : equals_ignore_case a b = true <-> map low a = map low b.
Proof.
  revert b. induction a as [|x a IH]; intros [|y b]; simpl; try (split; congruence).
  rewrite andb_true_iff, eqb_low, IH. split; [intros [-> ->]; reflexivity|]. intros H. injection H. auto.
Qed.
Lemma eic_dec {A} a name (x y : A) b : map low b = map low (list_byte_of_string name) ->
  (if list_eq_dec Z.eq_dec (map low a) (map low (list_byte_of_string name)) then x else y) =
  (if equals_ignore_case a b then x else y).
Proof.
  intros E. destruct (equals_ignore_case a b) eqn:Q.
  - apply eic_low in Q. destruct (list_eq_dec _ _ _); [reflexivity|congruence].
  - destruct (list_eq_dec _ _ _) as [F|F]; [|reflexivity]. rewrite <- E in F. apply eic_low in F. congruence.
Qed.
Lemma te_cons k v f : te ((k, v) :: f) = if equals_ignore_case k n_te then v :: te f else te f.
Proof. unfold te. cbn [values]. apply eic_dec. reflexivity. Qed.
Lemma cl_cons k v f : cl ((k, v) :: f) = if equals_ignore_case k n_cl then v :: cl f else cl f.
Proof. unfold cl. cbn [values]. apply eic_dec. reflexivity. Qed.
Lemma te_not_cl k : equals_ignore_case k n_te = true -> equals_ignore_case k n_cl = false.
Proof.
  intros A. destruct (equals_ignore_case k n_cl) eqn:B; [|reflexivity]. apply eic_low in A, B. rewrite A in B. discriminate.
Qed.

Definition some {A} (l : list A) : bool := match l with [] => false | _ => true end.
Lemma scan_eq ck cap f : forall t c, scan ck cap f t c =
  match c with
  | Some n => Some (t || some (te f), Some n)
  | None => match cl f with
            | [] => Some (t || some (te f), None)
            | v :: _ => match parse_content_length v with
                        | None => None
                        | Some n => if ck && (n >? cap) then None else Some (t || some (te f), Some n)
                        end
            end
  end.
Proof.
  induction f as [|[k v] f IH]; intros t c.
  - simpl. rewrite orb_false_r. destruct c; reflexivity.
  - cbn [scan]. rewrite te_cons, cl_cons. destruct (equals_ignore_case k n_te) eqn:T.
    + rewrite (te_not_cl k T). destruct t; cbn [negb andb].
      * destruct c; rewrite IH; reflexivity.
      * rewrite IH. simpl. destruct c; reflexivity.
    + rewrite andb_false_r. destruct c as [n|]; [rewrite IH; reflexivity|].
      destruct (equals_ignore_case k n_cl).
      * destruct (parse_content_length v) as [n|]; [|reflexivity]. destruct (ck && (n >? cap)); [reflexivity|].
        rewrite IH. reflexivity.
      * rewrite IH. reflexivity.
Qed.

(** A head in front of a body, as it is parsed. *)
Lemma head_of h mp hb f e : stable h -> h hb = HOk (length hb) f -> size hb <= room mp ->
  strict h \/ size (hb ++ e) <= room mp ->
  let b := until (hb ++ e) (limit mp + 1) in blen b <= limit mp /\ h b = HOk (length hb) f.
Proof.
  intros (E1 & E2 & E3 & E4) H Fi Sf b. rewrite limit_room in *. assert (Lp := limit_pos mp). rewrite limit_room in Lp.
  assert (Bl : (length b <= length (hb ++ e))%nat).
  { unfold b, until. rewrite firstn_length. destruct (find_end (hb ++ e)); [rewrite firstn_length|]; lia. }
  assert (Kp : forall k, find_end (hb ++ e) = Some k -> (length hb <= k)%nat).
  { intros k K. destruct (le_lt_dec (length hb) k) as [Q|Q]; [exact Q|]. exfalso.
    assert (Fh : find_end hb = Some k).
    { destruct (find_end hb) as [j|] eqn:J; [rewrite (find_end_app hb e j J) in K; congruence|].
      apply (find_end_new hb e k J) in K. lia. }
    assert (X : exists x, firstn k hb = x ++ crlf ++ crlf).
    { clear -Fh. revert k Fh. induction hb as [|c hb IH]; intros k; cbn [find_end].
      - destruct (starts marker []) eqn:S0; discriminate.
      - destruct (starts marker (c :: hb)) eqn:S0.
        + intros H. injection H as <-. apply starts_split in S0. destruct S0 as [y ->]. exists []. reflexivity.
        + destruct (find_end hb) as [j|]; [|discriminate]. intros H. injection H as <-.
          destruct (IH j eq_refl) as [x X]. exists (c :: x). simpl. rewrite X. reflexivity. }
    destruct X as [x X]. assert (P : hb = firstn k hb ++ skipn k hb) by (symmetry; apply firstn_skipn).
    destruct (h (firstn k hb)) as [| |n g] eqn:Hk.
    - apply (E3 _ (skipn k hb)) in Hk. rewrite <- P in Hk. congruence.
    - rewrite X in Hk. exact (E4 _ Hk).
    - assert (N := E2 _ _ _ Hk). apply (E1 _ _ _ (skipn k hb)) in Hk. rewrite <- P in Hk. rewrite H in Hk.
      injection Hk as <- _. rewrite firstn_length in N. lia. }
  assert (Q : exists z, b = hb ++ z /\ (strict h -> z = [])).
  { unfold b, until. destruct (find_end (hb ++ e)) as [k|] eqn:K.
    - specialize (Kp k eq_refl). rewrite firstn_firstn, firstn_app.
      rewrite (firstn_all2 hb).
      2: { rewrite limit_room, blen_app. assert (X := blen_nonneg e). unfold size, blen in *. lia. }
      eexists. split; [reflexivity|]. intros St. destruct (St _ _ _ H) as (x & y & X).
      destruct (find_end hb) as [j|] eqn:J; [|exfalso; apply (find_end_has x y); rewrite <- J, X; reflexivity].
      rewrite (find_end_app hb e j J) in K. injection K as ->. apply find_end_le in J.
      replace (Nat.min (Z.to_nat (Z.min (limit mp + 1) (blen (hb ++ e)))) k - length hb)%nat with 0%nat by lia. reflexivity.
    - rewrite firstn_app. rewrite (firstn_all2 hb).
      2: { rewrite limit_room, blen_app. assert (X := blen_nonneg e). unfold size, blen in *. lia. }
      eexists. split; [reflexivity|]. intros St. destruct (St _ _ _ H) as (x & y & X). exfalso.
      destruct (find_end hb) as [j|] eqn:J; [|apply (find_end_has x y); rewrite <- J, X; reflexivity].
      rewrite (find_end_app hb e j J) in K. discriminate. }
  destruct Q as (z & Q1 & Q2). split.
  - destruct Sf as [St|Sz]; [rewrite Q1, (Q2 St), app_nil_r; exact Fi|]. unfold size, blen in *. lia.
  - rewrite Q1. apply E1. exact H.
Qed.

(** A complete body. *)
Lemma body_of L f e p cap ck rest : lawful L -> framed f e p -> (ck = true -> size p <= cap) ->
  exists t c, scan ck cap f false None = Some (t, c) /\ (t = true -> c = None) /\
    (t = false -> match c with Some n => n | None => 0 end = size p) /\
    exists ex d, take_body L t match c with Some n => n | None => 0 end (d_init L) (e ++ rest) =
      Some (p, true, ex, d, rest).
Proof.
  intros Law Fr Cp. rewrite scan_eq. destruct Fr as [A B|v p A B D Sz|e p A B C].
  - rewrite A, B. exists false, None. split; [reflexivity|]. split; [auto|]. split; [reflexivity|].
    unfold take_body. cbn [negb]. replace (Z.min 0 (blen ([] ++ rest))) with 0 by (assert (X := blen_nonneg ([] ++ rest)); lia).
    eexists _, _. reflexivity.
  - rewrite A, B. destruct (decnum_parse v (size p) D Sz) as [-> N].
    assert (G : ck && (size p >? cap) = false) by (destruct ck; [specialize (Cp eq_refl); simpl; lia|reflexivity]).
    rewrite G. exists false, (Some (size p)). split; [reflexivity|]. split; [discriminate|]. split; [reflexivity|].
    unfold take_body. cbn [negb]. change (size p) with (blen p). rewrite blen_app.
    replace (Z.min (blen p) (blen p + blen rest)) with (blen p) by (assert (X := blen_nonneg rest); lia).
    replace (Z.to_nat (blen p)) with (length p) by (unfold blen; lia).
    rewrite firstn_app, firstn_all, Nat.sub_diag, skipn_app, skipn_all, Nat.sub_diag. simpl. rewrite app_nil_r, Z.sub_diag.
    eexists _, _. reflexivity.
  - rewrite B. exists true, None. split; [destruct (te f); [congruence|reflexivity]|]. split; [auto|]. split; [discriminate|].
    unfold take_body. cbn [negb]. rewrite (decodes_decode L (d_init L) e p rest (l_dec L Law e p C)). eexists _, _. reflexivity.
Qed.

Section Server.
Variable L : lib.
Hypothesis Law : lawful L.
Variables (mp : Z) (blk : bool).

Definition idle (s : st L) : Prop := buf L s = [] /\ newr L s = true /\ cur L s = None /\ wf L s.

Lemma feed_msg s m : idle s -> well_formed (p_head L) m -> fits mp blk m ->
  strict (p_head L) \/ size (bytes_of m) <= room mp ->
  exists s1, feed L mp blk s (bytes_of m) = Ok (Some s1) /\ idle s1 /\ fin L s1 = fin L s ++ [request_of m].
Proof.
  intros (I1 & I2 & I3 & I4) [W1 W2] [F1 F2] Sf. unfold feed. rewrite I1. cbn [app].
  assert (F3 : size (m_head m) <= room mp).
  { destruct blk; [exact F2|]. assert (0 <= size (m_load m)) by (unfold size; lia). lia. }
  assert (Hh := head_of (p_head L) mp (m_head m) (m_flds m) (m_body m) (l_head L Law) W1 F3 Sf). cbv zeta in Hh.
  fold (bytes_of m) in Hh. destruct Hh as [H1 H2].
  assert (Ln : 16 <= blen (bytes_of m)).
  { unfold bytes_of. rewrite blen_app. assert (X := blen_nonneg (m_body m)). change (size (m_head m)) with (blen (m_head m)) in F1. lia. }
  assert (Bc : negb blk = true -> size (m_load m) <= limit mp - Z.of_nat (length (m_head m))).
  { intros Bk. destruct blk; [discriminate|]. rewrite limit_room. change (Z.of_nat (length (m_head m))) with (size (m_head m)). lia. }
  destruct (body_of L (m_flds m) (m_body m) (m_load m) (limit mp - Z.of_nat (length (m_head m))) (negb blk) [] Law W2 Bc)
    as (t & c & Sc & Tc & Tv & ex & d & Tb). rewrite app_nil_r in Tb.
  set (ec := match c with Some n => n | None => 0 end) in *.
  set (s1 := {| buf := m_body m; newr := true; chk := t; expect := ec;
                maxb := if t then limit mp - Z.of_nat (length (m_head m)) else Z.min (limit mp - Z.of_nat (length (m_head m))) ec;
                dst := d_init L; cur := Some {| flds := m_flds m; cont := []; eof := false; pushes := 0 |}; fin := fin L s |} : st L).
  assert (Ph : parse_header L mp blk (set_buf L s (bytes_of m)) = POk L s1).
  { unfold parse_header. cbn [buf set_buf]. replace (blen (bytes_of m) <? min_request) with false by (unfold min_request; lia).
    replace (blen (until (bytes_of m) (limit mp + 1)) >? limit mp) with false by lia. rewrite H2, Sc.
    assert (Sk : skipn (length (m_head m)) (bytes_of m) = m_body m).
    { unfold bytes_of. rewrite skipn_app, skipn_all, Nat.sub_diag. reflexivity. }
    rewrite Sk. destruct t; [assert (Ec := Tc eq_refl); unfold s1, ec; rewrite Ec|]; reflexivity. }
  assert (Pc : exists s2, parse_content L blk s1 = Some s2 /\ buf L s2 = [] /\ newr L s2 = true /\ cur L s2 = None /\
    fin L s2 = fin L s ++ [request_of m]).
  { unfold parse_content. cbn [chk expect dst buf s1 cur maxb]. rewrite Tb. cbn [cont app].
    assert (G : blk || (blen [] + blen (m_load m) <=?
      (if t then limit mp - Z.of_nat (length (m_head m)) else Z.min (limit mp - Z.of_nat (length (m_head m))) ec)) = true).
    { destruct blk; [reflexivity|]. simpl orb. specialize (Bc eq_refl). change (blen []) with 0.
      change (blen (m_load m)) with (size (m_load m)). destruct t; [lia|]. rewrite (Tv eq_refl). lia. }
    rewrite G. eexists. split; [reflexivity|]. cbn [buf newr cur fin]. repeat split.
    unfold request_of. cbn [flds pushes]. replace (blk && newr L s1 || negb blk && true) with true by (destruct blk; reflexivity).
    reflexivity. }
  destruct Pc as (s2 & P1 & P2 & P3 & P4 & P5). exists s2.
  assert (Ex0 : 0 <= ec).
  { destruct (bool_dec t true) as [Et|Et].
    - unfold ec. rewrite (Tc Et). lia.
    - apply not_true_is_false in Et. rewrite (Tv Et). unfold size. lia. }
  assert (W : wf L s2).
  { apply (content_wf L blk s1 s2); [exact Ex0|discriminate|exact P1]. }
  split; [|split; [split; auto|exact P5]].
  assert (Rd : round L mp blk (set_buf L s (bytes_of m)) = Cont L s2).
  { unfold round. cbn [buf set_buf]. destruct (bytes_of m) as [|x l] eqn:Eb; [unfold blen in Ln; simpl in Ln; lia|]. rewrite <- Eb in *.
    change (newr L (set_buf L s (bytes_of m))) with (newr L s). rewrite I2, Ph, P1. reflexivity. }
  assert (Lb : length (bytes_of m) = S (pred (length (bytes_of m)))) by (unfold blen in Ln; lia).
  rewrite Lb. cbn [loop]. rewrite Rd. unfold round. rewrite P2. reflexivity.
Qed.

Lemma serve_msgs ms : forall s, idle s -> Forall (well_formed (p_head L)) ms -> Forall (fits mp blk) ms ->
  (strict (p_head L) \/ size (concat (map bytes_of ms)) <= room mp) ->
  exists s1, serve L mp blk s (map bytes_of ms) = Ok (Some s1) /\ idle s1 /\ fin L s1 = fin L s ++ map request_of ms.
Proof.
  induction ms as [|m ms IH]; intros s I0 W F Sf.
  - exists s. split; [reflexivity|]. split; [exact I0|]. simpl. rewrite app_nil_r. reflexivity.
  - inversion W; subst. inversion F; subst. simpl in Sf.
    destruct (feed_msg s m I0) as (s1 & E1 & I1 & F1); try assumption.
    { destruct Sf as [Sf|Sf]; [auto|right]. unfold size in *. rewrite app_length in Sf. lia. }
    destruct (IH s1 I1) as (s2 & E2 & I2 & F2); try assumption.
    { destruct Sf as [Sf|Sf]; [auto|right]. unfold size in *. rewrite app_length in Sf. lia. }
    exists s2. split; [cbn [map serve]; rewrite E1; exact E2|]. split; [exact I2|]. rewrite F2, F1, <- app_assoc. reflexivity.
Qed.

Lemma idle_init : idle (st_init L).
Proof. repeat split; simpl; try lia; discriminate. Qed.

Lemma split_l ws1 ws2 : concat ws1 = concat ws2 -> regular (p_head L) mp (concat ws1) ->
  serve L mp blk (st_init L) ws1 = serve L mp blk (st_init L) ws2 /\
  exists r, serve L mp blk (st_init L) ws1 = Ok r.
Proof.
  intros E R. destruct idle_init as (I1 & _ & _ & I4).
  assert (Sf : safe L mp (buf L (st_init L)) (concat ws1)).
  { destruct R as [R|R]; [left; exact R|right]. rewrite I1, limit_room. exact R. }
  assert (Ff : feed L mp blk (st_init L) [] = Ok (Some (st_init L))) by reflexivity.
  rewrite (serve_once L Law mp blk ws1 (st_init L) I4 Sf). rewrite E in Sf.
  rewrite (serve_once L Law mp blk ws2 (st_init L) I4 Sf).
  assert (On : forall ws, once L mp blk (st_init L) ws = feed L mp blk (st_init L) (concat ws)).
  { intros [|w ws]; [exact (eq_sym Ff)|reflexivity]. }
  rewrite !On, E. split; [reflexivity|]. destruct (feed_wf L Law mp blk (st_init L) (concat ws2) I4) as (r & -> & _). eauto.
Qed.

Lemma requests_l ms ws : Forall (well_formed (p_head L)) ms -> Forall (fits mp blk) ms ->
  concat ws = concat (map bytes_of ms) -> regular (p_head L) mp (concat ws) ->
  exists s, serve L mp blk (st_init L) ws = Ok (Some s) /\ fin L s = map request_of ms /\ cur L s = None /\ buf L s = [].
Proof.
  intros W F E R. destruct (split_l ws (map bytes_of ms) E R) as [-> _]. rewrite E in R.
  destruct (serve_msgs ms (st_init L) idle_init W F R) as (s & S1 & (I1 & _ & I3 & _) & S2).
  exists s. split; [exact S1|]. split; [exact S2|]. auto.
Qed.
End Server.
