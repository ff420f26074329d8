(** The reader on blocks and on the bytes of the blocks. *)
From Verif.Lib Require Import Base Bytes ListX Decimal.
From Coq Require Import Strings.Byte.
From Verif.Redis Require Import Model.
Local Open Scope Z_scope.
Local Open Scope out_scope.

(** ** The same reader on one byte string *)
Definition fl_integer (s : text) : out (res (Z * text * Z)) :=
  match seek_newline s with
  | None => Ok More
  | Some len =>
      if (24 <=? len)%nat then Ok Perr
      else let! z := convert s len in Ok (Got (z, skipn (len + 2) s, Z.of_nat len + 2))
  end.
Definition fl_line (mk : text -> body) (s : text) : out (res (item * text * Z)) :=
  match seek_newline s with
  | None => Ok More
  | Some len => Ok (Got (IDone (mk (firstn len s)), skipn (len + 2) s, 1 + (Z.of_nat len + 2)))
  end.
Definition fl_int (s : text) : out (res (item * text * Z)) :=
  let! r := fl_integer s in
  match r with
  | Got (z, s1, k) => Ok (Got (IDone (BInt z), s1, 1 + k))
  | More => Ok More
  | Perr => Ok Perr
  end.
Definition fl_bulk (s : text) : out (res (item * text * Z)) :=
  let! r := fl_integer s in
  match r with
  | Got (z, s1, k) =>
      if z <? 0 then Ok (Got (IDone BNil, s1, 1 + k))
      else if Z.of_nat (length s1) <? z + 2 then Ok More
      else Ok (Got (IDone (BBulk (firstn (Z.to_nat z) s1)), skipn (Z.to_nat (z + 2)) s1, 1 + (z + 2) + k))
  | More => Ok More
  | Perr => Ok Perr
  end.
Definition fl_array (ridx : Z) (s : text) : out (res (item * text * Z)) :=
  if ridx =? 8 then Ok Perr
  else
    let! r := fl_integer s in
    match r with
    | Got (z, s1, k) =>
        let n := i32 z in
        Ok (Got (if n =? -1 then IDone BNil else if 0 <? n then IOpen n else IDone (BArray []), s1, 1 + k))
    | More => Ok More
    | Perr => Ok Perr
    end.
Definition fl_item (ridx : Z) (s : text) : out (res (item * text * Z)) :=
  match s with
  | [] => Ok More
  | t :: b =>
      let next (k : text -> out (res (item * text * Z))) := match b with [] => Ok More | _ => k b end in
      if Byte.eqb t x2d then next (fl_line BError)
      else if Byte.eqb t x2b then next (fl_line BStatus)
      else if Byte.eqb t x3a then next fl_int
      else if Byte.eqb t x24 then next fl_bulk
      else if Byte.eqb t x2a then next (fl_array ridx)
      else Ok Perr
  end.
Definition fl_serial (s : text) : out (res (Z * text * Z)) :=
  match s with
  | [] => Ok More
  | t :: b =>
      if negb (Byte.eqb t x40) then Ok (Got (0, t :: b, 0))
      else match b with
           | [] => Ok More
           | _ =>
               let! r := fl_integer b in
               match r with
               | Got (z, s1, k) => Ok (Got (z mod 2 ^ 32, s1, k + 1))
               | More => Ok More
               | Perr => Ok Perr
               end
           end
  end.
Fixpoint fl_loop (fuel : nat) (stack : list frame) (s : text) (consumed : Z) (first : bool) (pipeline : Z)
  : out (res (reply * Z)) :=
  match fuel with
  | O => NoFuel
  | S f =>
      match s with
      | [] => Ok More
      | _ =>
          let ridx := Z.of_nat (length stack) in
          let! x := if first || (1 <? pipeline) && (ridx =? 1) then fl_serial s else Ok (Got (0, s, 0)) in
          match x with
          | More => Ok More
          | Perr => Ok Perr
          | Got (sn, s1, k1) =>
              let! x := fl_item ridx s1 in
              match x with
              | More => Ok More
              | Perr => Ok Perr
              | Got (IOpen n, s2, k2) =>
                  if 8 <? ridx + 1 then UB
                  else fl_loop f ((sn, n, []) :: stack) s2 (consumed + k1 + k2) false pipeline
              | Got (IDone b, s2, k2) =>
                  match finish stack (Reply sn b) with
                  | inr r => Ok (Got (r, consumed + k1 + k2))
                  | inl stack1 => fl_loop f stack1 s2 (consumed + k1 + k2) false pipeline
                  end
              end
          end
      end
  end.
Definition start (pipeline : Z) : list frame := if 1 <? pipeline then [(0, pipeline, [])] else [].
Definition fl_reply (s : text) (pipeline : Z) : out (res (reply * Z)) :=
  match s with [] => Ok More | _ => fl_loop (S (length s)) (start pipeline) s 0 true pipeline end.

(** Forgetting the blocks of a result. *)
Definition flat {A} (o : out (res (A * cursor * Z))) : out (res (A * text * Z)) :=
  match o with
  | Ok (Got (a, c, k)) => Ok (Got (a, concat c, k))
  | Ok More => Ok More
  | Ok Perr => Ok Perr
  | UB => UB
  | Abort => Abort
  | NoFuel => NoFuel
  end.

Lemma readable_some cur c : readable cur = Some c -> concat c = concat cur /\ exists x p r, c = (x :: p) :: r.
Proof.
  induction cur as [|[|x p] r IH]; cbn; intros H; try discriminate.
  - apply IH in H. exact H.
  - injection H as <-. split; [reflexivity|]. eauto.
Qed.
Lemma readable_none cur : readable cur = None -> concat cur = [].
Proof. induction cur as [|[|x p] r IH]; cbn; intros H; try discriminate; auto. Qed.

Lemma byte_eqb_true a b : Byte.eqb a b = true -> a = b.
Proof. intros H. destruct (byte_eqb_spec a b); congruence. Qed.

(** ** Line ends *)
Lemma seek_cons x y r :
  seek_newline (x :: y :: r) = if Byte.eqb x x0d && Byte.eqb y x0a then Some O else option_map S (seek_newline (y :: r)).
Proof. reflexivity. Qed.

Lemma seek_app_some s t n : seek_newline s = Some n -> seek_newline (s ++ t) = Some n.
Proof.
  revert n; induction s as [|x [|y r] IH]; intros n H; try discriminate.
  change ((x :: y :: r) ++ t) with (x :: y :: (r ++ t)). rewrite seek_cons in *.
  destruct (Byte.eqb x x0d && Byte.eqb y x0a); [exact H|].
  destruct (seek_newline (y :: r)) as [m|] eqn:E; [|discriminate].
  change (y :: r ++ t) with ((y :: r) ++ t). rewrite (IH m eq_refl). exact H.
Qed.
(** The prefix has no line end. *)
Lemma seek_app_none s t :
  seek_newline s = None ->
  seek_newline (s ++ t) =
    match t with
    | [] => None
    | y :: _ =>
        if match s with [] => false | _ => Byte.eqb (last s x00) x0d && Byte.eqb y x0a end then Some (length s - 1)%nat
        else option_map (Nat.add (length s)) (seek_newline t)
    end.
Proof.
  induction s as [|x s IH]; intros H.
  - destruct t as [|y t]; [reflexivity|]. change ([] ++ y :: t) with (y :: t).
    destruct (seek_newline (y :: t)); reflexivity.
  - destruct t as [|y t]; [rewrite app_nil_r; exact H|].
    destruct s as [|x2 s].
    + change ([x] ++ y :: t) with (x :: y :: t). rewrite seek_cons. cbn [last length Nat.sub].
      destruct (Byte.eqb x x0d && Byte.eqb y x0a); [reflexivity|]. destruct (seek_newline (y :: t)); reflexivity.
    + rewrite seek_cons in H. change ((x :: x2 :: s) ++ y :: t) with (x :: x2 :: (s ++ y :: t)). rewrite seek_cons.
      destruct (Byte.eqb x x0d && Byte.eqb x2 x0a); [discriminate|].
      destruct (seek_newline (x2 :: s)) as [m|] eqn:E; [discriminate|].
      specialize (IH eq_refl). change (x2 :: s ++ y :: t) with ((x2 :: s) ++ y :: t). rewrite IH.
      change (last (x :: x2 :: s) x00) with (last (x2 :: s) x00).
      destruct (Byte.eqb (last (x2 :: s) x00) x0d && Byte.eqb y x0a).
      * cbn [option_map length]. f_equal; lia.
      * destruct (seek_newline (y :: t)); cbn [option_map length]; [f_equal; lia|reflexivity].
Qed.

Lemma seek_bound s n : seek_newline s = Some n -> (n + 2 <= length s)%nat.
Proof.
  revert n; induction s as [|x [|y r] IH]; intros n H; try discriminate.
  rewrite seek_cons in H. destruct (Byte.eqb x x0d && Byte.eqb y x0a).
  - injection H as <-. cbn [length]. lia.
  - destruct (seek_newline (y :: r)) as [m|] eqn:E; [|discriminate]. injection H as <-.
    specialize (IH m eq_refl). cbn [length] in *. lia.
Qed.

Lemma var_string_flat cur : forall fuel x p,
  (length (p :: cur) < fuel)%nat -> p <> [] -> x = p :: cur ->
  match seek_newline (concat x) with
  | None => var_string fuel x = Ok None
  | Some len => exists c, var_string fuel x = Ok (Some (len, c)) /\ concat c = skipn (len + 2) (concat x)
  end.
Proof.
  assert (G : forall n cur fuel x p, (length cur <= n)%nat -> (length (p :: cur) < fuel)%nat -> p <> [] -> x = p :: cur ->
    match seek_newline (concat x) with
    | None => var_string fuel x = Ok None
    | Some len => exists c, var_string fuel x = Ok (Some (len, c)) /\ concat c = skipn (len + 2) (concat x)
    end).
  2:{ intros. eapply G; eauto. }
  clear cur. induction n as [|n IH]; intros cur fuel x p Hn Hf Hp ->.
  - destruct cur; [|cbn in Hn; lia]. destruct fuel as [|f]; [lia|]. cbn [var_string concat]. rewrite app_nil_r.
    destruct (seek_newline p) as [len|] eqn:E; [|reflexivity].
    destruct (skipn (len + 2) p) eqn:Es; eexists; (split; [reflexivity|]); cbn [concat]; [reflexivity|apply app_nil_r].
  - destruct fuel as [|f]; [lia|]. cbn [var_string]. change (concat (p :: cur)) with (p ++ concat cur).
    destruct (seek_newline p) as [len|] eqn:E.
    + rewrite (seek_app_some _ _ _ E). eexists; split; [reflexivity|].
      rewrite skipn_lt_app by (apply seek_bound in E; lia).
      destruct (skipn (len + 2) p); reflexivity.
    + rewrite (seek_app_none _ _ E).
      destruct (readable cur) as [next|] eqn:Er.
      2:{ rewrite (readable_none _ Er). reflexivity. }
      destruct (readable_some _ _ Er) as (Ec & s0 & s & rest2 & ->).
      rewrite <- Ec. change (concat ((s0 :: s) :: rest2)) with (s0 :: (s ++ concat rest2)).
      destruct p as [|p0 p']; [congruence|]. set (p := p0 :: p') in *. cbn [hd].
      destruct (Byte.eqb (last p x00) x0d && Byte.eqb s0 x0a) eqn:E1.
      * eexists; split; [reflexivity|].
        assert (Hl : (length p - 1 + 2 = length p + 1)%nat) by (subst p; cbn [length]; lia). rewrite Hl.
        rewrite skipn_length_app by lia. replace (length p + 1 - length p)%nat with 1%nat by lia. cbn [skipn].
        destruct s as [|s1 s]; cbn [length Nat.eqb]; reflexivity.
      * destruct s as [|s1 s].
        { cbn [length Nat.leb andb]. change (s0 :: [] ++ concat rest2) with (concat ([s0] :: rest2)).
          assert (Hl : (length rest2 <= n)%nat).
          { clear - Er Hn. revert n Hn. induction cur as [|[|a b] r IHr]; cbn in *; intros n Hn; try discriminate.
            - apply IHr with (n := n) in Er; lia.
            - injection Er as -> -> ->. lia. }
          assert (Hl2 : (S (length rest2) <= length cur)%nat).
          { clear - Er. induction cur as [|[|a b] r IHr]; cbn in *; try discriminate.
            - apply IHr in Er. lia.
            - injection Er as -> -> ->. lia. }
          assert (Hf' : (length ([s0] :: rest2) < f)%nat) by (cbn [length] in *; lia).
          pose proof (IH rest2 f ([s0] :: rest2) [s0] Hl Hf' ltac:(congruence) eq_refl) as R.
          destruct (seek_newline (concat ([s0] :: rest2))) as [m|].
          - destruct R as (c & -> & Hc). cbn [bind option_map]. exists c. split.
            + f_equal. f_equal. f_equal. lia.
            + rewrite Hc. rewrite skipn_length_app by lia. f_equal. lia.
          - rewrite R. reflexivity. }
        { change (nth 1 (s0 :: s1 :: s) x00) with s1. change (s0 :: (s1 :: s) ++ concat rest2) with (s0 :: s1 :: (s ++ concat rest2)).
          change (2 <=? length (s0 :: s1 :: s))%nat with true. cbn [andb].
          destruct (Byte.eqb s0 x0d && Byte.eqb s1 x0a) eqn:E2.
          - rewrite seek_cons, E2. cbn [option_map]. rewrite Nat.add_0_r.
            eexists; split; [reflexivity|].
            rewrite skipn_length_app by lia. replace (length p + 2 - length p)%nat with 2%nat by lia.
            destruct s; reflexivity.
          - assert (Hl : (length rest2 <= n)%nat).
            { clear - Er Hn. revert n Hn. induction cur as [|[|a b] r IHr]; cbn in *; intros n Hn; try discriminate.
              - apply IHr with (n := n) in Er; lia.
              - injection Er as -> -> ->. lia. }
            assert (Hl2 : (S (length rest2) <= length cur)%nat).
            { clear - Er. induction cur as [|[|a b] r IHr]; cbn in *; try discriminate.
              - apply IHr in Er. lia.
              - injection Er as -> -> ->. lia. }
            assert (Hf' : (length ((s0 :: s1 :: s) :: rest2) < f)%nat) by (cbn [length] in *; lia).
            pose proof (IH rest2 f ((s0 :: s1 :: s) :: rest2) (s0 :: s1 :: s) Hl Hf' ltac:(congruence) eq_refl) as R.
            change (concat ((s0 :: s1 :: s) :: rest2)) with (s0 :: s1 :: (s ++ concat rest2)) in R.
            destruct (seek_newline (s0 :: s1 :: s ++ concat rest2)) as [m|].
            + destruct R as (c & -> & Hc). cbn [bind option_map]. exists c. split.
              * f_equal. f_equal. f_equal. lia.
              * rewrite Hc. rewrite skipn_length_app by lia. f_equal. lia.
            + rewrite R. reflexivity. }
Qed.

Lemma var_line_flat p cur :
  p <> [] ->
  match seek_newline (concat (p :: cur)) with
  | None => var_line (p :: cur) = Ok None
  | Some len => exists c, var_line (p :: cur) = Ok (Some (len, c)) /\ concat c = skipn (len + 2) (concat (p :: cur))
  end.
Proof. intros H. unfold var_line. eapply var_string_flat; eauto. Qed.

Lemma gather_flat cur n :
  cur <> [] -> 0 <= n <= Z.of_nat (length (concat cur)) -> gather cur n = Ok (firstn (Z.to_nat n) (concat cur)).
Proof.
  revert n; induction cur as [|p rest IH]; intros n Hc Hn; [congruence|].
  cbn [gather concat]. cbn [concat] in Hn. rewrite app_length in Hn.
  destruct (Z.leb_spec n (Z.of_nat (length p))) as [H|H].
  - rewrite firstn_lt_app by lia. reflexivity.
  - assert (rest <> []) by (intros ->; cbn [concat length] in Hn; lia).
    rewrite IH by (auto; lia). cbn [bind]. rewrite firstn_length_app by lia. f_equal. f_equal. f_equal. lia.
Qed.

Lemma fixed_flat cur n :
  0 < n ->
  match fixed_string cur n with
  | None => Z.of_nat (length (concat cur)) < n
  | Some c => n <= Z.of_nat (length (concat cur)) /\ concat c = skipn (Z.to_nat n) (concat cur)
  end.
Proof.
  revert n; induction cur as [|p rest IH]; intros n Hn; cbn [fixed_string concat]; [cbn [length]; lia|].
  rewrite app_length. destruct (Z.ltb_spec n (Z.of_nat (length p))) as [H|H].
  - split; [lia|]. cbn [concat]. rewrite skipn_lt_app by lia. reflexivity.
  - destruct (Z.eqb_spec n (Z.of_nat (length p))) as [H1|H1].
    + split; [lia|]. rewrite skipn_exact_app by lia. reflexivity.
    + specialize (IH (n - Z.of_nat (length p)) ltac:(lia)).
      destruct (fixed_string rest (n - Z.of_nat (length p))) as [c|].
      * destruct IH as [H2 ->]. split; [lia|]. rewrite skipn_length_app by lia. f_equal. lia.
      * lia.
Qed.

Lemma skip_flat blocks n :
  0 <= n <= Z.of_nat (length (concat blocks)) -> concat (skip blocks n) = skipn (Z.to_nat n) (concat blocks).
Proof.
  revert n; induction blocks as [|p rest IH]; intros n Hn; cbn [skip concat]; [rewrite skipn_nil; reflexivity|].
  cbn [concat] in Hn. rewrite app_length in Hn.
  destruct (Z.ltb_spec n (Z.of_nat (length p))) as [H|H].
  - cbn [concat]. rewrite skipn_lt_app by lia. reflexivity.
  - rewrite IH by lia. rewrite skipn_length_app by lia. f_equal. lia.
Qed.

(** ** Integers *)
Lemma convert_loop_firstn s : forall k n v, (n <= k)%nat -> convert_loop (firstn k s) n v = convert_loop s n v.
Proof.
  induction s as [|c r IH]; intros k n v H.
  - rewrite firstn_nil. reflexivity.
  - destruct n as [|n]; [destruct (firstn k (c :: r)); reflexivity|].
    destruct k as [|k]; [lia|]. cbn [firstn convert_loop].
    destruct ((0 <=? _) && _); [|reflexivity]. destruct (i64_max <? _); [reflexivity|].
    destruct (i64_max <? _); [reflexivity|]. apply IH. lia.
Qed.
Lemma convert_firstn s k n : (n <= k)%nat -> (1 <= k)%nat -> convert (firstn k s) n = convert s n.
Proof.
  intros H1 H2. destruct k as [|k]; [lia|]. destruct s as [|c r]; [reflexivity|].
  cbn [firstn convert]. destruct (Byte.eqb c x2d); [|destruct (Byte.eqb c x2b)].
  - rewrite convert_loop_firstn by lia. reflexivity.
  - rewrite convert_loop_firstn by lia. reflexivity.
  - change (c :: firstn k r) with (firstn (S k) (c :: r)). rewrite convert_loop_firstn by lia. reflexivity.
Qed.
Lemma convert_app s t n : (n <= length s)%nat -> s <> [] -> convert (s ++ t) n = convert s n.
Proof.
  intros H1 H2. rewrite <- (convert_firstn (s ++ t) (length s) n H1).
  - rewrite firstn_exact_app; reflexivity.
  - destruct s; [congruence|cbn [length]; lia].
Qed.

Definition as_integer (o : out (res (text * nat * cursor))) : out (res (Z * text * Z)) :=
  let! r := o in
  match r with
  | Got (p, len, c) => let! z := convert p len in Ok (Got (z, concat c, Z.of_nat len + 2))
  | More => Ok More
  | Perr => Ok Perr
  end.
Lemma read_integer_flat p cur : p <> [] -> as_integer (read_integer (p :: cur)) = fl_integer (concat (p :: cur)).
Proof.
  intros Hp. unfold read_integer, fl_integer, as_integer. pose proof (var_line_flat p cur Hp) as V.
  destruct (seek_newline (concat (p :: cur))) as [len|] eqn:E; [|rewrite V; reflexivity].
  destruct V as (c & -> & Hc). cbn [bind]. destruct (24 <=? len)%nat; [reflexivity|].
  pose proof (seek_bound _ _ E) as B.
  destruct (Nat.ltb_spec (length p) len) as [H|H].
  - rewrite gather_flat by (try congruence; lia). cbn [bind]. rewrite Nat2Z.id.
    rewrite convert_firstn by (destruct p; [congruence|cbn [length] in *; lia]).
    destruct (convert _ _); cbn [bind]; try reflexivity. rewrite Hc. reflexivity.
  - cbn [bind]. replace (convert (concat (p :: cur)) len) with (convert p len).
    2:{ cbn [concat]. symmetry. apply convert_app; auto. }
    destruct (convert _ _); cbn [bind]; try reflexivity. rewrite Hc. reflexivity.
Qed.

(** A step that depends on the integer only. *)
Lemma flat_integer {A} p cur (k : Z -> cursor -> Z -> out (res (A * cursor * Z))) (g : Z -> text -> Z -> out (res (A * text * Z))) :
  p <> [] -> (forall z c l, flat (k z c l) = g z (concat c) (l + 2)) ->
  flat (let! r := read_integer (p :: cur) in
        match r with
        | Got (t, len, c) => let! z := convert t len in k z c (Z.of_nat len)
        | More => Ok More
        | Perr => Ok Perr
        end) =
  (let! r := fl_integer (concat (p :: cur)) in
   match r with Got (z, s, n) => g z s n | More => Ok More | Perr => Ok Perr end).
Proof.
  intros Hp H. rewrite <- read_integer_flat by exact Hp. unfold as_integer.
  destruct (read_integer (p :: cur)) as [[[[t len] c]| |]| | |]; cbn [bind]; try reflexivity.
  destruct (convert t len); cbn [bind]; try reflexivity. apply H.
Qed.

Lemma process_line_flat mk p cur : p <> [] -> flat (process_line mk (p :: cur)) = fl_line mk (concat (p :: cur)).
Proof.
  intros Hp. unfold process_line, fl_line. pose proof (var_line_flat p cur Hp) as V.
  destruct (seek_newline (concat (p :: cur))) as [len|] eqn:E; [|rewrite V; reflexivity].
  destruct V as (c & -> & Hc). cbn [bind]. pose proof (seek_bound _ _ E) as B.
  rewrite gather_flat by (try congruence; lia). cbn [bind flat]. rewrite Nat2Z.id, Hc. reflexivity.
Qed.
Lemma process_integer_flat p cur : p <> [] -> flat (process_integer (p :: cur)) = fl_int (concat (p :: cur)).
Proof.
  intros Hp. unfold process_integer, fl_int.
  apply (flat_integer p cur (fun z c l => Ok (Got (IDone (BInt z), c, 1 + (l + 2))))
           (fun z s k => Ok (Got (IDone (BInt z), s, 1 + k))) Hp).
  reflexivity.
Qed.
Lemma process_bulk_flat p cur : p <> [] -> flat (process_bulk (p :: cur)) = fl_bulk (concat (p :: cur)).
Proof.
  intros Hp. unfold process_bulk, fl_bulk.
  apply (flat_integer p cur
    (fun z c l =>
      if z <? 0 then Ok (Got (IDone BNil, c, 1 + (l + 2)))
      else match readable c with
           | None => Ok More
           | Some c1 =>
               match fixed_string c1 (z + 2) with
               | None => Ok More
               | Some c2 => let! s := gather c1 z in Ok (Got (IDone (BBulk s), c2, 1 + (z + 2) + (l + 2)))
               end
           end)
    (fun z s1 k =>
      if z <? 0 then Ok (Got (IDone BNil, s1, 1 + k))
      else if Z.of_nat (length s1) <? z + 2 then Ok More
      else Ok (Got (IDone (BBulk (firstn (Z.to_nat z) s1)), skipn (Z.to_nat (z + 2)) s1, 1 + (z + 2) + k))) Hp).
  intros z c l. destruct (Z.ltb_spec z 0) as [Hz|Hz]; [reflexivity|].
  destruct (readable c) as [c1|] eqn:E.
  - destruct (readable_some _ _ E) as (E1 & x & b & r & ->). rewrite <- E1.
    pose proof (fixed_flat ((x :: b) :: r) (z + 2) ltac:(lia)) as F.
    destruct (fixed_string _ (z + 2)) as [c2|].
    + destruct F as [F1 F2]. rewrite gather_flat by (try congruence; lia). cbn [bind flat].
      destruct (Z.ltb_spec (Z.of_nat (length (concat ((x :: b) :: r)))) (z + 2)); [lia|]. rewrite F2. reflexivity.
    + destruct (Z.ltb_spec (Z.of_nat (length (concat ((x :: b) :: r)))) (z + 2)); [reflexivity|lia].
  - rewrite (readable_none _ E). cbn [length].
    destruct (Z.ltb_spec (Z.of_nat 0) (z + 2)); [reflexivity|lia].
Qed.
Lemma process_array_flat ridx p cur : p <> [] -> flat (process_array ridx (p :: cur)) = fl_array ridx (concat (p :: cur)).
Proof.
  intros Hp. unfold process_array, fl_array. destruct (ridx =? 8); [reflexivity|].
  apply (flat_integer p cur
    (fun z c l => Ok (Got (if i32 z =? -1 then IDone BNil else if 0 <? i32 z then IOpen (i32 z) else IDone (BArray []), c, 1 + (l + 2))))
    (fun z s k => Ok (Got (if i32 z =? -1 then IDone BNil else if 0 <? i32 z then IOpen (i32 z) else IDone (BArray []), s, 1 + k))) Hp).
  reflexivity.
Qed.

Lemma next_flat {A} (k : cursor -> out (res (A * cursor * Z))) g b rest :
  (forall p r, p <> [] -> flat (k (p :: r)) = g (concat (p :: r))) ->
  flat (match readable (b :: rest) with None => Ok More | Some c => k c end) =
  match b ++ concat rest with [] => Ok More | _ => g (b ++ concat rest) end.
Proof.
  intros H. destruct (readable (b :: rest)) as [c|] eqn:E.
  - destruct (readable_some _ _ E) as (E1 & x & p & r & ->). rewrite H by congruence.
    change (b ++ concat rest) with (concat (b :: rest)). rewrite <- E1. reflexivity.
  - apply readable_none in E. cbn [concat] in E. rewrite E. reflexivity.
Qed.

Lemma process_item_flat ridx cur : flat (process_item ridx cur) = fl_item ridx (concat cur).
Proof.
  unfold process_item. destruct (readable cur) as [c|] eqn:E.
  - destruct (readable_some _ _ E) as (E1 & t & b & rest & ->). rewrite <- E1.
    change (concat ((t :: b) :: rest)) with (t :: (b ++ concat rest)). unfold fl_item.
    destruct (Byte.eqb t x2d); [apply next_flat; intros; apply process_line_flat; auto|].
    destruct (Byte.eqb t x2b); [apply next_flat; intros; apply process_line_flat; auto|].
    destruct (Byte.eqb t x3a); [apply next_flat; intros; apply process_integer_flat; auto|].
    destruct (Byte.eqb t x24); [apply next_flat; intros; apply process_bulk_flat; auto|].
    destruct (Byte.eqb t x2a); [apply next_flat; intros; apply process_array_flat; auto|].
    reflexivity.
  - rewrite (readable_none _ E). reflexivity.
Qed.

Lemma process_serial_flat cur : flat (process_serial cur) = fl_serial (concat cur).
Proof.
  unfold process_serial. destruct (readable cur) as [c|] eqn:E.
  - destruct (readable_some _ _ E) as (E1 & t & b & rest & ->). rewrite <- E1.
    change (concat ((t :: b) :: rest)) with (t :: (b ++ concat rest)). unfold fl_serial.
    destruct (Byte.eqb t x40); cbn [negb]; [|reflexivity].
    apply (next_flat (fun c => let! r := read_integer c in
       match r with
       | Got (p, len, c1) => let! z := convert p len in Ok (Got (z mod 2 ^ 32, c1, Z.of_nat len + 3))
       | More => Ok More | Perr => Ok Perr end)
       (fun s => let! r := fl_integer s in
       match r with Got (z, s1, k) => Ok (Got (z mod 2 ^ 32, s1, k + 1)) | More => Ok More | Perr => Ok Perr end)).
    intros p r Hp. apply (flat_integer p r (fun z c l => Ok (Got (z mod 2 ^ 32, c, l + 3)))
       (fun z s k => Ok (Got (z mod 2 ^ 32, s, k + 1))) Hp).
    intros z c l. cbn [flat]. do 3 f_equal. lia.
  - rewrite (readable_none _ E). reflexivity.
Qed.

Lemma fl_serial_nil : fl_serial [] = Ok More.
Proof. reflexivity. Qed.

Lemma loop_flat fuel : forall stack cur consumed first pipeline,
  reply_loop fuel stack cur consumed first pipeline = fl_loop fuel stack (concat cur) consumed first pipeline.
Proof.
  induction fuel as [|f IH]; intros stack cur consumed first pipeline; [reflexivity|].
  cbn [reply_loop fl_loop]. destruct cur as [|p0 cur]; [reflexivity|]. set (cur0 := p0 :: cur).
  set (ridx := Z.of_nat (length stack)).
  set (b := first || (1 <? pipeline) && (ridx =? 1)).
  assert (S1 : flat (if b then process_serial cur0 else Ok (Got (0, cur0, 0))) =
               (if b then fl_serial (concat cur0) else Ok (Got (0, concat cur0, 0)))).
  { destruct b; [apply process_serial_flat|reflexivity]. }
  clearbody cur0.
  destruct (if b then process_serial cur0 else Ok (Got (0, cur0, 0))) as [[[[sn c1] k1]| |]| | |]; cbn [flat] in S1;
    destruct (concat cur0) as [|y s] eqn:Es; rewrite <- S1 || (destruct b; [rewrite fl_serial_nil in S1|]; try discriminate);
    cbn [bind]; try reflexivity.
  - injection S1 as <- E1 <-. pose proof (process_item_flat ridx c1) as P. rewrite E1 in P. cbn in P.
    destruct (process_item ridx c1) as [[[[i c2] k2]| |]| | |]; cbn [flat bind] in *; try discriminate. reflexivity.
  - pose proof (process_item_flat ridx c1) as P.
    destruct (process_item ridx c1) as [[[[i c2] k2]| |]| | |]; cbn [flat bind] in *; rewrite <- P; cbn [bind]; try reflexivity.
    destruct i as [bd|n].
    + destruct (finish stack (Reply sn bd)); [apply IH|reflexivity].
    + destruct (8 <? ridx + 1); [reflexivity|apply IH].
Qed.

Lemma get_reply_flat blocks pipeline : get_reply blocks pipeline = fl_reply (concat blocks) pipeline.
Proof.
  unfold get_reply, fl_reply. destruct (readable blocks) as [c|] eqn:E.
  - destruct (readable_some _ _ E) as (E1 & x & p & r & ->). rewrite loop_flat, E1.
    destruct (concat blocks) eqn:E2; [discriminate E1|reflexivity].
  - rewrite (readable_none _ E). reflexivity.
Qed.
