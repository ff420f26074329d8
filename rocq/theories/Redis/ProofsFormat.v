(** Format strings. *)
From Verif.Lib Require Import Base Bytes ListX Decimal.
From Coq Require Import Strings.Byte.
From Coq Require Strings.String.
From Verif.Redis Require Import Model Spec.
Import String.StringSyntax.
Local Open Scope string_scope.
Local Open Scope list_scope.
Local Open Scope Z_scope.
Local Open Scope out_scope.

Section Words.
  Variable render : text -> list arg -> option text.
  Variable num : text -> Z -> text.
  Hypothesis Hrender : forall conv z a, In conv standard_conversions -> render conv (ANum z :: a) = Some (num conv z).

  Lemma format_default f x r2 x0 y (args : list arg) touched cur params :
    x0 = x25 -> Byte.eqb y x73 = false -> Byte.eqb y x62 = false -> Byte.eqb y x25 = false -> x = x0 :: y :: r2 ->
    format_loop render (S f) x args touched cur params =
    let print (p : text) (args args1 : list arg) :=
      let l := S (length x - length p) in
      if (l <? 14)%nat then
        match render (firstn l x) args with
        | None => Ok None
        | Some t => match p with [] => UB | _ :: p1 => format_loop render f p1 args1 true (cur ++ t) params end
        end
      else format_loop render f r2 args1 true cur params in
    match find_conversion (skip_spec (y :: r2)) with
    | CBad => Ok None
    | CNum p => match args with ANum z :: a => print p args a | _ => UB end
    | COther p => print p args args
    end.
  Proof.
    intros -> H1 H2 H3 ->. cbn [format_loop]. change (Byte.eqb x25 x25) with true. cbn [negb orb].
    rewrite H1, H2, H3. reflexivity.
  Qed.

  (** A conversion: where the conversion character is. *)
  Definition conv_shape (conv : text) : Prop :=
    exists y r2 l, conv = x25 :: y :: r2 /\ Byte.eqb y x73 = false /\ Byte.eqb y x62 = false /\ Byte.eqb y x25 = false /\
      (length conv <= 13)%nat /\
      forall rest, find_conversion (skip_spec (y :: r2 ++ rest)) = CNum (l :: rest).

  Lemma shapes : Forall conv_shape standard_conversions.
  Proof.
    unfold standard_conversions. repeat constructor; unfold conv_shape;
      (eexists _, _, _; split; [reflexivity|]; split; [reflexivity|]; split; [reflexivity|]; split; [reflexivity|];
       split; [cbn; lia|]; intros rest; cbn; reflexivity).
  Qed.

  Lemma format_conv conv z rest f args touched cur params :
    In conv standard_conversions ->
    format_loop render (S f) (conv ++ rest) (ANum z :: args) touched cur params =
    format_loop render f rest args true (cur ++ num conv z) params.
  Proof.
    intros H. pose proof (Hrender conv z args H) as HR.
    pose proof (proj1 (Forall_forall _ _) shapes conv H) as (y & r2 & l & E & H1 & H2 & H3 & HL & HF).
    rewrite (format_default f (conv ++ rest) (r2 ++ rest) x25 y) by (auto; rewrite E; reflexivity).
    rewrite HF. cbv beta zeta.
    assert (EL : S (length (conv ++ rest) - length (l :: rest)) = length conv)
      by (rewrite app_length; rewrite E; cbn [length]; lia).
    rewrite !EL.
    destruct (Nat.ltb_spec (length conv) 14); [|lia].
    rewrite firstn_exact_app by reflexivity. rewrite HR. reflexivity.
  Qed.

  Lemma format_piece p rest f args touched cur params :
    piece_ok p -> rest = rest ->
    format_loop render (S f) (piece_format p ++ rest) (piece_args p ++ args) touched cur params =
    format_loop render f rest args true (cur ++ piece_text num p) params.
  Proof.
    intros Hok _. destruct p as [c| |s|s|conv z]; cbn [piece_format piece_args piece_text app].
    - destruct Hok as (H1 & H2 & H3). cbn [format_loop].
      destruct (byte_eqb_spec c x25); [congruence|]. cbn [negb orb].
      destruct (byte_eqb_spec c x20); [congruence|]. reflexivity.
    - change (str "%%") with [x25; x25]. reflexivity.
    - change (str "%s") with [x25; x73]. reflexivity.
    - change (str "%b") with [x25; x62]. reflexivity.
    - apply format_conv. exact Hok.
  Qed.

  Lemma format_word w : Forall piece_ok w -> w <> [] ->
    forall rest f args touched cur params,
      format_loop render (length w + f) (flat_map piece_format w ++ rest) (flat_map piece_args w ++ args) touched cur params =
      format_loop render f rest args true (cur ++ flat_map (piece_text num) w) params.
  Proof.
    induction w as [|p w IH]; intros Hok Hne rest f args touched cur params; [congruence|].
    inversion Hok as [|? ? Hp Hw]; subst. cbn [length Nat.add flat_map]. rewrite <- !app_assoc.
    rewrite format_piece by auto. destruct w as [|p2 w].
    - cbn [length Nat.add flat_map app]. rewrite app_nil_r. reflexivity.
    - rewrite IH by (auto; congruence). rewrite <- app_assoc. reflexivity.
  Qed.

  (** Spaces end a word that has been touched. *)
  Lemma format_spaces n : forall rest f args params,
    format_loop render (n + f) (repeat x20 n ++ rest) args false [] params = format_loop render f rest args false [] params.
  Proof. induction n as [|n IH]; intros; [reflexivity|]. cbn [Nat.add repeat app format_loop]. apply IH. Qed.
  Lemma format_break n rest f args cur params :
    n <> O ->
    format_loop render (n + f) (repeat x20 n ++ rest) args true cur params =
    format_loop render f rest args false [] (params ++ [cur]).
  Proof.
    intros Hn. destruct n as [|n]; [congruence|]. cbn [Nat.add repeat app format_loop].
    change (negb (Byte.eqb x20 x25)) with true. cbn [orb]. change (Byte.eqb x20 x20) with true. cbn match.
    apply format_spaces.
  Qed.

  Definition cost (ws : list (nat * word)) : nat := fold_right (fun x n => fst x + length (snd x) + n)%nat O ws.

  (** After the first word. *)
  Lemma format_words ws : words_ok false ws ->
    forall k f cur params,
      format_loop render (cost ws + (k + S f)) (words_format ws ++ repeat x20 k) (words_args ws) true cur params =
      Ok (Some (params ++ [cur] ++ words_params num ws)).
  Proof.
    induction ws as [|[n w] ws IH]; intros Hok k f cur params.
    - cbn [cost fold_right words_format words_args words_params flat_map map app Nat.add].
      destruct k as [|k]; [reflexivity|].
      rewrite <- (app_nil_r (repeat x20 (S k))). rewrite format_break by congruence. cbn [format_loop].
      reflexivity.
    - cbn [words_ok] in Hok. destruct Hok as (Hn & Hw & Hp & Hr). specialize (Hn eq_refl).
      unfold words_format, words_args, words_params, cost in *. cbn [flat_map fold_right fst snd map].
      rewrite <- !app_assoc. rewrite <- !Nat.add_assoc. rewrite format_break by exact Hn.
      rewrite format_word by auto. cbn [app].
      rewrite IH by exact Hr. rewrite <- !app_assoc. reflexivity.
  Qed.

  Lemma cost_bound ws first : words_ok first ws -> (cost ws <= length (words_format ws))%nat.
  Proof.
    revert first. induction ws as [|[n w] ws IH]; intros first Hok; [cbn; lia|].
    cbn [words_ok] in Hok. destruct Hok as (_ & Hw & Hp & Hr). specialize (IH false Hr).
    unfold cost, words_format in *. cbn [fold_right flat_map fst snd]. rewrite !app_length, repeat_length.
    assert (length w <= length (flat_map piece_format w))%nat; [|lia].
    clear - Hp. induction Hp as [|p w Hp Hw IH]; [cbn; lia|]. cbn [flat_map length]. rewrite app_length.
    assert (1 <= length (piece_format p))%nat; [|lia].
    destruct p as [c| |s|s|conv z]; cbn [piece_format]; try (cbn; lia).
    pose proof (proj1 (Forall_forall _ _) shapes conv Hp) as (y & r2 & l & E & _). rewrite E. cbn [length]. lia.
  Qed.

  Lemma format_command_words ws k :
    words_ok true ws ->
    format_command render (words_format ws ++ repeat x20 k) (words_args ws) = Ok (Some (words_params num ws)).
  Proof.
    intros Hok. unfold format_command. pose proof (cost_bound ws true Hok) as C. rewrite app_length, repeat_length.
    assert (E : exists f, S (length (words_format ws) + k) = (cost ws + (k + S f))%nat).
    { exists (length (words_format ws) - cost ws)%nat. lia. }
    destruct E as (f & ->). destruct ws as [|[n w] ws].
    - cbn [cost fold_right words_format words_args words_params flat_map map app Nat.add].
      rewrite <- (app_nil_r (repeat x20 k)). rewrite format_spaces. reflexivity.
    - cbn [words_ok] in Hok. destruct Hok as (_ & Hw & Hp & Hr).
      pose proof (format_words ws Hr k f) as W.
      unfold words_format, words_args, words_params, cost in *. cbn [flat_map fold_right fst snd map].
      rewrite <- !app_assoc. rewrite <- !Nat.add_assoc. rewrite format_spaces. rewrite format_word by auto. cbn [app].
      rewrite W. reflexivity.
  Qed.
End Words.
