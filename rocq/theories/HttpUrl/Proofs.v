(** Proofs about URL parsing. *)
From Verif.Lib Require Import Base Bytes Decimal.
From Coq Require Import Strings.Byte.
From Coq Require Strings.String.
From Verif.HttpUrl Require Import Model Spec.
Import String.StringSyntax.
Local Open Scope string_scope.
Local Open Scope list_scope.
Local Open Scope Z_scope.
Local Open Scope out_scope.

Notation len := (fun s : text => Z.of_nat (length s)).

(** ** Spaces *)
Lemma repeat_or s : (exists n, s = repeat x20 n) \/ (exists n y r, s = repeat x20 n ++ y :: r /\ y <> x20).
Proof.
  induction s as [|c s IH]; [left; exists 0%nat; reflexivity|].
  destruct (byte_eq_dec c x20) as [->|N].
  - destruct IH as [(n & ->)|(n & y & r & -> & Hy)].
    + left. exists (S n). reflexivity.
    + right. exists (S n), y, r. split; auto.
  - right. exists 0%nat, c, s. auto.
Qed.

Lemma all_spaces_repeat n m : all_spaces (repeat x20 n ++ m) (Z.of_nat n) = Ok true.
Proof.
  induction n as [|n IH]; [destruct m; reflexivity|].
  cbn [repeat app all_spaces].
  destruct (Z.ltb_spec 0 (Z.of_nat (S n))); [|lia].
  change (Byte.eqb x20 x20) with true. cbv iota.
  replace (Z.of_nat (S n) - 1) with (Z.of_nat n) by lia. exact IH.
Qed.

Lemma all_spaces_other n y r m : y <> x20 ->
  all_spaces (repeat x20 n ++ (y :: r) ++ m) (len (repeat x20 n ++ y :: r)) = Ok false.
Proof.
  intros Hy. induction n as [|n IH].
  - cbn [repeat app all_spaces length].
    destruct (Z.ltb_spec 0 (Z.of_nat (S (length r)))); [|lia].
    destruct (Byte.eqb y x20) eqn:E; [apply Byte.byte_dec_bl in E; contradiction|].
    destruct (Z.eqb_spec (Z.of_nat (S (length r))) 0); [lia|reflexivity].
  - cbn [repeat app all_spaces length].
    destruct (Z.ltb_spec 0 (Z.of_nat (S (length (repeat x20 n ++ y :: r))))); [|lia].
    change (Byte.eqb x20 x20) with true. cbv iota.
    replace (Z.of_nat (S (length (repeat x20 n ++ y :: r))) - 1) with (len (repeat x20 n ++ y :: r)) by (cbv beta; lia).
    exact IH.
Qed.

Definition blank (s : text) : Prop := exists n, s = repeat x20 n.
Definition bad (s : text) : Prop := exists n y r, s = repeat x20 (S n) ++ y :: r /\ y <> x20.

Lemma spaces_end (s : text) m : (all_spaces (s ++ m) (len s) = Ok true /\ blank s) \/
  (all_spaces (s ++ m) (len s) = Ok false /\ bad (x20 :: s)).
Proof.
  destruct (repeat_or s) as [(n & ->)|(n & y & r & -> & Hy)].
  - left. split; [|exists n; reflexivity]. cbv beta. rewrite repeat_length. apply all_spaces_repeat.
  - right. split; [|exists n, y, r; auto]. rewrite <- app_assoc. apply all_spaces_other. exact Hy.
Qed.

(** ** Every stage reads a prefix without spaces *)
Lemma eqb_false c d : c <> d -> Byte.eqb c d = false.
Proof. intros N. destruct (Byte.eqb c d) eqn:E; [apply Byte.byte_dec_bl in E; contradiction|reflexivity]. Qed.
Lemma eqb_true c d : Byte.eqb c d = true -> c = d.
Proof. apply Byte.byte_dec_bl. Qed.

Definition nosp (s : text) : Prop := ~ In x20 s.
Definition starts (l s : text) : Prop := s = [] \/ exists c r, s = c :: r /\ In c l.
(** Where a stage may stop: at the end, at one of [l], or before trailing spaces. *)
Definition halts (l s : text) : Prop := starts l s \/ blank s.

Definition at_end {A} (after : text) (o : option (A * text)) : option (A * text * Z) :=
  match o with None => None | Some (a, t) => Some (a, t ++ x00 :: after, len t) end.

Definition staged {A} (l : text) (t : text) (f : text -> Z -> out (option (A * text * Z))) : Prop :=
  exists o, (forall after, f (t ++ x00 :: after) (len t) = Ok (at_end after o)) /\
  exists a t', t = a ++ t' /\ nosp a /\
    match o with Some (_, t0) => t0 = t' /\ halts l t' | None => bad t' end.

Lemma staged_cons {A} l c t f (g : text -> Z -> out (option (A * text * Z))) : c <> x20 ->
  staged l t f -> (forall after, g (c :: t ++ x00 :: after) (len (c :: t)) = f (t ++ x00 :: after) (len t)) -> staged l (c :: t) g.
Proof.
  intros N (o & H & a & t' & -> & Ha & Ho) E. exists o. split.
  - intros after. rewrite <- H. apply E.
  - exists (c :: a), t'. split; [reflexivity|]. split; [|exact Ho].
    intros [I|I]; [congruence|exact (Ha I)].
Qed.

Lemma scan_staged cond bounded l t : forall tok,
  (forall left c, cond left c = false -> In c l) ->
  (bounded = false -> forall left, cond left x00 = false) ->
  staged l t (fun m left => scan cond bounded m left tok).
Proof.
  induction t as [|c t IH]; intros tok Hc Hb.
  - exists (Some (tok, [])). split.
    + intros after. cbn [app length at_end]. destruct bounded; [reflexivity|].
      cbn [scan andb]. rewrite (Hb eq_refl). reflexivity.
    + exists [], []. split; [reflexivity|]. split; [intros []|]. split; [reflexivity|]. left. left. reflexivity.
  - assert (E : forall after, scan cond bounded ((c :: t) ++ x00 :: after) (len (c :: t)) tok =
      if cond (len (c :: t)) c then
        if Byte.eqb c x20 then
          let! b := all_spaces (t ++ x00 :: after) (len t) in
          if b : bool then Ok (Some (tok, (c :: t) ++ x00 :: after, len (c :: t))) else Ok None
        else scan cond bounded (t ++ x00 :: after) (len t) (tok ++ [c])
      else Ok (Some (tok, (c :: t) ++ x00 :: after, len (c :: t)))).
    { intros after. cbv beta. cbn [app scan].
      replace (Z.of_nat (length (c :: t)) - 1) with (Z.of_nat (length t)) by (cbn [length]; lia).
      destruct (Z.ltb_spec 0 (Z.of_nat (length (c :: t)))); [|cbn [length] in *; lia].
      destruct bounded; reflexivity. }
    destruct (cond (len (c :: t)) c) eqn:Ec.
    + destruct (byte_eq_dec c x20) as [->|N].
      * change (Byte.eqb x20 x20) with true in E. cbv iota in E. destruct (repeat_or t) as [(n & Et)|(n & y & r & Et & Hy)].
        -- exists (Some (tok, x20 :: t)). split.
           ++ intros after. rewrite E. cbv beta.
              rewrite Et at 1 2. rewrite repeat_length, all_spaces_repeat. reflexivity.
           ++ exists [], (x20 :: t). split; [reflexivity|]. split; [intros []|]. split; [reflexivity|].
              right. exists (S n). rewrite Et. reflexivity.
        -- exists None. split.
           ++ intros after. rewrite E. cbv beta.
              rewrite Et at 1 2. rewrite <- app_assoc. rewrite (all_spaces_other n y r _ Hy). reflexivity.
           ++ exists [], (x20 :: t). split; [reflexivity|]. split; [intros []|].
              exists n, y, r. rewrite Et. auto.
      * apply (staged_cons l c t (fun m left => scan cond bounded m left (tok ++ [c]))); [exact N|apply IH; assumption|].
        intros after. change (c :: t ++ x00 :: after) with ((c :: t) ++ x00 :: after).
        rewrite E. rewrite (eqb_false _ _ N). reflexivity.
    + exists (Some (tok, c :: t)). split.
      * intros after. rewrite E. reflexivity.
      * exists [], (c :: t). split; [reflexivity|]. split; [intros []|]. split; [reflexivity|].
        left. right. exists c, t. split; [reflexivity|]. eapply Hc, Ec.
Qed.

Lemma neg2_false c a b : negb (Byte.eqb c a) && negb (Byte.eqb c b) = false -> In c [a; b].
Proof.
  destruct (Byte.eqb c a) eqn:E1; [apply eqb_true in E1; subst; intros _; left; reflexivity|].
  destruct (Byte.eqb c b) eqn:E2; [apply eqb_true in E2; subst; intros _; right; left; reflexivity|discriminate].
Qed.

Lemma stage_id {A} l t (x : A) : halts l t -> staged l t (fun m left => Ok (Some (x, m, left))).
Proof.
  intros H. exists (Some (x, t)). split; [reflexivity|].
  exists [], t. split; [reflexivity|]. split; [intros []|]. split; [reflexivity|exact H].
Qed.

Definition end_nul : text := [x00].
Lemma starts_not (l : text) c (t : text) : halts (c :: l) t -> (forall r, t <> c :: r) -> halts l t.
Proof.
  intros [[->|(d & r & -> & [->|I])]|B] N.
  - left. left. reflexivity.
  - exfalso. eapply N. reflexivity.
  - left. right. eauto.
  - right. exact B.
Qed.

Lemma staged_ext {A} l t (f g : text -> Z -> out (option (A * text * Z))) :
  (forall after, f (t ++ x00 :: after) (len t) = g (t ++ x00 :: after) (len t)) -> staged l t g -> staged l t f.
Proof. intros E (o & H & R). exists o. split; [intros after; rewrite E; apply H|exact R]. Qed.

Lemma first_is (c : byte) (t : text) : (exists r, t = c :: r) \/ (forall r, t <> c :: r).
Proof.
  destruct t as [|d t]; [right; discriminate|].
  destruct (byte_eq_dec d c) as [->|N]; [left; eauto|right; congruence].
Qed.

Lemma staged_delim {A} (l : text) c t (f : text -> Z -> out (option (A * text * Z))) g x :
  c <> x20 -> c <> x00 -> halts (c :: l) t ->
  (forall t, staged l t g) ->
  (forall m left, f (c :: m) left = g m (left - 1)) ->
  (forall d m left, d <> c -> f (d :: m) left = Ok (Some (x, d :: m, left))) ->
  staged l t f.
Proof.
  intros N N0 Ht Hg E1 E2. destruct (first_is c t) as [(r & ->)|H].
  - apply (staged_cons l c r g); [exact N|apply Hg|]. intros after. rewrite E1. f_equal. cbn [length]. lia.
  - apply (staged_ext l t f (fun m left => Ok (Some (x, m, left)))); [|apply stage_id, (starts_not l c t Ht H)].
    intros after. destruct t as [|d t]; cbn [app].
    + apply E2. congruence.
    + apply E2. intros ->. eapply H. reflexivity.
Qed.

Lemma path_staged t : halts [x2f; x3f; x23; x00] t -> staged [x3f; x23; x00] t parse_path.
Proof.
  intros H. eapply (staged_delim [x3f; x23; x00] x2f t _ (fun m left => scan (fun _ c => negb (Byte.eqb c x3f) && negb (Byte.eqb c x23)) true m left [x2f]));
    [discriminate|discriminate|exact H| | |].
  - intros t0. apply scan_staged; [|discriminate].
    intros left c Hc. apply neg2_false in Hc. destruct Hc as [<-|[<-|[]]]; cbn; tauto.
  - reflexivity.
  - intros d m left N. cbn [parse_path]. rewrite (eqb_false _ _ N). reflexivity.
Qed.

Lemma query_staged t : halts [x3f; x23; x00] t -> staged [x23; x00] t parse_query.
Proof.
  intros H. eapply (staged_delim [x23; x00] x3f t _ (fun m left => scan (fun _ c => negb (Byte.eqb c x00) && negb (Byte.eqb c x23)) false m left []));
    [discriminate|discriminate|exact H| | |].
  - intros t0. apply scan_staged; [|reflexivity].
    intros left c Hc. apply neg2_false in Hc. destruct Hc as [<-|[<-|[]]]; cbn; tauto.
  - reflexivity.
  - intros d m left N. cbn [parse_query]. rewrite (eqb_false _ _ N). reflexivity.
Qed.

Lemma fragment_staged t : halts [x23; x00] t -> staged [x00] t parse_fragment.
Proof.
  intros H. eapply (staged_delim [x00] x23 t _ (fun m left => scan (fun _ _ => true) true m left []));
    [discriminate|discriminate|exact H| | |].
  - intros t0. apply scan_staged; discriminate.
  - reflexivity.
  - intros d m left N. cbn [parse_fragment]. rewrite (eqb_false _ _ N). reflexivity.
Qed.

(** ** The authority *)
Lemma valid_colon : valid_char x3a = true. Proof. reflexivity. Qed.
Lemma valid_at : valid_char x40 = true. Proof. reflexivity. Qed.
Lemma valid_space : valid_char x20 = true. Proof. reflexivity. Qed.

Lemma fast_cases c : (fast_check c = KContinue /\ ~ In c [x00; x23; x2f; x3f; x20; x3a; x40]) \/
  (fast_check c = KBreak /\ In c [x00; x23; x2f; x3f]) \/ (fast_check c = KCheck /\ In c [x20; x3a; x40]).
Proof. destruct c; unfold fast_check; cbn [existsb Byte.eqb orb]; try (right; left; split; [reflexivity|cbn; tauto]);
  try (right; right; split; [reflexivity|cbn; tauto]); left; split; try reflexivity; cbn; intuition discriminate. Qed.

Definition is_none {A} (o : option A) : bool := match o with None => true | Some _ => false end.

Lemma authority_nil after tok scheme userinfo :
  authority ([] ++ x00 :: after) (len []) tok scheme userinfo = Ok (Some (scheme, userinfo, tok, x00 :: after, 0)).
Proof. reflexivity. Qed.

Lemma authority_cons c t after tok scheme userinfo :
  authority ((c :: t) ++ x00 :: after) (len (c :: t)) tok scheme userinfo =
  match fast_check c with
  | KContinue => authority (t ++ x00 :: after) (len t) (tok ++ [c]) scheme userinfo
  | KBreak => Ok (Some (scheme, userinfo, tok, (c :: t) ++ x00 :: after, len (c :: t)))
  | KCheck =>
      if Byte.eqb c x3a then
        match t with
        | x :: y :: t2 =>
            if Byte.eqb x x2f && Byte.eqb y x2f && is_none scheme
            then authority (t2 ++ x00 :: after) (len t2) [] (Some tok) userinfo
            else authority (t ++ x00 :: after) (len t) (tok ++ [c]) scheme userinfo
        | _ => authority (t ++ x00 :: after) (len t) (tok ++ [c]) scheme userinfo
        end
      else if Byte.eqb c x40 then
        match userinfo with
        | None => authority (t ++ x00 :: after) (len t) [] scheme (Some tok)
        | Some _ => authority (t ++ x00 :: after) (len t) (tok ++ [c]) scheme userinfo
        end
      else
        let! b := all_spaces (t ++ x00 :: after) (len t) in
        if b : bool then Ok (Some (scheme, userinfo, tok, (c :: t) ++ x00 :: after, len (c :: t))) else Ok None
  end.
Proof.
  cbv beta. cbn [app authority].
  destruct (Z.ltb_spec 0 (Z.of_nat (length (c :: t)))); [|cbn [length] in *; lia].
  replace (Z.of_nat (length (c :: t)) - 1) with (Z.of_nat (length t)) by (cbn [length]; lia).
  destruct (fast_cases c) as [(-> & _)|[(-> & _)|(-> & Hc)]]; [reflexivity|reflexivity|].
  destruct Hc as [<-|[<-|[<-|[]]]].
  - reflexivity.
  - rewrite valid_colon. cbn [negb]. change (Byte.eqb x3a x3a) with true. cbv iota.
    destruct t as [|x [|y t2]].
    + cbn [app]. change (Byte.eqb x00 x2f) with false. reflexivity.
    + cbn [app]. destruct (Byte.eqb x x2f); [|reflexivity]. reflexivity.
    + cbn [app].
      replace (Z.of_nat (length (x3a :: x :: y :: t2)) - 3) with (Z.of_nat (length t2)) by (cbn [length]; lia).
      destruct (Byte.eqb x x2f); [|reflexivity]. destruct (Byte.eqb y x2f); [|reflexivity].
      destruct scheme; reflexivity.
  - reflexivity.
Qed.

Lemma authority_staged n : forall t tok scheme userinfo, (length t <= n)%nat ->
  staged [x2f; x3f; x23; x00] t (fun m left => authority m left tok scheme userinfo).
Proof.
  induction n as [|n IH]; intros t tok scheme userinfo Hn.
  { destruct t; [|cbn in Hn; lia]. apply (staged_ext _ [] _ (fun m left => Ok (Some (scheme, userinfo, tok, m, left))));
      [reflexivity|]. apply stage_id. left. left. reflexivity. }
  destruct t as [|c t].
  { apply (staged_ext _ [] _ (fun m left => Ok (Some (scheme, userinfo, tok, m, left))));
      [reflexivity|]. apply stage_id. left. left. reflexivity. }
  assert (L : (length t <= n)%nat) by (cbn in Hn; lia).
  destruct (fast_cases c) as [(E & Hc)|[(E & Hc)|(E & Hc)]].
  - apply (staged_cons _ c t (fun m left => authority m left (tok ++ [c]) scheme userinfo)).
    + intros ->. apply Hc. cbn. tauto.
    + apply IH. exact L.
    + intros after. change (c :: t ++ x00 :: after) with ((c :: t) ++ x00 :: after).
      rewrite authority_cons, E. reflexivity.
  - apply (staged_ext _ (c :: t) _ (fun m left => Ok (Some (scheme, userinfo, tok, m, left)))).
    + intros after. rewrite authority_cons, E. reflexivity.
    + apply stage_id. left. right. exists c, t. split; [reflexivity|]. cbn in Hc |- *. tauto.
  - destruct Hc as [<-|[<-|[<-|[]]]].
    + destruct (repeat_or t) as [(k & Et)|(k & y & r & Et & Hy)].
      * exists (Some (scheme, userinfo, tok, x20 :: t)). split.
        -- intros after. rewrite authority_cons, E. change (Byte.eqb x20 x3a) with false. change (Byte.eqb x20 x40) with false.
           cbv iota. cbv beta. rewrite Et at 1 2. rewrite repeat_length, all_spaces_repeat. reflexivity.
        -- exists [], (x20 :: t). split; [reflexivity|]. split; [intros []|]. split; [reflexivity|].
           right. exists (S k). rewrite Et. reflexivity.
      * exists None. split.
        -- intros after. rewrite authority_cons, E. change (Byte.eqb x20 x3a) with false. change (Byte.eqb x20 x40) with false.
           cbv iota. cbv beta. rewrite Et at 1 2. rewrite <- app_assoc. rewrite (all_spaces_other k y r _ Hy). reflexivity.
        -- exists [], (x20 :: t). split; [reflexivity|]. split; [intros []|].
           exists k, y, r. rewrite Et. auto.
    + assert (G : (forall after, authority ((x3a :: t) ++ x00 :: after) (len (x3a :: t)) tok scheme userinfo =
                    authority (t ++ x00 :: after) (len t) (tok ++ [x3a]) scheme userinfo) ->
                  staged [x2f; x3f; x23; x00] (x3a :: t) (fun m left => authority m left tok scheme userinfo)).
      { intros G. apply (staged_cons _ x3a t (fun m left => authority m left (tok ++ [x3a]) scheme userinfo));
          [discriminate|apply IH; exact L|exact G]. }
      destruct t as [|x [|y t2]].
      * apply G. intros after. rewrite authority_cons, E. reflexivity.
      * apply G. intros after. rewrite authority_cons, E. reflexivity.
      * destruct (Byte.eqb x x2f && Byte.eqb y x2f && is_none scheme) eqn:EE.
        -- apply andb_prop in EE. destruct EE as (EE & Es). apply andb_prop in EE. destruct EE as (Ex & Ey).
           apply eqb_true in Ex. apply eqb_true in Ey. subst x y. destruct scheme; [discriminate|].
           assert (K : staged [x2f; x3f; x23; x00] t2 (fun m left => authority m left [] (Some tok) userinfo))
             by (apply IH; cbn in L; lia).
           destruct K as (o & H & a & t' & -> & Ha & Ho). exists o. split.
           ++ intros after. rewrite <- H. rewrite authority_cons, E. reflexivity.
           ++ exists (x3a :: x2f :: x2f :: a), t'. split; [reflexivity|]. split; [|exact Ho].
              intros [I|[I|[I|I]]]; try discriminate. exact (Ha I).
        -- apply G. intros after. rewrite authority_cons, E. change (Byte.eqb x3a x3a) with true. cbv iota.
           rewrite EE. reflexivity.
    + destruct userinfo as [ui|].
      * apply (staged_cons _ x40 t (fun m left => authority m left (tok ++ [x40]) scheme (Some ui))); [discriminate|apply IH; exact L|].
        intros after. change (x40 :: t ++ x00 :: after) with ((x40 :: t) ++ x00 :: after).
        rewrite authority_cons, E. reflexivity.
      * apply (staged_cons _ x40 t (fun m left => authority m left [] scheme (Some tok))); [discriminate|apply IH; exact L|].
        intros after. change (x40 :: t ++ x00 :: after) with ((x40 :: t) ++ x00 :: after).
        rewrite authority_cons, E. reflexivity.
Qed.

(** ** The whole *)
Lemma skip_repeat n t after : (forall r, t <> x20 :: r) ->
  skip_leading (repeat x20 n ++ t ++ x00 :: after) (len (repeat x20 n ++ t)) = Ok (t ++ x00 :: after, len t).
Proof.
  intros H. induction n as [|n IH].
  - cbn [repeat app]. destruct t as [|c t]; [reflexivity|]. cbn [app skip_leading].
    rewrite (eqb_false c x20) by (intros ->; eapply H; reflexivity). reflexivity.
  - cbn [repeat app skip_leading]. change (Byte.eqb x20 x20) with true.
    destruct (Z.ltb_spec 0 (len (x20 :: repeat x20 n ++ t))); [|cbn [length] in *; lia]. cbn [andb].
    replace (len (x20 :: repeat x20 n ++ t) - 1) with (len (repeat x20 n ++ t)) by (cbn [length]; lia).
    exact IH.
Qed.

Lemma leading t : exists n s, t = repeat x20 n ++ s /\ forall r, s <> x20 :: r.
Proof.
  destruct (repeat_or t) as [(n & ->)|(n & y & r & -> & Hy)].
  - exists n, []. rewrite app_nil_r. split; [reflexivity|discriminate].
  - exists n, (y :: r). split; [reflexivity|congruence].
Qed.

Definition outcome (s : text) : Prop :=
  exists o, (forall after, parse_url (s ++ x00 :: after) (len s) = Ok o) /\
  exists n a t', s = repeat x20 n ++ a ++ t' /\ nosp a /\
    match o with Some _ => halts [x00] t' | None => bad t' /\ a <> [] end.

Lemma bad_first a t : (forall r, a ++ t <> x20 :: r) -> bad t -> a <> [].
Proof. intros H (n & y & r & -> & _) ->. eapply H. reflexivity. Qed.

Lemma nosp_app a b : nosp a -> nosp b -> nosp (a ++ b).
Proof. unfold nosp. intros Ha Hb I. apply in_app_or in I. tauto. Qed.

Lemma parse_outcome s : outcome s.
Proof.
  destruct (leading s) as (n & t & -> & Ht). unfold outcome, parse_url.
  destruct (authority_staged (length t) t [] None None (le_n _)) as (o1 & H1 & a1 & t1 & E1 & N1 & S1).
  destruct o1 as [[[[scheme userinfo] tok] t1']|].
  2:{ exists None. split.
      - intros after. rewrite <- app_assoc. rewrite (skip_repeat n t after Ht). cbn [bind].
        rewrite H1. reflexivity.
      - exists n, a1, t1. rewrite E1. split; [reflexivity|]. split; [exact N1|]. split; [exact S1|].
        eapply bad_first; [|exact S1]. rewrite <- E1. exact Ht. }
  destruct S1 as (-> & S1).
  destruct (path_staged t1 S1) as (o2 & H2 & a2 & t2 & E2 & N2 & S2).
  destruct o2 as [[path t2']|].
  2:{ exists None. split.
      - intros after. rewrite <- app_assoc. rewrite (skip_repeat n t after Ht). cbn [bind].
        rewrite H1. cbn [bind at_end]. destruct (split_host_port tok). rewrite H2. reflexivity.
      - exists n, (a1 ++ a2), t2. split; [rewrite E1, E2, <- app_assoc; reflexivity|]. split; [apply nosp_app; assumption|].
        split; [exact S2|]. eapply bad_first; [|exact S2]. rewrite <- app_assoc, <- E2, <- E1. exact Ht. }
  destruct S2 as (-> & S2).
  destruct (query_staged t2 S2) as (o3 & H3 & a3 & t3 & E3 & N3 & S3).
  destruct o3 as [[query t3']|].
  2:{ exists None. split.
      - intros after. rewrite <- app_assoc. rewrite (skip_repeat n t after Ht). cbn [bind].
        rewrite H1. cbn [bind at_end]. destruct (split_host_port tok). rewrite H2. cbn [bind at_end]. rewrite H3. reflexivity.
      - exists n, (a1 ++ a2 ++ a3), t3. split; [rewrite E1, E2, E3, <- !app_assoc; reflexivity|].
        split; [repeat apply nosp_app; assumption|].
        split; [exact S3|]. eapply bad_first; [|exact S3]. rewrite <- !app_assoc, <- E3, <- E2, <- E1. exact Ht. }
  destruct S3 as (-> & S3).
  destruct (fragment_staged t3 S3) as (o4 & H4 & a4 & t4 & E4 & N4 & S4).
  assert (Et : t = (a1 ++ a2 ++ a3 ++ a4) ++ t4) by (rewrite E1, E2, E3, E4, <- !app_assoc; reflexivity).
  assert (Nt : nosp (a1 ++ a2 ++ a3 ++ a4)) by (repeat apply nosp_app; assumption).
  destruct (split_host_port tok) as [host port] eqn:EP.
  destruct o4 as [[fragment t4']|].
  - destruct S4 as (-> & S4). eexists (Some _). split.
    + intros after. rewrite <- app_assoc. rewrite (skip_repeat n t after Ht). cbn [bind].
      rewrite H1. cbn [bind at_end]. rewrite EP. rewrite H2. cbn [bind at_end]. rewrite H3. cbn [bind at_end].
      rewrite H4. cbn [bind at_end]. reflexivity.
    + exists n, (a1 ++ a2 ++ a3 ++ a4), t4. rewrite Et. split; [reflexivity|]. split; [exact Nt|exact S4].
  - exists None. split.
    + intros after. rewrite <- app_assoc. rewrite (skip_repeat n t after Ht). cbn [bind].
      rewrite H1. cbn [bind at_end]. rewrite EP. rewrite H2. cbn [bind at_end]. rewrite H3. cbn [bind at_end].
      rewrite H4. reflexivity.
    + exists n, (a1 ++ a2 ++ a3 ++ a4), t4. rewrite Et. split; [reflexivity|]. split; [exact Nt|]. split; [exact S4|].
      eapply bad_first; [|exact S4]. rewrite <- Et. exact Ht.
Qed.

Lemma parse_total s : exists o, forall after, parse_url (s ++ x00 :: after) (len s) = Ok o.
Proof. destruct (parse_outcome s) as (o & H & _). eauto. Qed.

Lemma last_app (a : text) : a <> [] -> exists b x, a = b ++ [x].
Proof. destruct a as [|c a] using rev_ind; [contradiction|eauto]. Qed.

Lemma no_inner n a k : nosp a -> ~ inner_space (repeat x20 n ++ a ++ repeat x20 k).
Proof.
  intros Na (p & x & b & y & c & E & Hx & Hy). induction n as [|n IH] in p, E |- *.
  - cbn [repeat app] in E.
    assert (K : forall a p, nosp a -> a ++ repeat x20 k = p ++ [x] ++ str " " ++ b ++ [y] ++ c -> False).
    { clear - Hx Hy. induction a as [|d a IH]; intros p Na E.
      - assert (In y (repeat x20 k)). { change (In y ([] ++ repeat x20 k)). rewrite E. rewrite !in_app_iff. right. right. right. right. left. left. reflexivity. }
        apply repeat_spec in H. contradiction.
      - destruct p as [|e p].
        + cbn [app] in E. injection E as -> E.
          destruct a as [|d a].
          * cbn [app] in E. assert (In y (repeat x20 k)). { rewrite E. cbn. right. rewrite !in_app_iff. right. left. reflexivity. }
            apply repeat_spec in H. contradiction.
          * cbn [app] in E. injection E as -> E. apply Na. right. left. reflexivity.
        + injection E as -> E. eapply (IH p); [|exact E]. intros I. apply Na. right. exact I. }
    eapply K; [exact Na|exact E].
  - cbn [repeat app] in E. destruct p as [|e p].
    + cbn [app] in E. injection E as E _. congruence.
    + injection E as _ E. eapply IH. exact E.
Qed.

Lemma parse_space s after : ~ In x00 s ->
  (parse_url (s ++ x00 :: after) (len s) = Ok None <-> inner_space s).
Proof.
  intros N0. destruct (parse_outcome s) as (o & H & n & a & t' & Es & Na & Ho). rewrite H.
  destruct o as [u|].
  - split; [discriminate|]. intros I. exfalso.
    assert (B : blank t').
    { destruct Ho as [[->|(c & r & -> & Hc)]|B]; [exists 0%nat; reflexivity| |exact B].
      exfalso. apply N0. rewrite Es. rewrite !in_app_iff. right. right. left. destruct Hc as [Hc|[]]. auto. }
    destruct B as (k & ->). rewrite Es in I. exact (no_inner n a k Na I).
  - split; [|reflexivity]. intros _. destruct Ho as ((k & y & r & -> & Hy) & Hne).
    destruct (last_app a Hne) as (b & x & ->).
    exists (repeat x20 n ++ b), x, (repeat x20 k), y, r. split; [|split; [|exact Hy]].
    + rewrite Es. rewrite <- !app_assoc. reflexivity.
    + intros ->. apply Na. rewrite in_app_iff. right. left. reflexivity.
Qed.
