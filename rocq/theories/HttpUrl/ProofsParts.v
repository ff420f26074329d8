(** Proofs: a URL written from its parts is parsed into these parts. *)
From Verif.Lib Require Import Base Bytes Decimal.
From Coq Require Import Strings.Byte.
From Coq Require Strings.String.
From Verif.HttpUrl Require Import Model Spec Proofs.
Import String.StringSyntax.
Local Open Scope string_scope.
Local Open Scope list_scope.
Local Open Scope Z_scope.
Local Open Scope out_scope.

Lemma digit_not_colon c : 48 <= b2z c <= 57 -> c <> x3a.
Proof. intros H ->. cbn in H. lia. Qed.

(** ** Host and port *)
Lemma split_digit d r acc : 48 <= b2z d <= 57 -> r <> [] -> split_loop (d :: r) acc = split_loop r (d :: acc).
Proof.
  intros H Hr. cbn [split_loop]. destruct r; [contradiction|].
  destruct (Z.leb_spec 48 (b2z d)); [|lia]. destruct (Z.leb_spec (b2z d) 57); [|lia]. reflexivity.
Qed.
Lemma split_digits ds r acc : Forall (fun c => 48 <= b2z c <= 57) ds -> r <> [] ->
  split_loop (rev ds ++ r) acc = split_loop r (ds ++ acc).
Proof.
  intros H Hr. revert acc. induction ds as [|d ds IH] using rev_ind; intros acc; [reflexivity|].
  apply Forall_app in H. destruct H as (H1 & H2). inversion H2; subst.
  rewrite rev_app_distr. cbn [rev app]. rewrite split_digit; [|assumption|].
  - rewrite IH by exact H1. rewrite <- app_assoc. reflexivity.
  - intros E. apply app_eq_nil in E. tauto.
Qed.

Lemma split_port h ds : h <> [] -> Forall (fun c => 48 <= b2z c <= 57) ds ->
  split_host_port (h ++ x3a :: ds) = (h, ds).
Proof.
  intros Hh Hd. unfold split_host_port. rewrite rev_app_distr. cbn [rev]. rewrite <- app_assoc.
  rewrite split_digits; [|exact Hd|discriminate]. cbn [app split_loop].
  destruct (rev h) as [|c r] eqn:E.
  - apply (f_equal (@rev byte)) in E. rewrite rev_involutive in E. contradiction.
  - rewrite <- E, rev_involutive, app_nil_r. reflexivity.
Qed.

Lemma split_none_loop r : (forall c, In c r -> c <> x3a) -> forall acc, split_loop r acc = None.
Proof.
  induction r as [|c r IH]; intros H acc; [reflexivity|]. cbn [split_loop].
  destruct r as [|d r]; [reflexivity|].
  destruct (_ && _).
  - apply IH. intros x Hx. apply H. right. exact Hx.
  - rewrite eqb_false; [reflexivity|]. apply H. left. reflexivity.
Qed.

Lemma split_none h : without (str ":") h \/ (exists h0, h = h0 ++ str "]") -> split_host_port h = (h, []).
Proof.
  unfold split_host_port. intros [H|(h0 & ->)].
  - rewrite split_none_loop; [reflexivity|]. intros c Hc ->. apply in_rev in Hc. apply (H x3a Hc). left. reflexivity.
  - rewrite rev_app_distr. cbn [rev app str]. change (rev (str "]")) with [x5d]. cbn [app split_loop].
    destruct (rev h0); reflexivity.
Qed.

(** ** Running through the authority *)
Lemma fast_plain c : ~ In c (nul ++ str " #/?:@") -> fast_check c = KContinue.
Proof.
  intros H. destruct (fast_cases c) as [(E & _)|[(_ & I)|(_ & I)]]; [exact E| |]; exfalso; apply H;
    cbn in I |- *; tauto.
Qed.

Lemma auth_plain s : without (nul ++ str " #/?:@") s -> forall t after tok scheme userinfo,
  authority ((s ++ t) ++ x00 :: after) (len (s ++ t)) tok scheme userinfo =
  authority (t ++ x00 :: after) (len t) (tok ++ s) scheme userinfo.
Proof.
  induction s as [|c s IH]; intros H t after tok scheme userinfo; [rewrite app_nil_r; reflexivity|].
  change ((c :: s) ++ t) with (c :: s ++ t). rewrite authority_cons.
  rewrite (fast_plain c) by (apply H; left; reflexivity).
  rewrite IH by (intros x Hx; apply H; right; exact Hx). rewrite <- app_assoc. reflexivity.
Qed.

Lemma auth_colons s : without (nul ++ str " #/?@") s -> forall t after tok scheme userinfo,
  (forall s0 r, s = s0 ++ [x3a] -> t <> x2f :: x2f :: r) ->
  authority ((s ++ t) ++ x00 :: after) (len (s ++ t)) tok scheme userinfo =
  authority (t ++ x00 :: after) (len t) (tok ++ s) scheme userinfo.
Proof.
  induction s as [|c s IH]; intros H t after tok scheme userinfo Ht; [rewrite app_nil_r; reflexivity|].
  assert (Hs : without (nul ++ str " #/?@") s) by (intros x Hx; apply H; right; exact Hx).
  assert (Hn : authority ((s ++ t) ++ x00 :: after) (len (s ++ t)) (tok ++ [c]) scheme userinfo =
    authority (t ++ x00 :: after) (len t) (tok ++ c :: s) scheme userinfo).
  { rewrite IH; [rewrite <- app_assoc; reflexivity|exact Hs|]. intros s0 r ->. apply (Ht (c :: s0)). reflexivity. }
  change ((c :: s) ++ t) with (c :: s ++ t). rewrite authority_cons.
  destruct (byte_eq_dec c x3a) as [->|N].
  - change (fast_check x3a) with KCheck. change (Byte.eqb x3a x3a) with true. cbv iota.
    destruct s as [|d s].
    + cbn [app] in Hn |- *. destruct t as [|x [|y t]]; try exact Hn.
      destruct (Byte.eqb x x2f) eqn:Ex; [|exact Hn]. destruct (Byte.eqb y x2f) eqn:Ey; [|exact Hn].
      apply eqb_true in Ex. apply eqb_true in Ey. subst. exfalso. eapply (Ht []); reflexivity.
    + cbn [app] in Hn |- *. assert (Ed : Byte.eqb d x2f = false).
      { apply eqb_false. intros ->. apply (Hs x2f); [left; reflexivity|]. cbn. tauto. }
      rewrite Ed. cbn [andb]. destruct (s ++ t) eqn:Est; exact Hn.
  - rewrite (fast_plain c); [exact Hn|]. intros I. apply (H c); [left; reflexivity|]. cbn in I |- *. intuition congruence.
Qed.

Lemma auth_stop t after tok scheme userinfo : (exists n, t = repeat x20 n) \/ (exists c r, t = c :: r /\ In c (str "/?#")) ->
  authority (t ++ x00 :: after) (len t) tok scheme userinfo = Ok (Some (scheme, userinfo, tok, t ++ x00 :: after, len t)).
Proof.
  intros [(n & ->)|(c & r & -> & Hc)].
  - destruct n as [|n]; [reflexivity|]. cbn [repeat]. rewrite authority_cons.
    change (fast_check x20) with KCheck. change (Byte.eqb x20 x3a) with false. change (Byte.eqb x20 x40) with false.
    cbv iota. cbv beta. rewrite repeat_length, all_spaces_repeat. reflexivity.
  - rewrite authority_cons. replace (fast_check c) with KBreak; [reflexivity|].
    destruct Hc as [<-|[<-|[<-|[]]]]; reflexivity.
Qed.

(** ** Running through the rest *)
Lemma scan_cons cond bounded c t after tok : scan cond bounded ((c :: t) ++ x00 :: after) (len (c :: t)) tok =
  if cond (len (c :: t)) c then
    if Byte.eqb c x20 then
      let! b := all_spaces (t ++ x00 :: after) (len t) in
      if b : bool then Ok (Some (tok, (c :: t) ++ x00 :: after, len (c :: t))) else Ok None
    else scan cond bounded (t ++ x00 :: after) (len t) (tok ++ [c])
  else Ok (Some (tok, (c :: t) ++ x00 :: after, len (c :: t))).
Proof.
  cbv beta. cbn [app scan].
  replace (Z.of_nat (length (c :: t)) - 1) with (Z.of_nat (length t)) by (cbn [length]; lia).
  destruct (Z.ltb_spec 0 (Z.of_nat (length (c :: t)))); [|cbn [length] in *; lia].
  destruct bounded; reflexivity.
Qed.

Lemma scan_run cond bounded s : (forall c left, In c s -> cond left c = true /\ c <> x20) -> forall t after tok,
  scan cond bounded ((s ++ t) ++ x00 :: after) (len (s ++ t)) tok =
  scan cond bounded (t ++ x00 :: after) (len t) (tok ++ s).
Proof.
  induction s as [|c s IH]; intros H t after tok; [rewrite app_nil_r; reflexivity|].
  change ((c :: s) ++ t) with (c :: s ++ t). rewrite scan_cons.
  destruct (H c (Z.of_nat (length (c :: s ++ t))) (or_introl eq_refl)) as (-> & N).
  rewrite (eqb_false _ _ N). rewrite IH by (intros x left Hx; apply H; right; exact Hx).
  rewrite <- app_assoc. reflexivity.
Qed.

Lemma scan_stop cond bounded t after tok :
  (exists n, t = repeat x20 n) \/ (exists c r, t = c :: r /\ forall left, cond left c = false) ->
  (bounded = false -> forall left, cond left x00 = false) ->
  scan cond bounded (t ++ x00 :: after) (len t) tok = Ok (Some (tok, t ++ x00 :: after, len t)).
Proof.
  intros [(n & ->)|(c & r & -> & Hc)] Hb.
  - destruct n as [|n].
    + cbn [repeat app length scan]. destruct bounded; [reflexivity|]. rewrite (Hb eq_refl). reflexivity.
    + cbn [repeat]. rewrite scan_cons.
      destruct (cond _ x20); [|reflexivity]. change (Byte.eqb x20 x20) with true. cbv iota. cbv beta.
      rewrite repeat_length, all_spaces_repeat. reflexivity.
  - cbn [app scan]. destruct (bounded && _); [reflexivity|]. rewrite Hc. reflexivity.
Qed.

Definition ends (l t : text) : Prop := (exists n, t = repeat x20 n) \/ (exists c r, t = c :: r /\ In c l).

Lemma path_run path t after : path = [] \/ (exists r, path = str "/" ++ r) -> without (str " #?") path -> ends (str "?#") t ->
  parse_path ((path ++ t) ++ x00 :: after) (len (path ++ t)) = Ok (Some (path, t ++ x00 :: after, len t)).
Proof.
  intros Hp Hw Ht.
  destruct Hp as [->|(r & ->)].
  - cbn [app]. destruct Ht as [(n & ->)|(c & r & -> & Hc)].
    + destruct n; reflexivity.
    + destruct Hc as [<-|[<-|[]]]; reflexivity.
  - change (str "/" ++ r) with (x2f :: r) in *. cbn [app parse_path]. change (Byte.eqb x2f x2f) with true. cbv iota.
    replace (len (x2f :: r ++ t) - 1) with (len (r ++ t)) by (cbn [length]; lia).
    rewrite scan_run.
    + cbn [app]. apply scan_stop; [|discriminate].
      destruct Ht as [Ht|(c & r1 & -> & Hc)]; [left; exact Ht|right]. exists c, r1. split; [reflexivity|].
      destruct Hc as [<-|[<-|[]]]; reflexivity.
    + intros c left Hc. specialize (Hw c (or_intror Hc)).
      split; [|intros ->; apply Hw; cbn; tauto].
      rewrite !eqb_false; [reflexivity| |]; intros ->; apply Hw; cbn; tauto.
Qed.

Lemma query_run q t after : (forall s, q = Some s -> without (nul ++ str " #") s) -> ends (str "#") t ->
  parse_query ((given q (fun s => str "?" ++ s) ++ t) ++ x00 :: after) (len (given q (fun s => str "?" ++ s) ++ t)) =
  Ok (Some (text_of q, t ++ x00 :: after, len t)).
Proof.
  intros Hw Ht. destruct q as [s|]; cbn [given text_of].
  - change (str "?" ++ s) with (x3f :: s). cbn [app parse_query]. change (Byte.eqb x3f x3f) with true. cbv iota.
    replace (len (x3f :: s ++ t) - 1) with (len (s ++ t)) by (cbn [length]; lia).
    rewrite scan_run.
    + cbn [app]. apply scan_stop; [|reflexivity].
      destruct Ht as [Ht|(c & r1 & -> & Hc)]; [left; exact Ht|right]. exists c, r1. split; [reflexivity|].
      destruct Hc as [<-|[]]; reflexivity.
    + intros c left Hc. specialize (Hw s eq_refl c Hc).
      split; [|intros ->; apply Hw; cbn; tauto].
      rewrite !eqb_false; [reflexivity| |]; intros ->; apply Hw; cbn; tauto.
  - cbn [app]. destruct Ht as [(n & ->)|(c & r & -> & Hc)].
    + destruct n; reflexivity.
    + destruct Hc as [<-|[]]; reflexivity.
Qed.

Lemma fragment_run f t after : (forall s, f = Some s -> without (str " ") s) -> (exists n, t = repeat x20 n) ->
  parse_fragment ((given f (fun s => str "#" ++ s) ++ t) ++ x00 :: after) (len (given f (fun s => str "#" ++ s) ++ t)) =
  Ok (Some (text_of f, t ++ x00 :: after, len t)).
Proof.
  intros Hw Ht. destruct f as [s|]; cbn [given text_of].
  - change (str "#" ++ s) with (x23 :: s). cbn [app parse_fragment]. change (Byte.eqb x23 x23) with true. cbv iota.
    replace (len (x23 :: s ++ t) - 1) with (len (s ++ t)) by (cbn [length]; lia).
    rewrite scan_run.
    + cbn [app]. apply scan_stop; [left; exact Ht|discriminate].
    + intros c left Hc. split; [reflexivity|]. intros ->. apply (Hw s eq_refl x20 Hc). left. reflexivity.
  - cbn [app]. destruct Ht as (n & ->). destruct n; reflexivity.
Qed.


Lemma ends_opt l o (c : byte) t : In c l -> ends l t -> ends l (given o (fun s => [c] ++ s) ++ t).
Proof.
  intros Hc Ht. destruct o as [s|]; [|exact Ht]. right. exists c, (s ++ t). split; [reflexivity|exact Hc].
Qed.

Lemma ends_mono l l' t : incl l l' -> ends l t -> ends l' t.
Proof. intros Hi [H|(c & r & -> & Hc)]; [left; exact H|right; exists c, r; split; [reflexivity|apply Hi, Hc]]. Qed.

Lemma not_dslash l t r : ends l t -> ~ In x2f l -> t <> x2f :: r.
Proof.
  intros [(n & ->)|(c & r0 & -> & Hc)] N E.
  - destruct n; discriminate.
  - injection E as -> ->. contradiction.
Qed.

Lemma parse_parts p n k after : parts_ok p ->
  (forall r, write p <> str " " ++ r) /\
  parse_url ((repeat x20 n ++ write p ++ repeat x20 k) ++ x00 :: after) (len (repeat x20 n ++ write p ++ repeat x20 k)) = Ok (Some (url_of p)).
Proof.
  intros (Hsch & Hui & Hh & Hh2 & Hport & Hp1 & Hp2 & Hq & Hf).
  set (t3 := given (p_fragment p) (fun s => str "#" ++ s) ++ repeat x20 k).
  set (t2 := given (p_query p) (fun s => str "?" ++ s) ++ t3).
  set (t1 := p_path p ++ t2).
  set (port := given (p_port p) (fun s => str ":" ++ s)).
  set (ui := given (p_userinfo p) (fun s => s ++ str "@")).
  set (sch := given (p_scheme p) (fun s => s ++ str "://")).
  assert (Ew : write p ++ repeat x20 k = sch ++ ui ++ p_host p ++ port ++ t1).
  { unfold write, sch, ui, port, t1, t2, t3. rewrite <- !app_assoc. reflexivity. }
  assert (E3 : ends (str "#") t3).
  { apply ends_opt; [left; reflexivity|]. left. eauto. }
  assert (E2 : ends (str "?#") t2).
  { apply ends_opt; [left; reflexivity|]. eapply ends_mono; [|exact E3]. intros c Hc. right. exact Hc. }
  assert (E1 : ends (str "/?#") t1).
  { unfold t1. destruct Hp1 as [->|(r & ->)].
    - eapply ends_mono; [|exact E2]. intros c Hc. right. exact Hc.
    - right. exists x2f, (r ++ t2). split; [reflexivity|left; reflexivity]. }
  (* the host and the port are followed by the path *)
  assert (Ehp : without (nul ++ str " #/?@") (p_host p ++ port)).
  { intros c Hc I. apply in_app_or in Hc. destruct Hc as [Hc|Hc]; [exact (Hh c Hc I)|].
    unfold port in Hc. destruct (p_port p) as [ds|] eqn:Ep; [|destruct Hc].
    destruct (Hport ds eq_refl) as (_ & Hd & _). destruct Hc as [<-|Hc]; [cbn in I; intuition discriminate|].
    rewrite Forall_forall in Hd. specialize (Hd c Hc).
    cbn in I. destruct I as [<-|[<-|[<-|[<-|[<-|[<-|[]]]]]]]; cbn in Hd; lia. }
  assert (Eend : forall s0 r, p_host p ++ port = s0 ++ [x3a] -> t1 <> x2f :: x2f :: r).
  { intros s0 r E. unfold port in E. destruct (p_port p) as [ds|] eqn:Ep.
    - destruct (Hport ds eq_refl) as (_ & Hd & Hor). cbn [given] in E.
      destruct ds as [|d ds] using rev_ind.
      + destruct Hor as [Hor|Hor]; [contradiction|]. unfold t1. intros Et.
        destruct Hp1 as [Hp1|(r1 & Hp1)]; rewrite Hp1 in *.
        * cbn [app] in Et. eapply (not_dslash _ t2 _ E2); [|exact Et]. cbn. intuition discriminate.
        * change (str "/" ++ r1) with (x2f :: r1) in *. cbn [app] in Et. injection Et as Et.
          destruct r1 as [|d r1]; cbn [app] in Et.
          -- eapply (not_dslash _ t2 _ E2); [|exact Et]. cbn. intuition discriminate.
          -- injection Et as -> Et. eapply Hor. reflexivity.
      + clear IHds. rewrite !app_assoc in E. apply app_inj_tail in E. destruct E as (_ & ->).
        apply Forall_app in Hd. destruct Hd as (_ & Hd). inversion Hd; subst. cbn in *. lia.
    - cbn [given] in E. rewrite app_nil_r in E. destruct Hh2 as [Hh2|(h0 & Eh)].
      + exfalso. apply (Hh2 x3a); [rewrite E; apply in_or_app; right; left; reflexivity|left; reflexivity].
      + rewrite Eh in E. change (str "]") with [x5d] in E. apply app_inj_tail in E. destruct E as (_ & E). discriminate. }
  assert (Esplit : split_host_port (p_host p ++ port) = (p_host p, text_of (p_port p))).
  { unfold port. destruct (p_port p) as [ds|] eqn:Ep; cbn [given text_of].
    - destruct (Hport ds eq_refl) as (Hne & Hd & _). apply split_port; assumption.
    - rewrite app_nil_r. apply split_none. exact Hh2. }
  assert (Hns : forall r, sch ++ ui ++ p_host p ++ port ++ t1 <> x20 :: r \/ write p = []).
  { intros r. destruct (write p) as [|c w] eqn:Ec; [right; reflexivity|left].
    rewrite <- Ew. cbn [app]. intros E. injection E as -> _.
    assert (I : exists w', write p = x20 :: w') by eauto.
    clear - I Hsch Hui Hh Hport Hp1 Hp2. destruct I as (w' & I). unfold write in I.
    destruct (p_scheme p) as [[|c s]|]; [discriminate| |].
    { cbn [given app] in I. injection I as -> _. eapply (Hsch _ eq_refl x20); [left; reflexivity|cbn; tauto]. }
    cbn [given app] in I. destruct (p_userinfo p) as [[|c s]|]; [discriminate| |].
    { cbn [given app] in I. injection I as -> _. eapply (Hui _ eq_refl x20); [left; reflexivity|cbn; tauto]. }
    cbn [given app] in I. destruct (p_host p) as [|c h].
    2:{ cbn [app] in I. injection I as -> _. apply (Hh x20); [left; reflexivity|cbn; tauto]. }
    destruct (p_port p); [discriminate|]. cbn [given app] in I.
    destruct Hp1 as [Hp1|(r & Hp1)]; rewrite Hp1 in I; [|discriminate].
    destruct (p_query p); [discriminate|]. cbn [given app] in I. destruct (p_fragment p); discriminate. }
  assert (Hstart : forall r, write p <> str " " ++ r).
  { intros r E. destruct (Hns (r ++ repeat x20 k)) as [H|H]; [|rewrite E in H; discriminate].
    apply H. rewrite <- Ew, E. reflexivity. }
  split; [exact Hstart|].
  (* from a normalised start *)
  assert (Core : exists n' t, repeat x20 n ++ write p ++ repeat x20 k = repeat x20 n' ++ t /\ (forall r, t <> x20 :: r) /\
    authority (t ++ x00 :: after) (len t) [] None None =
      Ok (Some (p_scheme p, p_userinfo p, p_host p ++ port, t1 ++ x00 :: after, len t1)) \/
      (write p = [] /\ repeat x20 n ++ write p ++ repeat x20 k = repeat x20 n' ++ t /\ t = [])).
  { destruct (write p) as [|c w] eqn:Ec.
    - exists (n + k)%nat, []. right. split; [reflexivity|]. split; [|reflexivity].
      rewrite app_nil_r. cbn [app]. rewrite repeat_app. reflexivity.
    - exists n, (sch ++ ui ++ p_host p ++ port ++ t1). left. split; [rewrite <- Ew; reflexivity|]. split.
      { intros r. destruct (Hns r) as [H|H]; [exact H|discriminate]. }
      assert (H1 : forall o, authority ((p_host p ++ port ++ t1) ++ x00 :: after) (len (p_host p ++ port ++ t1)) [] (p_scheme p) o =
        Ok (Some (p_scheme p, o, p_host p ++ port, t1 ++ x00 :: after, len t1))).
      { intros o. rewrite (app_assoc (p_host p)). rewrite auth_colons; [|exact Ehp|exact Eend]. cbn [app]. apply auth_stop. exact E1. }
      assert (H2 : authority ((ui ++ p_host p ++ port ++ t1) ++ x00 :: after) (len (ui ++ p_host p ++ port ++ t1)) [] (p_scheme p) None =
        Ok (Some (p_scheme p, p_userinfo p, p_host p ++ port, t1 ++ x00 :: after, len t1))).
      { unfold ui. destruct (p_userinfo p) as [s|] eqn:Eu; [|apply H1]. cbn [given].
        rewrite <- (app_assoc s (str "@")). rewrite auth_colons; [|apply (Hui s eq_refl)|discriminate].
        cbn [app]. change (str "@" ++ p_host p ++ port ++ t1) with (x40 :: p_host p ++ port ++ t1).
        rewrite authority_cons. change (fast_check x40) with KCheck. change (Byte.eqb x40 x3a) with false.
        change (Byte.eqb x40 x40) with true. cbv iota. apply H1. }
      unfold sch. destruct (p_scheme p) as [s|] eqn:Es; [|exact H2]. cbn [given].
      rewrite <- (app_assoc s (str "://")). rewrite auth_plain by (apply (Hsch s eq_refl)).
      cbn [app]. change (str "://" ++ ui ++ p_host p ++ port ++ t1) with (x3a :: x2f :: x2f :: ui ++ p_host p ++ port ++ t1).
      rewrite authority_cons. change (fast_check x3a) with KCheck. change (Byte.eqb x3a x3a) with true. cbv iota.
      change (Byte.eqb x2f x2f && Byte.eqb x2f x2f && @is_none text None) with true. cbv iota. exact H2. }
  destruct Core as (n' & t & [(Et & Hns' & HA)|(Hw & Et & ->)]).
  - rewrite Et. unfold parse_url. rewrite <- app_assoc. rewrite (skip_repeat n' t after Hns'). cbn [bind].
    rewrite HA. cbn [bind]. rewrite Esplit. unfold t1.
    rewrite (path_run _ t2 after Hp1 Hp2 E2). cbn [bind]. unfold t2. rewrite (query_run _ t3 after Hq E3). cbn [bind].
    unfold t3. rewrite (fragment_run _ _ after Hf); [|eauto]. reflexivity.
  - assert (Hempty : p_scheme p = None /\ p_userinfo p = None /\ p_host p = [] /\ p_port p = None /\ p_path p = [] /\
      p_query p = None /\ p_fragment p = None).
    { unfold write in Hw. apply app_eq_nil in Hw. destruct Hw as (W1 & Hw). apply app_eq_nil in Hw. destruct Hw as (W2 & Hw).
      apply app_eq_nil in Hw. destruct Hw as (W3 & Hw). apply app_eq_nil in Hw. destruct Hw as (W4 & Hw).
      apply app_eq_nil in Hw. destruct Hw as (W5 & Hw). apply app_eq_nil in Hw. destruct Hw as (W6 & W7).
      destruct (p_scheme p) as [[|? ?]|]; try discriminate. destruct (p_userinfo p) as [[|? ?]|]; try discriminate.
      destruct (p_port p); try discriminate. destruct (p_query p); try discriminate. destruct (p_fragment p); try discriminate.
      repeat split; assumption. }
    rewrite Et. rewrite <- app_assoc. unfold parse_url. rewrite (skip_repeat n' [] after) by discriminate.
    unfold url_of. destruct Hempty as (-> & -> & -> & -> & -> & -> & ->). reflexivity.
Qed.

(** ** Accessors *)
Lemma dval_ge ds : Forall (fun c => 48 <= b2z c <= 57) ds -> 0 <= dval ds.
Proof.
  intros H. induction ds as [|d ds IH] using rev_ind; [reflexivity|].
  apply Forall_app in H. destruct H as (H1 & H2). inversion H2; subst. rewrite dval_snoc. specialize (IH H1). lia.
Qed.

Lemma port_value p : parts_ok p -> forall ds, p_port p = Some ds -> ds <> [] -> dval ds <= 65535 ->
  integer_port (url_of p) = dval ds /\ parser_port (url_of p) = dval ds.
Proof.
  intros Hok ds Hp Hne Hv. destruct Hok as (_ & _ & _ & _ & Hport & _). destruct (Hport ds Hp) as (_ & Hd & _).
  pose proof (dval_ge ds Hd) as Hg.
  assert (E : integer_port (url_of p) = dval ds).
  { unfold integer_port, url_of. cbn [u_port]. rewrite Hp. cbn [text_of]. destruct ds; [contradiction|].
    destruct (Z.leb_spec (dval (b :: ds)) (2 ^ 31 - 1)); [reflexivity|lia]. }
  split; [exact E|]. unfold parser_port. rewrite E. apply Z.mod_small. change (2 ^ 16) with 65536. lia.
Qed.

Lemma user_pass u a b : u_userinfo u = a ++ str ":" ++ b -> without (str ":") a -> username u = a /\ password u = b.
Proof.
  unfold username, password. intros -> H. change (str ":" ++ b) with (x3a :: b). induction a as [|c a IH]; [split; reflexivity|].
  cbn [app before_colon after_colon]. rewrite eqb_false.
  - destruct IH as (-> & ->); [|split; reflexivity]. intros x Hx. apply H. right. exact Hx.
  - intros ->. apply (H x3a); left; reflexivity.
Qed.
Lemma user_only u : without (str ":") (u_userinfo u) -> username u = u_userinfo u /\ password u = [].
Proof.
  unfold username, password. induction (u_userinfo u) as [|c a IH]; intros H; [split; reflexivity|].
  cbn [before_colon after_colon]. rewrite eqb_false.
  - destruct IH as (-> & ->); [|split; reflexivity]. intros x Hx. apply H. right. exact Hx.
  - intros ->. apply (H x3a); left; reflexivity.
Qed.

Lemma uri_parts p : p_query p <> Some [] -> p_fragment p <> Some [] ->
  request_uri (url_of p) = p_path p ++ given (p_query p) (fun s => str "?" ++ s) ++ given (p_fragment p) (fun s => str "#" ++ s).
Proof.
  intros H1 H2. unfold request_uri, url_of. cbn [u_path u_query u_fragment].
  destruct (p_query p) as [[|c q]|]; [congruence| |]; (destruct (p_fragment p) as [[|d f]|]; [congruence| |]); reflexivity.
Qed.
