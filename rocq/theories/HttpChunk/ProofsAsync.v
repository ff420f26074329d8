(** The asynchronous streams: the frames that were accepted and the bytes they became. *)
From Verif Require Import Lib.Base Lib.Bytes Lib.ListX HttpCodec.Model.
From Verif Require Import HttpChunk.Model HttpChunk.Spec HttpChunk.ProofsHex HttpChunk.ProofsServer.
From Coq Require Import Strings.Byte.
Open Scope Z_scope.

Lemma hstring_lines h : hstring h = lines_of h. Proof. reflexivity. Qed.

(** The state of a stream without error after the accepted frames [fs]. *)
Inductive good : aw -> list frame -> Prop :=
| g_idle s : aws s = Idle -> amode s = Unknown -> abytes s = 0 -> atr s = [] -> awire s = [] -> good s []
| g_init s line code : aws s = Init -> amode s = Unknown -> abytes s = 0 -> atr s = [] ->
    awire s = line ++ crlf -> good s [FLine line code]
| g_chunk s line code h trs cle ds e :
    aws s = Open -> amode s = Chunked -> atr s = nodup bytes_dec trs -> chunks e (concat ds) ->
    awire s = text line h e -> good s (FLine line code :: FHeader h true trs cle :: map FData ds)
| g_len s line code h trs n ds :
    aws s = Open -> amode s = ContentLength -> acl s = n -> n < 2 ^ 63 -> abytes s = size (concat ds) -> abytes s < n ->
    awire s = text line h (concat ds) ->
    good s (FLine line code :: FHeader h false trs (Some (Some n)) :: map FData ds)
| g_half s line code h trs cle ds e z :
    aws s = HalfClosed -> amode s = Chunked -> atr s = nodup bytes_dec trs -> trs <> [] -> chunks e (concat ds) ->
    hexnum z 0 -> awire s = text line h (e ++ z ++ crlf) ->
    good s (FLine line code :: FHeader h true trs cle :: map FData ds ++ [FEof])
| g_closed_len s line code h trs n ds k :
    aws s = Closed -> amode s = ContentLength -> acl s = n -> abytes s = n -> size (concat ds) = n ->
    awire s = text line h (concat ds) ->
    good s (FLine line code :: FHeader h false trs (Some (Some n)) :: map FData ds ++ repeat FEof k)
| g_closed s fs p : aws s = Closed -> amode s <> ContentLength -> sent fs (awire s) p -> good s fs.

Lemma text_app line h a b : text line h (a ++ b) = text line h a ++ b.
Proof. unfold text. rewrite <- !app_assoc. reflexivity. Qed.

Lemma good_ext s s1 fs : aws s1 = aws s -> amode s1 = amode s -> abytes s1 = abytes s -> atr s1 = atr s ->
  acl s1 = acl s -> awire s1 = awire s -> good s fs -> good s1 fs.
Proof.
  intros A B C D E F G. destruct G.
  - apply g_idle; congruence.
  - apply g_init; congruence.
  - eapply g_chunk; [congruence|congruence|congruence|eassumption|congruence].
  - apply g_len; try congruence; try (rewrite C; assumption).
  - eapply g_half; [congruence|congruence|congruence|assumption|eassumption|eassumption|congruence].
  - apply g_closed_len; congruence.
  - eapply g_closed; [congruence|congruence|rewrite F; eassumption].
Qed.

Lemma wst_eqb_ok a b : wst_eqb a b = true <-> a = b.
Proof. destruct a, b; simpl; split; congruence. Qed.

Lemma two {A} (a b c : A) l : a :: b :: l ++ [c] = (a :: b :: l) ++ [c].
Proof. reflexivity. Qed.
Lemma map_snoc {A B} (f : A -> B) l x : map f (l ++ [x]) = map f l ++ [f x].
Proof. rewrite map_app. reflexivity. Qed.
Lemma concat_snoc {A} (l : list (list A)) x : concat (l ++ [x]) = concat l ++ x.
Proof. rewrite concat_app. simpl. rewrite app_nil_r. reflexivity. Qed.
Lemma repeat_snoc {A} (x : A) k : repeat x k ++ [x] = repeat x (S k).
Proof. rewrite <- repeat_cons. reflexivity. Qed.

Lemma line_good s fs l code s1 b : good s fs -> code <> 100 ->
  pre_line s l code = (s1, Some b) -> good (apush s1 b) (fs ++ [FLine l code]).
Proof.
  intros G C. unfold pre_line. destruct (wst_eqb (aws s) Idle) eqn:E; [|discriminate]. cbn [negb].
  apply wst_eqb_ok in E. apply Z.eqb_neq in C. rewrite C. cbn [negb]. intros H. injection H as <- <-.
  destruct G; try congruence. simpl. apply g_init; simpl; try assumption; try reflexivity. rewrite H3. reflexivity.
Qed.

Lemma header_good s fs h ch trs cle s1 b : good s fs -> careful_frame (FHeader h ch trs cle) ->
  pre_header s h ch trs cle = (s1, Some b) -> good (apush s1 b) (fs ++ [FHeader h ch trs cle]).
Proof.
  intros G [C1 C2]. unfold pre_header. destruct (wst_eqb (aws s) Init) eqn:E; [|discriminate]. cbn [negb].
  apply wst_eqb_ok in E.
  assert (B : (if (length h =? 0)%nat then s_crlf else hstring h) = lines_of h).
  { destruct h; [congruence|reflexivity]. }
  rewrite B. clear B. destruct G as [|s line code G1 G2 G3 G4 G5| | | | |]; try congruence. cbn [app].
  assert (W : forall w m n t c, awire (apush (aset s w m n t c) (lines_of h ++ s_crlf)) = text line h []).
  { intros. simpl. rewrite G5. unfold text. rewrite app_nil_r, <- !app_assoc. reflexivity. }
  destruct ch.
  - intros H. injection H as <- <-. rewrite G4. cbn [app].
    apply (g_chunk _ line code h trs cle [] []); simpl; try reflexivity; [constructor|].
    specialize (W Open Chunked (abytes s) [] (acl s)). exact W.
  - destruct cle as [[n|]|]; [|discriminate|].
    + destruct (n >? 0) eqn:N; intros H; injection H as <- <-.
      * apply (g_len _ line code h trs n []); simpl; try reflexivity; try assumption; try lia.
        specialize (W Open ContentLength (abytes s) (atr s) n). exact W.
      * apply g_closed with (p := []); simpl; try reflexivity; [discriminate|].
        specialize (W Closed NoData (abytes s) (atr s) n). simpl in W. rewrite W. constructor. lia.
    + intros H. injection H as <- <-.
      apply g_closed with (p := []); simpl; try reflexivity; [discriminate|].
      specialize (W Closed NoData (abytes s) (atr s) (acl s)). simpl in W. rewrite W. constructor. exact I.
Qed.

Lemma data_good s fs d s1 b : good s fs -> careful_frame (FData d) ->
  pre_data s d = Ok (s1, Some b) -> good (apush s1 b) (fs ++ [FData d]).
Proof.
  intros G [C1 C2]. unfold pre_data. destruct (wst_eqb (aws s) Open) eqn:E; [|discriminate]. cbn [negb].
  apply wst_eqb_ok in E.
  destruct G as [| |s line code h trs cle ds e G1 G2 G3 G4 G5|s line code h trs n ds G1 G2 G3 G4 G5 G6 G7| | |];
    try congruence.
  - rewrite G2. destruct (chunk_ok d) as (x & -> & X); [lia|]. cbn [bind]. intros H. injection H as <- <-.
    cbn [app]. rewrite <- map_snoc.
    apply (g_chunk _ line code h trs cle (ds ++ [d]) (e ++ x ++ crlf ++ d ++ crlf)); simpl; try assumption.
    + rewrite concat_snoc. apply chunks_app; [exact G4|]. apply chunks_one; assumption.
    + rewrite G5, text_app. reflexivity.
  - rewrite G2. pose proof (size_nonempty d C1) as P.
    assert (Q : 0 <= size (concat ds)) by (unfold size; lia).
    assert (U : u64 (abytes s + blen d) = size (concat (ds ++ [d]))).
    { change (blen d) with (size d). rewrite G5. rewrite u64_small by lia. rewrite concat_snoc, size_app. reflexivity. }
    rewrite U. destruct (size (concat (ds ++ [d])) >? acl s) eqn:L; [discriminate|]. intros H. injection H as <- <-.
    cbn [app]. assert (W : awire s ++ d = text line h (concat (ds ++ [d]))).
    { rewrite G7, concat_snoc, text_app. reflexivity. }
    destruct (size (concat (ds ++ [d])) =? acl s) eqn:M.
    + rewrite <- map_snoc. rewrite <- (app_nil_r (map FData (ds ++ [d]))).
      apply (g_closed_len _ line code h trs n (ds ++ [d]) 0); simpl; try assumption; try reflexivity; lia.
    + rewrite <- map_snoc. apply g_len; simpl; try assumption; try reflexivity; lia.
Qed.

Lemma eof_good s fs s1 b : good s fs -> pre_eof s = (s1, Some b) -> good (apush s1 b) (fs ++ [FEof]).
Proof.
  intros G. unfold pre_eof. destruct (wst_eqb (aws s) (if is_cl (amode s) then Closed else Open)) eqn:E;
    [|discriminate]. cbn [negb]. apply wst_eqb_ok in E.
  assert (Z0 : hexnum [x30] 0).
  { split; [discriminate|]. split; [|reflexivity]. constructor; [discriminate|constructor]. }
  destruct G as [s G1 G2| s line code G1 G2|s line code h trs cle ds e G1 G2 G3 G4 G5
    |s line code h trs n ds G1 G2 G3 G4 G5 G6 G7|s line code h trs cle ds e z G1 G2
    |s line code h trs n ds k G1 G2 G3 G4 G5 G6|s fs p G1 G2 G3].
  - rewrite G1, G2 in E. discriminate.
  - rewrite G1, G2 in E. discriminate.
  - rewrite G2, G3. destruct trs as [|tr trs].
    + cbn [nodup length Nat.eqb]. intros H. injection H as <- <-.
      apply g_closed with (p := concat ds); [reflexivity|simpl; congruence|]. cbn [app]. simpl awire.
      rewrite G5, <- text_app. constructor. apply (end_chunked_ok e (concat ds) G4).
    + assert (N : (length (nodup bytes_dec (tr :: trs)) =? 0)%nat = false).
      { destruct (nodup bytes_dec (tr :: trs)) as [|y ys] eqn:Y; [|reflexivity]. exfalso.
        assert (M : In tr (nodup bytes_dec (tr :: trs))) by (apply nodup_In; left; reflexivity).
        rewrite Y in M. destruct M. }
      rewrite N. intros H. injection H as <- <-. cbn [app].
      apply (g_half _ line code h (tr :: trs) cle ds e [x30]); simpl; try assumption; try reflexivity.
      * discriminate.
      * rewrite G5, <- text_app. reflexivity.
  - rewrite G1, G2 in E. discriminate.
  - rewrite G1, G2 in E. discriminate.
  - rewrite G2. destruct (abytes s =? acl s); [|discriminate]. cbn [negb]. intros H. injection H as <- <-.
    cbn [app]. rewrite <- app_assoc, repeat_snoc.
    apply g_closed_len; simpl; try assumption. rewrite app_nil_r. exact G6.
  - rewrite G1 in E. destruct (amode s); simpl in E; congruence.
Qed.

Lemma trailer_good s fs h s1 b : good s fs -> pre_trailer s h = (s1, Some b) -> good (apush s1 b) (fs ++ [FTrailer h]).
Proof.
  intros G. unfold pre_trailer. destruct (wst_eqb (aws s) HalfClosed) eqn:E; [|discriminate]. cbn [negb].
  apply wst_eqb_ok in E.
  destruct G as [| | | |s line code h0 trs cle ds e z G1 G2 G3 G4 G5 G6 G7| |]; try congruence.
  destruct (length h =? length (atr s))%nat eqn:L; [|discriminate]. cbn [negb].
  destruct (forallb _ h) eqn:A; [|discriminate]. cbn [negb]. intros H. injection H as <- <-.
  apply g_closed with (p := concat ds); [reflexivity|simpl; congruence|].
  assert (N : h <> []).
  { intros ->. apply Nat.eqb_eq in L. simpl in L. rewrite G3 in L.
    destruct trs as [|t0 trs]; [congruence|]. symmetry in L. apply length_zero_iff_nil in L.
    assert (M : In t0 (nodup bytes_dec (t0 :: trs))) by (apply nodup_In; left; reflexivity). rewrite L in M. destruct M. }
  assert (B : (if (length h =? 0)%nat then s_crlf else hstring h) = lines_of h) by (destruct h; [congruence|reflexivity]).
  rewrite B. cbn [app]. rewrite <- app_assoc. cbn [app]. simpl awire. rewrite G7, <- text_app, <- !app_assoc.
  apply sent_trailers; try assumption. rewrite Forall_forall. intros x Hx.
  rewrite forallb_forall in A. specialize (A x Hx). destruct (in_dec bytes_dec (fst x) (atr s)) as [i|]; [|discriminate].
  rewrite G3 in i. apply nodup_In in i. exact i.
Qed.

Lemma push_good s fs f r s1 : good s fs -> careful_frame f -> push_send s f r = Ok (s1, true) -> good s1 (fs ++ [f]).
Proof.
  intros G C. unfold push_send. destruct (handle_send s f) as [[s2 o]| | |] eqn:H; try discriminate. cbn [bind].
  destruct o as [b|]; [|discriminate].
  assert (K : good (apush s2 b) (fs ++ [f])).
  { destruct f; simpl in H.
    - injection H as H. eapply line_good; eauto.
    - injection H as H. eapply header_good; eauto.
    - eapply data_good; eauto.
    - injection H as H. eapply eof_good; eauto.
    - injection H as H. eapply trailer_good; eauto. }
  set (s3 := if aread s2 && wst_eqb (aws s2) Closed then stop s2 else s2).
  assert (X : aws s3 = aws s2 /\ amode s3 = amode s2 /\ abytes s3 = abytes s2 /\ atr s3 = atr s2 /\ acl s3 = acl s2
    /\ awire s3 = awire s2).
  { subst s3. destruct (aread s2 && wst_eqb (aws s2) Closed) eqn:Q; [|repeat split].
    apply andb_prop in Q. destruct Q as [_ Q]. apply wst_eqb_ok in Q. unfold stop. destruct (astop s2); cbn [negb];
      repeat split. simpl. congruence. }
  destruct X as (X1 & X2 & X3 & X4 & X5 & X6).
  destruct (length b =? 0)%nat eqn:N.
  - intros Y. injection Y as <-. apply Nat.eqb_eq, length_zero_iff_nil in N. subst b.
    eapply good_ext; [..|exact K]; simpl; try assumption. rewrite app_nil_r. exact X6.
  - destruct (r =? 0); [|discriminate]. intros Y. injection Y as <-.
    eapply good_ext; [..|exact K]; simpl; try assumption. congruence.
Qed.

Lemma arun_good evs : forall s fs s1 oks, good s fs -> Forall careful_frame (frames evs) ->
  arun s evs = Ok (s1, oks) -> Forall (fun o => o = true) oks -> good s1 (fs ++ frames evs).
Proof.
  induction evs as [|ev evs IH]; intros s fs s1 oks G C R A.
  - simpl in R. injection R as <- <-. simpl. rewrite app_nil_r. exact G.
  - destruct ev as [f r|]; cbn [arun frames] in *.
    + destruct (push_send s f r) as [[s2 ok]| | |] eqn:P; try discriminate. cbn [bind] in R.
      destruct (arun s2 evs) as [[s3 oks']| | |] eqn:Q; try discriminate. cbn [bind] in R. injection R as <- <-.
      inversion A; subst. inversion C; subst.
      assert (G2 := push_good s fs f r s2 G H1 P).
      assert (G3 := IH s2 (fs ++ [f]) s3 oks' G2 H3 Q H2). rewrite <- app_assoc in G3. exact G3.
    + eapply IH; [|exact C|exact R|exact A]. eapply good_ext; [..|exact G]; reflexivity.
Qed.

Lemma async_l rd evs s oks : arun (aw_init rd) evs = Ok (s, oks) -> Forall (fun o => o = true) oks ->
  Forall careful_frame (frames evs) -> aws s = Closed -> exists p, sent (frames evs) (awire s) p.
Proof.
  intros R A C W. assert (G : good (aw_init rd) []) by (apply g_idle; reflexivity).
  assert (K := arun_good evs _ _ _ _ G C R A). cbn [app] in K. inversion K; subst; try congruence.
  - rewrite H6. eexists. apply sent_length. assumption.
  - eexists. eassumption.
Qed.

(** No sequence of frames runs out of bounds. *)
Lemma arun_total evs : forall s, Forall (fun f => match f with FData d => size d < 2 ^ 64 | _ => True end) (frames evs) ->
  exists s1 oks, arun s evs = Ok (s1, oks).
Proof.
  induction evs as [|ev evs IH]; intros s F; [simpl; eauto|]. destruct ev as [f r|]; cbn [arun frames] in *.
  - inversion F; subst. assert (P : exists x, push_send s f r = Ok x).
    { unfold push_send. assert (Q : exists y, handle_send s f = Ok y).
      { destruct f; simpl; eauto. unfold pre_data. destruct (wst_eqb (aws s) Open); cbn [negb]; [|eauto].
        destruct (amode s); eauto.
        - destruct (chunk_ok d) as (x & -> & _); [assumption|]. simpl. eauto.
        - destruct (u64 (abytes s + blen d) >? acl s); eauto. }
      destruct Q as [[s1 o] ->]. cbn [bind]. destruct o as [b|]; [|eauto].
      destruct (length b =? 0)%nat; [eauto|]. destruct (r =? 0); eauto. }
    destruct P as [[s1 ok] ->]. cbn [bind]. destruct (IH s1 H2) as (s2 & oks & ->). cbn [bind]. eauto.
  - apply IH. exact F.
Qed.
