(** Calls that all return success and leave no message that carries what was accepted. *)
From Verif Require Import Lib.Base Lib.Bytes Lib.ListX HttpCodec.Model.
From Verif Require Import HttpChunk.Model HttpChunk.Spec HttpChunk.ProofsHex HttpChunk.ProofsServer.
From Coq Require Import Strings.Byte.
Open Scope Z_scope.

Definition e_a : list byte := [x31; x0d; x0a; x61; x0d; x0a].
Lemma chunks_a : chunks e_a [x61].
Proof.
  apply (chunks_one [x31] [x61]); [|discriminate]. split; [discriminate|]. split; [|reflexivity].
  constructor; [discriminate|constructor].
Qed.
Lemma chunked_a : chunked (e_a ++ s_end_chunked) [x61].
Proof. apply end_chunked_ok, chunks_a. Qed.

Lemma empty_l :
  let ops := [OHeader; OWrite [x61]; OWrite []; OWrite [x62]; ODone] in
  exists s bs, run (sw_init 200 false [] false) ops [] = Ok (s, [SOk; SOk; SOk; SOk; SOk]) /\
    wire s = Head true [] false :: map Body bs /\
    exists e r, concat bs = e ++ r /\ chunked e [x61] /\
    forall e1 p1 r1, concat bs = e1 ++ r1 -> chunked e1 p1 -> p1 = [x61].
Proof.
  eexists. exists [e_a; s_end_chunked; [x31; x0d; x0a; x62; x0d; x0a]; s_end_chunked].
  split; [vm_compute; reflexivity|]. split; [reflexivity|].
  exists (e_a ++ s_end_chunked), ([x31; x0d; x0a; x62; x0d; x0a] ++ s_end_chunked).
  split; [reflexivity|]. split; [exact chunked_a|]. intros e1 p1 r1 E C.
  destruct (unambiguous _ _ ([x31; x0d; x0a; x62; x0d; x0a] ++ s_end_chunked) e1 p1 r1 chunked_a C) as (_ & X & _);
    [|symmetry; exact X]. rewrite <- E. reflexivity.
Qed.

Lemma after_done_l :
  exists s bs, run (sw_init 200 false [] false) [OWrite [x61]; ODone; OWrite [x62]] [] = Ok (s, [SOk; SOk; SOk]) /\
    wire s = Head true [] false :: map Body bs /\ forall p, ~ chunked (concat bs) p.
Proof.
  eexists. exists [e_a; s_end_chunked; [x31; x0d; x0a; x62; x0d; x0a]].
  split; [vm_compute; reflexivity|]. split; [reflexivity|]. intros p C.
  destruct (unambiguous _ _ [x31; x0d; x0a; x62; x0d; x0a] _ _ [] chunked_a C) as (_ & _ & X); [reflexivity|discriminate].
Qed.

Lemma done_first_l :
  exists s bs, run (sw_init 200 false [] false) [ODone; OWrite [x61]; ODone] [] = Ok (s, [SOk; SOk; SOk]) /\
    wire s = Head true [] false :: map Body bs /\ forall p, ~ chunked (concat bs) p.
Proof.
  eexists. exists [e_a]. split; [vm_compute; reflexivity|]. split; [reflexivity|]. intros p C.
  destruct (unambiguous _ _ [] _ _ s_end_chunked chunked_a C) as (_ & _ & X); [reflexivity|discriminate].
Qed.

Lemma no_head w p : Forall (fun e => exists b, e = Body b) w -> ~ message w p.
Proof.
  intros F (k & t & c & nb & bs & E & _). rewrite E in F. rewrite Forall_app in F. destruct F as [_ F].
  inversion F as [|? ? [b X] _]. discriminate.
Qed.

Lemma header_fail_l :
  exists s, run (sw_init 200 false [] false) [OHeader; ODone] [-1; 0] = Ok (s, [SNet; SOk]) /\
    wire s = [Body s_end_chunked] /\ forall p, ~ message (wire s) p.
Proof.
  eexists. split; [vm_compute; reflexivity|]. split; [reflexivity|]. intros p. apply no_head. repeat constructor. eauto.
Qed.

Lemma headless_l :
  exists s, crun (cw_init true [x35]) [OHeader; OWrite [x61]; ODone] [] = Ok (s, [SLen; SOk; SOk]) /\
    cwire s = [Body e_a; Body s_end_chunked] /\ forall p, ~ message (cwire s) p.
Proof.
  eexists. split; [vm_compute; reflexivity|]. split; [reflexivity|]. intros p. apply no_head. repeat constructor; eauto.
Qed.

Lemma sent_none_inv l c h trs w p : sent [FLine l c; FHeader h false trs None] w p -> w = text l h [].
Proof. intros K. inversion K. reflexivity. Qed.

Lemma empty_header_l line :
  let evs := [Send (FLine line 200) 0; Send (FHeader [] false [] None) 0] in
  exists s, arun (aw_init false) evs = Ok (s, [true; true]) /\
    awire s = line ++ crlf ++ crlf ++ crlf /\ forall p, ~ sent (frames evs) (awire s) p.
Proof.
  intros evs. assert (R : exists s, arun (aw_init false) evs = Ok (s, [true; true]) /\
    awire s = line ++ crlf ++ crlf ++ crlf).
  { eexists. split.
    - unfold evs. cbn [arun]. unfold push_send. cbn [handle_send bind]. unfold pre_line. simpl.
      destruct (length (line ++ s_crlf) =? 0)%nat eqn:E.
      + apply Nat.eqb_eq in E. rewrite app_length in E. simpl in E. lia.
      + reflexivity.
    - simpl. rewrite <- app_assoc. reflexivity. }
  destruct R as (s & R & W). exists s. split; [exact R|]. split; [exact W|]. intros p K.
  apply sent_none_inv in K. rewrite W in K. unfold text in K. apply app_inv_head in K. discriminate.
Qed.

Lemma continue_l line :
  exists s, arun (aw_init false) [Send (FLine line 100) 0; Send (FLine line 200) 0] = Ok (s, [true; true]) /\
    awire s = line ++ crlf ++ line ++ crlf.
Proof.
  eexists. split.
  - cbn [arun]. unfold push_send. cbn [handle_send bind]. unfold pre_line. simpl.
    destruct (length (line ++ s_crlf) =? 0)%nat eqn:E.
    + apply Nat.eqb_eq in E. rewrite app_length in E. simpl in E. lia.
    + simpl. rewrite E. reflexivity.
  - simpl. rewrite <- !app_assoc. reflexivity.
Qed.

Lemma zero_length_l line :
  let hd n := [Send (FLine line 200) 0; Send (FHeader [([x61], [x62])] false [] (Some (Some n))) 0] in
  (exists s, arun (aw_init false) (hd 0 ++ [Send FEof 0]) = Ok (s, [true; true; false])) /\
  (exists s, arun (aw_init false) (hd 1 ++ [Send (FData [x61]) 0; Send FEof 0]) = Ok (s, [true; true; true; true])).
Proof.
  intros hd. assert (E : (length (line ++ s_crlf) =? 0)%nat = false).
  { apply Nat.eqb_neq. rewrite app_length. simpl. lia. }
  split; eexists; unfold hd; simpl app; cbn [arun]; unfold push_send; cbn [handle_send bind]; unfold pre_line; simpl;
    rewrite E; reflexivity.
Qed.
