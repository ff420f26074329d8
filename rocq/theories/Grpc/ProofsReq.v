(** Proofs about a unary request and the findings. *)
From Verif.Lib Require Import Base Bytes ListX Decimal.
From Verif.Buffer Require Import Model Machine Proofs ProofsStreams ProofsMain.
From Verif.Grpc Require Import Model Spec Proofs ProofsNum.
From Coq Require Import Strings.Byte Lists.List.
Import ListNotations.
Local Open Scope Z_scope.
Local Open Scope out_scope.
Local Open Scope list_scope.

Lemma client_sends bmax comp e c ms data d : (5 <= bmax)%nat -> nb_wf d -> Z.of_nat (length (content d)) < 2 ^ 32 ->
  (c = CNone -> d = data) -> (c <> CNone -> comp c data = Some d) ->
  exists b, client_request bmax comp e c ms data = Ok (Some (mk_request (content_type_out e) (encoding_out c) (timeout_text ms) b)) /\
    nb_wf b /\ content b = frame (if is_none c then x00 else x01) (content d).
Proof.
  intros B W H Hn Hc. unfold client_request.
  assert (E : (if is_none c then Some data else comp c data) = Some d).
  { destruct c; cbn [is_none]; try (apply Hc; discriminate). rewrite Hn; auto. }
  rewrite E. pose proof W as [Hs _]. rewrite Hs. unfold u32. rewrite Z.mod_small by lia.
  destruct (encode_ok bmax (if is_none c then x00 else x01) d B W H) as (o & -> & C & Wo & _). cbn [bind]. exists o. auto.
Qed.

Lemma unary_ok bmax comp e c ms data d : (5 <= bmax)%nat -> nb_wf d -> Z.of_nat (length (content d)) < 2 ^ 32 - 5 -> 0 <= ms < 2 ^ 32 ->
  (c = CNone -> d = data) -> (c <> CNone -> comp c data = Some d) ->
  (e = EProto \/ e = EJson) -> In c [CNone; CGzip; CSnappy; CZlib] ->
  exists r b, client_request bmax comp e c ms data = Ok (Some r) /\ server_request r = Ok (Some (mk_received e c (Some ms) b)) /\
    content b = content d.
Proof.
  intros B W H M Hn Hc He Hk. destruct (client_sends bmax comp e c ms data d B W ltac:(lia) Hn Hc) as (b & R & Wb & Cb).
  eexists. assert (Cb' : content b = frame (if is_none c then x00 else x01) (content d) ++ []) by (rewrite app_nil_r; auto).
  destruct (decode_frame _ _ _ _ Wb Cb' H) as (m & b' & D & F1 & _ & F3 & _ & _).
  exists (body m). split; [exact R|]. split; [|auto]. unfold server_request. cbn [rq_timeout rq_content rq_type rq_encoding].
  rewrite client_server by auto. cbn [bind]. rewrite D. cbn [bind]. rewrite F1. do 2 f_equal.
  assert (Et : content_type_in (content_type_out e) = e) by (destruct He as [-> | ->]; reflexivity). rewrite Et.
  f_equal. destruct Hk as [<-|[<-|[<-|[<-|[]]]]]; reflexivity.
Qed.

(** A compression the header has no name for. *)
Lemma unary_unknown bmax comp e n ms data d : (5 <= bmax)%nat -> nb_wf d -> Z.of_nat (length (content d)) < 2 ^ 32 - 5 -> 0 <= ms < 2 ^ 32 ->
  comp (COther n) data = Some d ->
  exists r b, client_request bmax comp e (COther n) ms data = Ok (Some r) /\
    server_request r = Ok (Some (mk_received (content_type_in (content_type_out e)) CNone (Some ms) b)) /\ content b = content d.
Proof.
  intros B W H M Hc. destruct (client_sends bmax comp e (COther n) ms data d B W ltac:(lia) ltac:(discriminate) ltac:(auto)) as (b & R & Wb & Cb).
  eexists. assert (Cb' : content b = frame x01 (content d) ++ []) by (rewrite app_nil_r; auto).
  destruct (decode_frame _ _ _ _ Wb Cb' H) as (m & b' & D & F1 & _ & F3 & _ & _).
  exists (body m). split; [exact R|]. split; [|auto]. unfold server_request. cbn [rq_timeout rq_content rq_type rq_encoding].
  rewrite client_server by auto. cbn [bind]. rewrite D. cbn [bind]. rewrite F1. reflexivity.
Qed.

Lemma unknown_lost : exists bmax comp data d r b, nb_wf data /\ comp (COther 5) data = Some d /\ content d <> content data /\
  client_request bmax comp EProto (COther 5) 1000 data = Ok (Some r) /\
  server_request r = Ok (Some (mk_received EProto CNone (Some 1000) b)) /\ content b = content d.
Proof.
  set (data := nb_append_block nb_empty [x61; x62]). set (d := nb_append_block nb_empty [x7a]).
  assert (Wd : nb_wf d) by (split; [reflexivity|repeat constructor; discriminate]).
  exists 16%nat, (fun _ _ => Some d), data, d.
  destruct (unary_unknown 16 (fun _ _ => Some d) EProto 5 1000 data d) as (r & b & R1 & R2 & R3); auto; try lia; try (cbn; lia).
  exists r, b. repeat split; auto; try discriminate. repeat constructor; discriminate.
Qed.

Lemma names : content_type_out EProto = text_default /\ content_type_out EJson = text_json /\
  map encoding_out [CNone; CGzip; CSnappy; CZlib] = [[]; text_gzip; text_snappy; text_zlib] /\ content_type_in text_proto = EProto.
Proof. repeat split. Qed.

Lemma type_lost n : content_type_in (content_type_out (EOther n)) = EProto.
Proof. reflexivity. Qed.

(** ** Findings about lengths *)
Definition evil : nbuf := nb_append_block nb_empty [x00; xff; xff; xff; xfb].
Lemma evil_wf : nb_wf evil.
Proof. split; [reflexivity|repeat constructor; discriminate]. Qed.
Lemma loop_forever : exists b, nb_wf b /\ length (content b) = 5%nat /\ incomplete (content b) /\ forall fuel acc, check_loop fuel b acc = NoFuel.
Proof.
  exists evil. split; [apply evil_wf|]. split; [reflexivity|]. split; [right; vm_compute; reflexivity|].
  apply loop_stuck; [apply evil_wf|cbn; lia|reflexivity].
Qed.
Lemma decode_ub : exists b, nb_wf b /\ length (content b) = 5%nat /\ incomplete (content b) /\ decode b = UB.
Proof.
  exists evil. split; [apply evil_wf|]. split; [reflexivity|]. split; [right; vm_compute; reflexivity|].
  apply decode_wrap; [apply evil_wf|cbn; lia|vm_compute; reflexivity|vm_compute; discriminate].
Qed.

(** ** Findings about time-outs *)
Lemma timeout_negative : server_timeout t_minus_2S = Ok (Some 4294965296) /\ loose t_minus_2S (-2) x53 /\ server_timeout t_minus_1u = Ok None.
Proof.
  split; [reflexivity|]. split; [|reflexivity]. exists [], [x2d], (-1), [x32]. split; [reflexivity|]. split; [constructor|]. split; [constructor|].
  split; [discriminate|]. split; [repeat constructor; discriminate|]. split; [cbn; lia|reflexivity].
Qed.
Lemma timeout_overflow : exists t v u, loose t v u /\ fits64 v /\ timeout_text_to_us t = UB.
Proof.
  exists t_max_S, (2 ^ 63 - 1), x53. split; [|split; [unfold fits64; lia|reflexivity]].
  exists [], [], 1, (firstn 19 t_max_S). split; [reflexivity|]. split; [constructor|]. split; [constructor|].
  split; [discriminate|]. split; [repeat constructor; discriminate|]. split; [cbn; lia|reflexivity].
Qed.
Lemma timeout_cut : exists t ns, timeout_ns t ns /\ ns = 4298400 * 10 ^ 9 /\ server_timeout t = Ok (Some 3432704).
Proof.
  exists t_1194H, (1194 * 3600000000000). split; [|split; reflexivity].
  exists (firstn 4 t_1194H), x48, 3600000000000. split; [reflexivity|]. split; [discriminate|]. split; [cbn; lia|].
  split; [repeat constructor; discriminate|]. split; [constructor|reflexivity].
Qed.
Lemma timeout_too_long : exists ms, 0 <= ms < 2 ^ 32 /\ forall ns, ~ timeout_ns (timeout_text ms) ns.
Proof.
  exists 100000000. split; [lia|]. intros ns (ds & u & k & E & _ & L & _). apply (f_equal (@length byte)) in E.
  rewrite app_length in E. cbn [length] in E. replace (length (timeout_text 100000000)) with 10%nat in E by (vm_compute; reflexivity). lia.
Qed.
Lemma status_abort : header_integer [x61; x62; x63] = Abort /\ header_integer [x39; x39; x39; x39; x39; x39; x39; x39; x39; x39] = Abort /\
  header_integer [x31; x32; x61] = Ok (Some 12).
Proof. repeat split. Qed.
