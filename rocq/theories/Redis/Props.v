(** Properties C13 (Redis replies), C14 (incomplete replies) and C15 (commands). *)
From Verif.Lib Require Import Base Bytes Decimal.
From Coq Require Import Strings.Byte.
From Coq Require Strings.String.
From Verif.Redis Require Import Model Spec ProofsFlat ProofsReader ProofsWire ProofsFormat.
Import String.StringSyntax.
Local Open Scope string_scope.
Local Open Scope list_scope.
Local Open Scope Z_scope.

(** ** C13 *)

(** However the bytes are cut into blocks and whatever follows, a reply is read back and its bytes
    are consumed.  (Without pipelining the count passed is 0 or 1.) *)
Theorem C13_reply_is_read_back :
  forall blocks sn w t pipeline,
  pipeline <= 1 -> sn_ok sn -> wire_ok w -> (depth w <= 8)%nat -> concat blocks = packet sn w ++ t ->
  get_reply blocks pipeline = Ok (Got (packet_value sn w, Z.of_nat (length (packet sn w)))).
Proof. exact reply_read_l. Qed.
Print Assumptions C13_reply_is_read_back.

Example C13_nested_reply :
  let w := WArray [WInt (-7); WArray [WBulk (str "a" ++ crlf ++ str "b"); WNil; WArray []]; WStatus (str "OK"); WNilArray] in
  wire_ok w /\ depth w = 3%nat /\
  get_reply [str "@9"; []; crlf ++ firstn 12 (enc w); firstn 7 (skipn 12 (enc w)); skipn 19 (enc w) ++ str "+rest"] 1 =
    Ok (Got (Reply 9 (BArray [Reply 0 (BInt (-7));
                              Reply 0 (BArray [Reply 0 (BBulk (str "a" ++ crlf ++ str "b")); Reply 0 BNil; Reply 0 (BArray [])]);
                              Reply 0 (BStatus (str "OK")); Reply 0 BNil]),
             Z.of_nat (4 + length (enc w)))).
Proof.
  cbv zeta. split; [|split; vm_compute; reflexivity].
  cbn [wire_ok]. repeat split; try (vm_compute; congruence).
  intros (a & b & E). destruct a as [|? [|? [|? [|]]]]; discriminate E.
Qed.

(** The replies to a pipeline of several requests come as one array. *)
Theorem C13_pipelined_replies_are_read_back :
  forall blocks l t,
  (2 <= length l)%nat -> packets_ok 7 l -> concat blocks = packets l ++ t ->
  get_reply blocks (Z.of_nat (length l)) =
    Ok (Got (Reply 0 (BArray (packet_values l)), Z.of_nat (length (packets l)))).
Proof. exact pipelined_l. Qed.
Print Assumptions C13_pipelined_replies_are_read_back.

Example C13_pipeline_of_two :
  get_reply [str "@5" ++ crlf ++ str "+O"; str "K" ++ crlf ++ str "@6" ++ crlf ++ str ":"; str "12" ++ crlf ++ str ":1"] 2 =
    Ok (Got (Reply 0 (BArray [Reply 5 (BStatus (str "OK")); Reply 6 (BInt 12)]), 18)).
Proof. vm_compute. reflexivity. Qed.

(** The result only depends on the bytes (for any bytes at all). *)
Theorem C13_blocks_do_not_matter :
  forall b1 b2 pipeline, concat b1 = concat b2 -> get_reply b1 pipeline = get_reply b2 pipeline.
Proof. exact blocks_l. Qed.
Print Assumptions C13_blocks_do_not_matter.

Example C13_garbage_in_two_ways :
  get_reply [str "*2"; crlf; str "$1"] 1 = Ok More /\
  get_reply [[]; str "*2" ++ [x0d]; [x0a] ++ str "?"] 1 = Ok Perr /\ get_reply [str "*2" ++ crlf ++ str "?"] 1 = Ok Perr.
Proof. vm_compute. auto. Qed.

(** A connection that gets the replies in chunks, cut anywhere, hands out exactly the replies. *)
Theorem C13_chunks_give_all_replies :
  forall chunks l,
  packets_ok 8 l -> concat (concat chunks) = packets l ->
  exists left, feed [] chunks = Ok (packet_values l, left, false) /\ concat left = [].
Proof. exact stream_l. Qed.
Print Assumptions C13_chunks_give_all_replies.

Example C13_three_chunks :
  feed [] [[str "+O"]; [str "K" ++ crlf ++ str ":3"; [x0d]]; [[x0a]]] = Ok ([Reply 0 (BStatus (str "OK")); Reply 0 (BInt 3)], [], false).
Proof. vm_compute. reflexivity. Qed.

(** Finding: an array in the ninth level is a protocol error (Redis has no such limit). *)
Theorem C13_any_depth_refuted :
  exists w, wire_ok w /\ depth w = 9%nat /\ get_reply [enc w] 1 = Ok Perr.
Proof.
  exists (WArray [WArray [WArray [WArray [WArray [WArray [WArray [WArray [WArray []]]]]]]]]).
  split; [|split; vm_compute; reflexivity]. vm_compute. intuition congruence.
Qed.
Print Assumptions C13_any_depth_refuted.

(** ** C14 *)

Theorem C14_truncated_reply_is_incomplete :
  forall blocks sn w t pipeline,
  pipeline <= 1 -> sn_ok sn -> wire_ok w -> (depth w <= 8)%nat -> t <> [] -> packet sn w = concat blocks ++ t ->
  get_reply blocks pipeline = Ok More.
Proof. exact truncated_l. Qed.
Print Assumptions C14_truncated_reply_is_incomplete.

Example C14_cut_in_line_end : get_reply [str "$2" ++ crlf; str "ab" ++ [x0d]] 1 = Ok More.
Proof. vm_compute. reflexivity. Qed.

Theorem C14_truncated_pipeline_is_incomplete :
  forall blocks l t,
  (2 <= length l)%nat -> packets_ok 7 l -> t <> [] -> packets l = concat blocks ++ t ->
  get_reply blocks (Z.of_nat (length l)) = Ok More.
Proof. exact truncated_pipeline_l. Qed.
Print Assumptions C14_truncated_pipeline_is_incomplete.

Example C14_one_of_two : get_reply [str "+OK" ++ crlf] 2 = Ok More.
Proof. vm_compute. reflexivity. Qed.

(** A verdict, once given, is not changed by more data (for any bytes at all). *)
Theorem C14_verdict_is_final :
  forall b1 b2 pipeline, get_reply b1 pipeline <> Ok More -> get_reply (b1 ++ b2) pipeline = get_reply b1 pipeline.
Proof. exact final_l. Qed.
Print Assumptions C14_verdict_is_final.

Example C14_final_example :
  get_reply [str "+OK" ++ crlf] 1 = Ok (Got (Reply 0 (BStatus (str "OK")), 5)) /\
  get_reply ([str "+OK" ++ crlf] ++ [crlf]) 1 = Ok (Got (Reply 0 (BStatus (str "OK")), 5)).
Proof. vm_compute. auto. Qed.

(** The checker hands out the complete replies and leaves the incomplete one in the buffer. *)
Theorem C14_checker_keeps_the_incomplete_reply :
  forall blocks l q x u,
  packets_ok 8 (l ++ [x]) -> packet (fst x) (snd x) = q ++ u -> u <> [] -> concat blocks = packets l ++ q ->
  forall merged, exists left, check_response blocks true merged = Ok (packet_values l, left, false) /\ concat left = q.
Proof. exact check_l. Qed.
Print Assumptions C14_checker_keeps_the_incomplete_reply.

Theorem C14_checker_reads_merged_replies :
  forall blocks l t,
  (2 <= length l)%nat -> packets_ok 7 l -> concat blocks = packets l ++ t ->
  exists left,
    check_response blocks false (Z.of_nat (length l)) = Ok ([Reply 0 (BArray (packet_values l))], left, false) /\ concat left = t.
Proof. exact check_merged_l. Qed.
Print Assumptions C14_checker_reads_merged_replies.

Example C14_checker_example :
  check_response [str "+A" ++ crlf ++ str "$3"; crlf ++ str "ab"] true 0 = Ok ([Reply 0 (BStatus (str "A"))], [str "$3"; crlf ++ str "ab"], false) /\
  check_response [str "+A" ++ crlf ++ str "?"] true 0 = Ok ([Reply 0 (BStatus (str "A"))], [str "?"], true).
Proof. vm_compute. auto. Qed.

(** On any bytes: the reader ends, consumes at least 3 bytes and not more than there are, and is
    undefined only if there are 19 digits in a row. *)
Theorem C14_reader_is_safe :
  forall blocks pipeline,
  get_reply blocks pipeline <> NoFuel /\ (get_reply blocks pipeline = UB -> digit_run (concat blocks)) /\
  (forall r n, get_reply blocks pipeline = Ok (Got (r, n)) -> 3 <= n <= Z.of_nat (length (concat blocks))).
Proof. exact safe_l. Qed.
Print Assumptions C14_reader_is_safe.

(** Finding: an integer beyond 64 bits overflows a signed integer; the smallest one does as well. *)
Theorem C14_no_overflow_refuted :
  get_reply [str ":99999999999999999999" ++ crlf] 1 = UB /\ get_reply [str ":-9223372036854775808" ++ crlf] 1 = UB.
Proof. vm_compute. auto. Qed.
Print Assumptions C14_no_overflow_refuted.

(** Finding: the line end of a bulk string is not looked at, and a number that is none is -1. *)
Theorem C14_malformed_is_rejected_refuted :
  get_reply [str "$3" ++ crlf ++ str "abcXY"] 1 = Ok (Got (Reply 0 (BBulk (str "abc")), 9)) /\
  get_reply [str ":abc" ++ crlf] 1 = Ok (Got (Reply 0 (BInt (-1)), 6)).
Proof. vm_compute. auto. Qed.
Print Assumptions C14_malformed_is_rejected_refuted.

(** ** C15 *)

Theorem C15_command_is_resp : forall args, args_ok args -> encode_command args = resp_command args.
Proof. exact encode_command_spec. Qed.
Print Assumptions C15_command_is_resp.

Example C15_set_command :
  encode_command [str "SET"; []; [x00; x0d; x0a]] =
    str "*3" ++ crlf ++ str "$3" ++ crlf ++ str "SET" ++ crlf ++ str "$0" ++ crlf ++ crlf ++ str "$3" ++ crlf ++ [x00; x0d; x0a] ++ crlf.
Proof. vm_compute. reflexivity. Qed.

(** A reader of the protocol gets the arguments back, whatever bytes they contain. *)
Theorem C15_command_decodes_to_its_arguments :
  forall args blocks t,
  args_small args -> concat blocks = encode_command args ++ t ->
  get_reply blocks 1 =
    Ok (Got (Reply 0 (BArray (map (fun a => Reply 0 (BBulk a)) args)), Z.of_nat (length (encode_command args)))).
Proof. exact command_decodes_l. Qed.
Print Assumptions C15_command_decodes_to_its_arguments.

(** So no two different commands look alike, even as the beginning of something longer. *)
Theorem C15_commands_are_a_prefix_code :
  forall a1 a2 r1 r2,
  args_small a1 -> args_small a2 -> encode_command a1 ++ r1 = encode_command a2 ++ r2 -> a1 = a2 /\ r1 = r2.
Proof. exact prefix_code_l. Qed.
Print Assumptions C15_commands_are_a_prefix_code.

(** A format of words with %s, %b, %% and number conversions gives exactly the words as arguments:
    what is substituted is never split, even if it contains spaces or percent signs. *)
Theorem C15_format_gives_the_words :
  forall render num,
  (forall conv z a, In conv standard_conversions -> render conv (ANum z :: a) = Some (num conv z)) ->
  forall ws k,
  words_ok true ws ->
  format_command render (words_format ws ++ repeat x20 k) (words_args ws) = Ok (Some (words_params num ws)).
Proof. exact format_command_words. Qed.
Print Assumptions C15_format_gives_the_words.

Example C15_format_example :
  format_command (fun _ _ => Some (str "42")) (str " SET  k:%s %b%% %05d ") [AStr (str "a b"); ABin [x00; x25]; ANum 42] =
    Ok (Some [str "SET"; str "k:a b"; [x00; x25; x25]; str "42"]).
Proof. vm_compute. reflexivity. Qed.

(** Finding: a format that ends within a conversion runs past the end of the format. *)
Theorem C15_format_stays_in_bounds_refuted :
  forall render, (forall c a, render c a = Some []) -> format_command render (str "GET %5") [ANum 1] = UB.
Proof. intros render H. vm_compute. rewrite H. reflexivity. Qed.
Print Assumptions C15_format_stays_in_bounds_refuted.

(** Finding: a conversion of 14 characters or more is dropped and its text becomes part of the argument. *)
Theorem C15_long_conversion_refuted :
  forall render, format_command render (str "%0000000000012d") [ANum 1] = Ok (Some [str "000000000012d"]).
Proof. intros render. vm_compute. reflexivity. Qed.
Print Assumptions C15_long_conversion_refuted.

(** Finding: a request without parameters that is sent as it is reads the first of none. *)
Theorem C15_raw_request_refuted : encode_request false [] = UB.
Proof. vm_compute. reflexivity. Qed.
Print Assumptions C15_raw_request_refuted.
