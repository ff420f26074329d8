(** Properties C08-C12: noncontiguous buffers, builder, search, zero-copy streams. *)
From Verif.Lib Require Import Base Bytes.
From Verif.Buffer Require Import Model Spec Machine ProofsMain ProofsFind ProofsSearch.
Local Open Scope nat_scope.

(** * C08 *)

(** Any operation sequence whose meaning on byte strings is defined runs without undefined
    behaviour or abort, and every buffer then has the content and size of its byte string. *)
Theorem C08_buffer_is_byte_string ops s' :
  spec_run (fun _ => []) ops = Some s' ->
  exists m', m_run (fun _ => nb_empty) ops = Ok m' /\
    forall k, content (m' k) = s' k /\ byte_size (m' k) = length (s' k) /\
              flatten_slow (m' k) None = s' k /\ nb_wf (m' k).
Proof. exact (buffer_refines ops s'). Qed.
Print Assumptions C08_buffer_is_byte_string.

Example C08_case :
  exists s', spec_run (fun _ => [])
    [OpAppendBlock 0 [Byte.x01; Byte.x02; Byte.x03]; OpAppendBlock 0 [Byte.x04];
     OpCut 0 2 1; OpCopy 2 0; OpSkip 0 1; OpAppend 1 0; OpMove 3 1] = Some s' /\
    s' 3 = [Byte.x01; Byte.x02; Byte.x04] /\ s' 2 = [Byte.x03; Byte.x04] /\ s' 0 = [].
Proof. eexists. split; [reflexivity|]. repeat split. Qed.

(** Every block layout without empty blocks is covered by the theorem above. *)
Theorem C08_layouts_reachable (i : nat) (bs : list block) :
  Forall (fun l : block => l <> []) bs ->
  exists m', m_run (fun _ => nb_empty) (map (OpAppendBlock i) bs) = Ok m' /\ blocks (m' i) = bs.
Proof. exact (layout_reachable i bs). Qed.
Print Assumptions C08_layouts_reachable.

Example C08_layouts_case : Forall (fun l : block => l <> []) [[Byte.x01]; [Byte.x02; Byte.x03]].
Proof. repeat constructor; discriminate. Qed.

(** The precondition is necessary: skipping or cutting past the end is undefined behaviour. *)
Theorem C08_past_end_undefined b n :
  nb_wf b -> length (content b) < n -> nb_skip b n = UB /\ nb_cut b n = UB.
Proof. exact (past_end_undefined b n). Qed.
Print Assumptions C08_past_end_undefined.

Example C08_past_end_case : nb_wf (nb_append_block nb_empty [Byte.x01]) /\ 1 < 2.
Proof. repeat split; repeat constructor; discriminate. Qed.

(** Finding: a buffer holding only an empty block (e.g. from CreateBufferBlockSlow(""))
    terminates the process when it is assigned to, although its content is the empty string. *)
Theorem C08_move_assign_empty_block_refuted :
  exists dst src, byte_size dst = length (concat (blocks dst)) /\ nb_move_assign dst src = Abort.
Proof. exact move_assign_empty_block. Qed.
Print Assumptions C08_move_assign_empty_block_refuted.

(** * C09 *)

(** The builder's result is the concatenation of the bytes of the calls, for every block size. *)
Theorem C09_builder_exact bmax ops :
  0 < bmax -> Forall (bd_op_legal bmax) ops ->
  exists b0 b, bd_new bmax = Ok b0 /\ bd_run bmax b0 ops = Ok b /\
    content (fst (bd_destructive_get b)) = concat (map bd_op_bytes ops) /\
    nb_wf (fst (bd_destructive_get b)) /\
    bd_byte_size b = length (concat (map bd_op_bytes ops)).
Proof. exact (builder_exact bmax ops). Qed.
Print Assumptions C09_builder_exact.

Example C09_case : Forall (bd_op_legal 2)
  [BAppend [Byte.x01; Byte.x02; Byte.x03]; BReserve [Byte.x04; Byte.x05]; BChar Byte.x06;
   BMulti [[Byte.x07]; [Byte.x08; Byte.x09]];
   BBuffer (nb_append_block nb_empty [Byte.x0a])].
Proof. repeat constructor; simpl; try lia; discriminate. Qed.

Theorem C09_create_slow_exact bmax s :
  0 < bmax -> exists b, create_buffer_slow bmax s = Ok b /\ content b = s /\ nb_wf b.
Proof. exact (create_slow_exact bmax s). Qed.
Print Assumptions C09_create_slow_exact.

Example C09_create_case :
  exists b, create_buffer_slow 2 [Byte.x01; Byte.x02; Byte.x03] = Ok b /\
            blocks b = [[Byte.x01; Byte.x02]; [Byte.x03]].
Proof. eexists; split; reflexivity. Qed.

(** Finding: a builder that has given out its buffer dereferences a null block when used again. *)
Theorem C09_reuse_after_get_refuted :
  exists bmax b0 b1, 0 < bmax /\ bd_new bmax = Ok b0 /\ bd_append bmax b0 [Byte.x61] = Ok b1 /\
    bd_append bmax (snd (bd_destructive_get b1)) [Byte.x62] = UB.
Proof. exact builder_reuse_after_get. Qed.
Print Assumptions C09_reuse_after_get_refuted.

(** * C10 *)

(** Whatever byte precedes the pattern in memory, the search returns the first occurrence, or
    nothing when there is none; it never reads outside a block. *)
Theorem C10_find_first garbage pat b :
  nb_wf b -> pat <> [] ->
  exists r, nb_find garbage pat b = Ok r /\
  match r with
  | Some k => first_occurrence pat (content b) k
  | None => forall k, ~ occurs_at pat (content b) k
  end.
Proof. exact (nb_find_spec garbage pat b). Qed.
Print Assumptions C10_find_first.

Example C10_case :
  let b := mk_nbuf [[Byte.x61; Byte.x62]; [Byte.x61]; [Byte.x62; Byte.x63; Byte.x61]] 6 in
  nb_wf b /\ nb_find Byte.x00 [Byte.x61; Byte.x62; Byte.x63] b = Ok (Some 2) /\
  nb_find Byte.x00 [Byte.x63; Byte.x62] b = Ok None.
Proof. repeat split; repeat constructor; discriminate. Qed.

(** Finding: with an empty block between two others the search reads outside a block. *)
Theorem C10_find_empty_block_refuted :
  exists garbage pat b,
    byte_size b = length (concat (blocks b)) /\ pat <> [] /\
    occurs_at pat (concat (blocks b)) 0 /\ nb_find garbage pat b = UB.
Proof. exact find_empty_block. Qed.
Print Assumptions C10_find_empty_block_refuted.

(** Finding: the good-suffix preprocessing reads pattern[p - slen] with slen = p + 1, i.e. one
    byte in front of the pattern. *)
Theorem C10_pattern_underread_refuted :
  exists pat p, p < length pat - 1 /\ suffix_length pat p = S p.
Proof. exact find_underread. Qed.
Print Assumptions C10_pattern_underread_refuted.

(** * C11 *)

Theorem C11_flatten_exact b m :
  nb_wf b ->
  flatten_slow b None = content b /\ flatten_slow b (Some m) = firstn m (content b) /\
  (m <= length (content b) -> content b <> [] -> flatten_to_slow b m = Ok (firstn m (content b))).
Proof. exact (flatten_exact b m). Qed.
Print Assumptions C11_flatten_exact.

Theorem C11_flatten_until b d m :
  nb_wf b ->
  exists r, flatten_slow_until b d m = Ok r /\
  (forall k, first_occurrence d (content b) k -> r = at_most m (firstn (k + length d) (content b))) /\
  ((forall k, ~ occurs_at d (content b) k) -> r = at_most m (content b)).
Proof. exact (flatten_slow_until_spec b d m). Qed.
Print Assumptions C11_flatten_until.

Example C11_case :
  let b := mk_nbuf [[Byte.x61; Byte.x0d]; [Byte.x0a; Byte.x62]] 4 in
  nb_wf b /\ flatten_slow_until b [Byte.x0d; Byte.x0a] None = Ok [Byte.x61; Byte.x0d; Byte.x0a] /\
  flatten_slow b (Some 3) = [Byte.x61; Byte.x0d; Byte.x0a].
Proof. repeat split; repeat constructor; discriminate. Qed.

(** * C12 *)

(** Every Next/BackUp/Skip program on the input stream yields a legal trace over the content:
    what it consumed is a prefix of the content, of the reported length, and what is left is
    the rest. *)
Theorem C12_input_stream_exact b ops :
  nb_wf b ->
  exists i es p, is_run (is_new b) ops = Ok (i, es) /\
    in_trace (content b) 0 0 es p /\ p <= length (content b) /\
    consumed (content b) [] es = firstn p (content b) /\ is_read i = p /\
    exists i', is_pending i = Ok i' /\ content (is_buf i') = skipn p (content b).
Proof. exact (input_stream_exact b ops). Qed.
Print Assumptions C12_input_stream_exact.

Theorem C12_input_stream_read_all b :
  nb_wf b -> exists i, is_read_all (S (length (content b))) (is_new b) = Ok (i, content b).
Proof. exact (input_stream_read_all b). Qed.
Print Assumptions C12_input_stream_read_all.

Example C12_input_case :
  let b := mk_nbuf [[Byte.x61; Byte.x62]; [Byte.x63]] 3 in
  nb_wf b /\ exists i, is_run (is_new b) [RNext; RBackUp 1; RNext; RSkip 1; RNext] =
    Ok (i, [EvNext (Some [Byte.x61; Byte.x62]); EvBackUp 1; EvNext (Some [Byte.x62]);
            EvSkip 1 true; EvNext None]).
Proof. split; [repeat split; repeat constructor; discriminate|eexists; reflexivity]. Qed.

(** Every Next/BackUp program on the output stream: the flushed buffer is what was written. *)
Theorem C12_output_stream_exact bmax ops :
  0 < bmax ->
  exists b0 o sizes o', bd_new bmax = Ok b0 /\ os_run bmax (mk_os b0 []) ops = Ok (o, sizes) /\
    Forall (fun k => 0 < k) sizes /\ os_flush bmax o = Ok o' /\
    content (fst (bd_destructive_get (os_bd o'))) = out_written [] [] ops sizes.
Proof. exact (output_stream_exact bmax ops). Qed.
Print Assumptions C12_output_stream_exact.

Theorem C12_output_stream_write_string bmax l :
  0 < bmax ->
  exists b0 o o', bd_new bmax = Ok b0 /\ os_write_string bmax (length l) (mk_os b0 []) l = Ok o /\
    os_flush bmax o = Ok o' /\
    content (fst (bd_destructive_get (os_bd o'))) = l.
Proof. exact (output_stream_write_string bmax l). Qed.
Print Assumptions C12_output_stream_write_string.

Example C12_output_case :
  exists b0 o, bd_new 4 = Ok b0 /\
    os_run 4 (mk_os b0 []) [WNext (fun _ => Byte.x61); WKeep 3; WNext (fun _ => Byte.x62); WKeep 0]
      = Ok (o, [4; 1]) /\
    out_written [] [] [WNext (fun _ => Byte.x61); WKeep 3; WNext (fun _ => Byte.x62); WKeep 0] [4; 1]
      = [Byte.x61; Byte.x61; Byte.x61].
Proof. eexists; eexists; repeat split; reflexivity. Qed.

(** Finding: with an empty block in front of data, Next returns zero-length chunks for ever. *)
Theorem C12_empty_block_stalls_refuted :
  exists b, byte_size b = length (concat (blocks b)) /\
    forall n, is_read_all n (is_new b) = NoFuel.
Proof. exact input_stream_empty_block. Qed.
Print Assumptions C12_empty_block_stalls_refuted.

(** Finding: the output stream's ByteCount ignores the bytes of the last area handed out. *)
Theorem C12_byte_count_refuted :
  exists bmax b0 o sizes, 0 < bmax /\ bd_new bmax = Ok b0 /\
    os_run bmax (mk_os b0 []) [WNext (fun _ => Byte.x61)] = Ok (o, sizes) /\
    os_byte_count o = 0 /\ 0 < length (out_written [] [] [WNext (fun _ => Byte.x61)] sizes).
Proof. exact byte_count_pending. Qed.
Print Assumptions C12_byte_count_refuted.
