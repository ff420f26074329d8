(** Model of trpc/util/buffer/noncontiguous_buffer.{h,cc} and zero_copy_stream.{h,cc}.

    Simplifications (all files under /repo/trpc/util/buffer):
    - a [BufferBlock] (noncontiguous_buffer.h:116-243) is the list of the bytes it shows;
      start_/size_/data_/contiguous_buffer_ and reference counting are not represented.
      Blocks are immutable once published, so sharing of the memory by copies and cuts is
      not observable; writes through the raw pointer returned by data() are not modelled;
    - [is_contiguous_] (only used by debug checks) is not represented;
    - size_t is [nat]; the only wrap-around possible, [byte_size_ -= bytes] below zero, is
      excluded because the front() of an empty list (outcome [UB]) is reached in the same call;
    - TRPC_DCHECKs are off in release builds and are not outcomes; TRPC_CHECK/TRPC_ASSERT
      failures are [Abort]. *)
From Verif.Lib Require Import Base Bytes.
Local Open Scope nat_scope.
Local Open Scope out_scope.

Notation block := (list byte).

(** NoncontiguousBuffer, noncontiguous_buffer.h:321-511: linked list of blocks + byte_size_. *)
Record nbuf := mk_nbuf { blocks : list block; byte_size : nat }.

(** Default constructor, noncontiguous_buffer.h:330. *)
Definition nb_empty : nbuf := mk_nbuf [] 0.

(** ByteSize / Empty, noncontiguous_buffer.h:475-482. *)
Definition nb_is_empty (b : nbuf) : bool := byte_size b =? 0.

(** SkipSlow loop, noncontiguous_buffer.cc:207-223 (lines 210-222). *)
Fixpoint skip_slow (bs : list block) (bytes : nat) : out (list block) :=
  match bytes with
  | O => Ok bs
  | S _ =>
      match bs with
      | [] => UB                                  (* buffers_.front() of an empty list *)
      | first :: rest =>
          let os := Nat.min bytes (length first) in
          if os =? length first
          then skip_slow rest (bytes - os)        (* pop_front *)
          else Ok (skipn os first :: rest)        (* first.Skip(os); bytes becomes 0 *)
      end
  end.

(** Skip, noncontiguous_buffer.h:369-379. *)
Definition nb_skip (b : nbuf) (bytes : nat) : out nbuf :=
  if bytes =? 0 then Ok b
  else
    match blocks b with
    | [] => UB                                    (* buffers_.front() of an empty list *)
    | first :: rest =>
        if bytes <? length first
        then Ok (mk_nbuf (skipn bytes first :: rest) (byte_size b - bytes))
        else let! bs := skip_slow (blocks b) bytes in
             Ok (mk_nbuf bs (byte_size b - bytes))
    end.

(** The loop and tail of Cut, noncontiguous_buffer.h:392-406: whole blocks are moved, a
    partially needed one is shared and shortened.  Returns (cut blocks, remaining blocks). *)
Fixpoint cut_loop (bs : list block) (left : nat) (rc : list block)
  : out (list block * list block) :=
  match left with
  | O => Ok (rc, bs)
  | S _ =>
      match bs with
      | [] => UB                                  (* buffers_.front() of an empty list *)
      | first :: rest =>
          if length first <=? left
          then cut_loop rest (left - length first) (rc ++ [first])
          else Ok (rc ++ [firstn left first], skipn left first :: rest)
      end
  end.

(** Cut, noncontiguous_buffer.h:385-410.  Returns (result, new *this). *)
Definition nb_cut (b : nbuf) (bytes : nat) : out (nbuf * nbuf) :=
  if bytes =? byte_size b then Ok (b, nb_empty)   (* return std::move( *this) *)
  else
    let! (rc, bs) := cut_loop (blocks b) bytes [] in
    Ok (mk_nbuf rc bytes, mk_nbuf bs (byte_size b - bytes)).

(** Append(LwUniquePtr<BufferBlock>&&), noncontiguous_buffer.h:416-420 (also the contiguous
    variant 439-448). *)
Definition nb_append_block (b : nbuf) (blk : block) : nbuf :=
  mk_nbuf (blocks b ++ [blk]) (byte_size b + length blk).

(** Append(BufferPtr&&), noncontiguous_buffer.h:457-471: an empty buffer is ignored. *)
Definition nb_append_contiguous (b : nbuf) (blk : block) : nbuf :=
  if length blk =? 0 then b else nb_append_block b blk.

(** Append(NoncontiguousBuffer), noncontiguous_buffer.h:426-430 (splice at the end). *)
Definition nb_append (b other : nbuf) : nbuf :=
  mk_nbuf (blocks b ++ blocks other) (byte_size b + byte_size other).

(** Clear / ClearSlow, noncontiguous_buffer.h:485-490, .cc:225-232. *)
Definition nb_clear (b : nbuf) : nbuf :=
  if nb_is_empty b then b else nb_empty.

(** Copy constructor / copy assignment, noncontiguous_buffer.cc:183-205; the target is
    cleared first (for the constructor it is a fresh empty buffer). *)
Definition nb_copy_assign (dst src : nbuf) : nbuf :=
  mk_nbuf (blocks (nb_clear dst) ++ blocks src) (byte_size src).

(** Move constructor, noncontiguous_buffer.h:335-338.  (new, moved-from) *)
Definition nb_move (src : nbuf) : nbuf * nbuf := (src, nb_empty).

(** Move assignment, noncontiguous_buffer.h:340-348: Clear(), swap the sizes, then
    [buffers_ = std::move(nb.buffers_)], whose TRPC_CHECK(empty()) (active in release builds,
    trpc/util/internal/singly_linked_list.h:271-275) fails if Clear() left blocks behind.
    (new dst, new src); the self-assignment case is a no-op and is handled by the caller. *)
Definition nb_move_assign (dst src : nbuf) : out (nbuf * nbuf) :=
  let dst1 := nb_clear dst in
  match blocks dst1 with
  | [] => Ok (mk_nbuf (blocks src) (byte_size src), mk_nbuf [] (byte_size dst1))
  | _ :: _ => Abort
  end.

(** FirstContiguous, noncontiguous_buffer.h:354-358. *)
Definition nb_first_contiguous (b : nbuf) : out block :=
  match blocks b with [] => UB | first :: _ => Ok first end.

(** FlattenSlow loop, noncontiguous_buffer.cc:297-301. *)
Fixpoint flatten_loop (bs : list block) (left : nat) : list byte :=
  match left with
  | O => []
  | S _ =>
      match bs with
      | [] => []
      | b :: rest =>
          let len := Nat.min left (length b) in
          firstn len b ++ flatten_loop rest (left - len)
      end
  end.

(** FlattenSlow, noncontiguous_buffer.cc:292-303; [None] is the default max_bytes
    (numeric_limits<size_t>::max()). *)
Definition flatten_slow (b : nbuf) (max_bytes : option nat) : list byte :=
  let m := match max_bytes with Some m => Nat.min m (byte_size b) | None => byte_size b end in
  flatten_loop (blocks b) m.

(** FlattenToSlowSlow, noncontiguous_buffer.cc:125-133. *)
Definition flatten_to_slow_slow (b : nbuf) (size : nat) : out (list byte) :=
  if size <=? byte_size b then Ok (flatten_loop (blocks b) size) else Abort.

(** FlattenToSlow, noncontiguous_buffer.h:724-730: the bytes stored to the destination. *)
Definition flatten_to_slow (b : nbuf) (size : nat) : out (list byte) :=
  let! fc := nb_first_contiguous b in
  if size <=? length fc then Ok (firstn size fc) else flatten_to_slow_slow b size.

(** std::string(_view)::find(delim, from): smallest position >= from where delim occurs.
    Library function, modelled by scanning. *)
Fixpoint prefixb (p s : list byte) : bool :=
  match p, s with
  | [], _ => true
  | a :: p', c :: s' => Byte.eqb a c && prefixb p' s'
  | _ :: _, [] => false
  end.

Fixpoint str_find_aux (s delim : list byte) (pos : nat) : option nat :=
  if prefixb delim s then Some pos
  else match s with
       | [] => None
       | _ :: s' => str_find_aux s' delim (S pos)
       end.

Definition str_find (s delim : list byte) (from : nat) : option nat :=
  if from <=? length s then str_find_aux (skipn from s) delim from else None.

(** The slow loop of FlattenSlowUntil, noncontiguous_buffer.cc:319-327.  [rc] is the string
    accumulated so far. *)
Fixpoint until_loop (bs : list block) (delim : list byte) (max_bytes : option nat)
  (rc : list byte) : list byte :=
  match bs with
  | [] => rc
  | b :: rest =>
      if match max_bytes with Some m => length rc <? m | None => true end
      then
        let old_len := length rc in
        let rc' := rc ++ b in
        match str_find rc' delim (old_len - Nat.min old_len (length delim)) with
        | Some pos => firstn (pos + length delim) rc'      (* erase the tail, break *)
        | None => until_loop rest delim max_bytes rc'
        end
      else rc
  end.

(** FlattenSlowUntil, noncontiguous_buffer.cc:305-332; [None] = default max_bytes. *)
Definition flatten_slow_until (b : nbuf) (delim : list byte) (max_bytes : option nat)
  : out (list byte) :=
  if nb_is_empty b then Ok []
  else
    let! current := nb_first_contiguous b in
    match str_find current delim 0 with
    | Some pos =>
        let expected := match max_bytes with
                        | Some m => Nat.min (pos + length delim) m
                        | None => pos + length delim end in
        Ok (firstn expected current)
    | None =>
        let rc := until_loop (blocks b) delim max_bytes [] in
        Ok (match max_bytes with
            | Some m => if m <? length rc then firstn m rc else rc
            | None => rc end)
    end.

(* ------------------------------------------------------------------------- *)
(** * NoncontiguousBufferBuilder, noncontiguous_buffer.h:514-672 *)

(** [cur = None] is a moved-from current_ (null RefPtr); [Some l] a block whose first
    [length l] = used_ bytes have been written. *)
Record builder := mk_builder { bd_nb : nbuf; bd_cur : option block }.

Section Builder.
  (** GetBlockMaxAvailableSize(): bytes available in a memory-pool block (a build/run-time
      constant of trpc/util/buffer/memory_pool). *)
  Variable bmax : nat.

  (** used_ *)
  Definition bd_used (b : builder) : nat :=
    match bd_cur b with Some l => length l | None => 0 end.

  (** SizeAvailable, noncontiguous_buffer.h:524. *)
  Definition bd_avail (b : builder) : nat := bmax - bd_used b.

  (** InitializeNextBlock, noncontiguous_buffer.cc:234-242. *)
  Definition bd_init_next (b : builder) : out builder :=
    match bd_cur b with
    | Some _ => if bd_avail b =? 0 then Abort else Ok b
    | None => Ok (mk_builder (bd_nb b) (Some []))
    end.

  (** Constructor, noncontiguous_buffer.h:516. *)
  Definition bd_new : out builder := bd_init_next (mk_builder nb_empty None).

  (** FlushCurrentBlock, noncontiguous_buffer.cc:244-253. *)
  Definition bd_flush (b : builder) : builder :=
    match bd_cur b with
    | None => b
    | Some l =>
        if length l =? 0 then b
        else mk_builder (nb_append_block (bd_nb b) l) None
    end.

  (** Writing [w] at data() and then MarkWritten(|w|), noncontiguous_buffer.h:520-536.
      data() of a moved-from builder dereferences a null pointer; writing more than
      SizeAvailable() is a heap overflow. *)
  Definition bd_write (b : builder) (w : list byte) : out builder :=
    match bd_cur b with
    | None => UB
    | Some l =>
        if bd_avail b <? length w then UB
        else
          let b1 := mk_builder (bd_nb b) (Some (l ++ w)) in
          if bd_avail b1 =? 0 then bd_init_next (bd_flush b1) else Ok b1
    end.

  (** Reserve(|w|), noncontiguous_buffer.h:542-554, the caller storing [w] through the
      returned pointer. *)
  Definition bd_reserve (b : builder) (w : list byte) : out builder :=
    if bmax <? length w then Abort
    else
      let! b1 := (if bd_avail b <? length w then bd_init_next (bd_flush b) else Ok b) in
      bd_write b1 w.

  (** AppendSlow, noncontiguous_buffer.cc:255-263. *)
  Fixpoint bd_append_slow (fuel : nat) (b : builder) (l : list byte) : out builder :=
    match l with
    | [] => Ok b
    | _ =>
        match fuel with
        | O => NoFuel
        | S f =>
            let copying := Nat.min (length l) (bd_avail b) in
            let! b1 := bd_write b (firstn copying l) in
            bd_append_slow f b1 (skipn copying l)
        end
    end.

  (** Append(const void*, size_t), noncontiguous_buffer.h:573-596 (also 600, 604). *)
  Definition bd_append (b : builder) (l : list byte) : out builder :=
    match l with
    | [] => Ok b
    | _ =>
        match bd_cur b with
        | None => UB                       (* data() on a null current_ *)
        | Some c =>
            if length c + length l <? bmax
            then Ok (mk_builder (bd_nb b) (Some (c ++ l)))
            else bd_append_slow (length l) b l
        end
    end.

  (** Append(unsigned char), noncontiguous_buffer.h:619-627. *)
  Definition bd_append_char (b : builder) (c : byte) : out builder := bd_write b [c].

  (** Append(NoncontiguousBuffer), noncontiguous_buffer.h:608-615. *)
  Definition bd_append_nb (b : builder) (nb : nbuf) : out builder :=
    let! b1 := (if bd_used b =? 0 then Ok b else bd_init_next (bd_flush b)) in
    Ok (mk_builder (nb_append (bd_nb b1) nb) (bd_cur b1)).

  (** The comma fold of line 645: one Append per argument. *)
  Fixpoint bd_append_each (b : builder) (ls : list (list byte)) : out builder :=
    match ls with
    | [] => Ok b
    | l :: r => let! b1 := bd_append b l in bd_append_each b1 r
    end.

  (** Append(const Ts&...), noncontiguous_buffer.h:632-646. *)
  Definition bd_append_multi (b : builder) (ls : list (list byte)) : out builder :=
    match bd_cur b with
    | None => UB
    | Some c =>
        if length c + length (concat ls) <? bmax
        then Ok (mk_builder (bd_nb b) (Some (c ++ concat ls)))   (* UncheckedAppend *)
        else bd_append_each b ls
    end.

  (** ByteSize, noncontiguous_buffer.h:558. *)
  Definition bd_byte_size (b : builder) : nat := byte_size (bd_nb b) + bd_used b.

  (** DestructiveGet, noncontiguous_buffer.h:563-566.  (result, moved-from builder) *)
  Definition bd_destructive_get (b : builder) : nbuf * builder :=
    let b1 := bd_flush b in (bd_nb b1, mk_builder nb_empty (bd_cur b1)).

  (** CreateBufferSlow, noncontiguous_buffer.cc:280-290. *)
  Definition create_buffer_slow (s : list byte) : out nbuf :=
    let! b := bd_new in
    let! b1 := bd_append b s in
    Ok (fst (bd_destructive_get b1)).

  (* ----------------------------------------------------------------------- *)
  (** * NoncontiguousBufferOutputStream, zero_copy_stream.cc:77-105 *)

  (** [os_pending] holds what the caller stored into the area handed out by Next and not
      given back by BackUp: using_bytes_ = length os_pending. *)
  Record ostream := mk_os { os_bd : builder; os_pending : list byte }.

  (** Flush, zero_copy_stream.cc:83-88. *)
  Definition os_flush (o : ostream) : out ostream :=
    match os_pending o with
    | [] => Ok o
    | w => let! b := bd_write (os_bd o) w in Ok (mk_os b [])
    end.

  (** Next, zero_copy_stream.cc:90-99; [fill i] is the byte the caller stores at offset [i]
      of the area it is given.  TRPC_CHECK( *size). *)
  Definition os_next (o : ostream) (fill : nat -> byte) : out (ostream * nat) :=
    let! b := (match os_pending o with [] => Ok (os_bd o) | w => bd_write (os_bd o) w end) in
    match bd_cur b with
    | None => UB                                              (* builder_->data() *)
    | Some _ =>
        let size := bd_avail b in
        if size =? 0 then Abort
        else Ok (mk_os b (map fill (seq 0 size)), size)
    end.

  (** BackUp, zero_copy_stream.cc:101: no check; giving back more than was handed out makes
      using_bytes_ wrap, reported as UB (the next MarkWritten overflows the block). *)
  Definition os_backup (o : ostream) (count : nat) : out ostream :=
    if length (os_pending o) <? count then UB
    else Ok (mk_os (os_bd o) (firstn (length (os_pending o) - count) (os_pending o))).

  (** ByteCount, zero_copy_stream.cc:103-105. *)
  Definition os_byte_count (o : ostream) : nat := bd_byte_size (os_bd o).
End Builder.

(* ------------------------------------------------------------------------- *)
(** * NoncontiguousBufferInputStream, zero_copy_stream.cc:29-75 *)

Record istream := mk_is { is_buf : nbuf; is_skip : nat; is_read : nat }.

(** Constructor, zero_copy_stream.cc:29-30. *)
Definition is_new (b : nbuf) : istream := mk_is b 0 0.

(** PerformPendingSkips / Flush, zero_copy_stream.cc:34, 70-75. *)
Definition is_pending (i : istream) : out istream :=
  if is_skip i =? 0 then Ok i
  else let! b := nb_skip (is_buf i) (is_skip i) in Ok (mk_is b 0 (is_read i)).

(** Next, zero_copy_stream.cc:36-49; [None] = returned false.  The int conversion of the
    size is exact for blocks below 2^31 bytes. *)
Definition is_next (i : istream) : out (istream * option (list byte)) :=
  let! i1 := is_pending i in
  if nb_is_empty (is_buf i1) then Ok (i1, None)
  else
    let! fc := nb_first_contiguous (is_buf i1) in
    Ok (mk_is (is_buf i1) (length fc) (is_read i1 + length fc), Some fc).

(** BackUp, zero_copy_stream.cc:51-55. *)
Definition is_backup (i : istream) (count : nat) : out istream :=
  if is_skip i <? count then Abort
  else Ok (mk_is (is_buf i) (is_skip i - count) (is_read i - count)).

(** Skip, zero_copy_stream.cc:57-66 (count non-negative). *)
Definition is_do_skip (i : istream) (count : nat) : out (istream * bool) :=
  let! i1 := is_pending i in
  if byte_size (is_buf i1) <? count then Ok (i1, false)
  else
    let! b := nb_skip (is_buf i1) count in
    Ok (mk_is b (is_skip i1) (is_read i1 + count), true).

(* ------------------------------------------------------------------------- *)
(** * Boyer-Moore search, noncontiguous_buffer.cc:28-120, 144-181 *)

Section Searcher.
  (** Value of the byte in front of the pattern, pattern[-1], which SuffixLength (line 50)
      and MakeDelta2 (line 106) read when a proper prefix of the pattern is also a suffix.
      It is out of range of the string_view; every result below is for an arbitrary value. *)
  Variable garbage : byte.
  Variable pat : list byte.

  Definition m_len : nat := length pat.
  Definition pat_at (i : nat) : byte := nth i pat Byte.x00.

  (** MakeDelta1, noncontiguous_buffer.cc:29-35: later occurrences overwrite earlier ones. *)
  Fixpoint delta1_loop (p : list byte) (i : nat) (c : byte) (cur : nat) : nat :=
    match p with
    | [] => cur
    | x :: p' => delta1_loop p' (S i) c (if Byte.eqb x c then m_len - 1 - i else cur)
    end.
  Definition delta1 (c : byte) : nat := delta1_loop pat 0 c m_len.

  (** strncmp(a, b, n) == 0 (library): equal up to n characters or up to a common NUL. *)
  Fixpoint strncmp_eq (n : nat) (a b : list byte) : bool :=
    match n with
    | O => true
    | S n' =>
        match a, b with
        | x :: a', y :: b' =>
            if Byte.eqb x y then (if Byte.eqb x Byte.x00 then true else strncmp_eq n' a' b') else false
        | _, _ => true                     (* not reached: n <= both lengths *)
        end
    end.

  (** IsPrefix, noncontiguous_buffer.cc:39-42. *)
  Definition is_prefix (pos : nat) : bool := strncmp_eq (m_len - pos) pat (skipn pos pat).

  (** SuffixLength, noncontiguous_buffer.cc:46-53; [k] = pos + 1 - i iterations left.  With
      [k = 0] the loop condition reads word[-1] and then fails on [i <= pos]. *)
  Fixpoint slen_loop (pos k i : nat) : nat :=
    match k with
    | O => i
    | S k' =>
        if Byte.eqb (pat_at (pos - i)) (pat_at (m_len - 1 - i)) then slen_loop pos k' (S i) else i
    end.
  Definition suffix_length (pos : nat) : nat := slen_loop pos (S pos) 0.

  (** pattern[p - slen] of line 106: index -1 when slen = p + 1. *)
  Definition pat_before (p slen : nat) : byte :=
    if slen <=? p then pat_at (p - slen) else garbage.

  (** MakeDelta2 first loop, noncontiguous_buffer.cc:92-101.  [k] entries left to fill, i.e.
      p = k - 1 downto 0; [last] = last_prefix_index.  Result: delta2[0..k-1]. *)
  Fixpoint delta2_first (k last : nat) : list nat :=
    match k with
    | O => []
    | S p =>
        let last' := if is_prefix (p + 1) then p + 1 else last in
        delta2_first p last' ++ [last' + (m_len - 1 - p)]
    end.

  Fixpoint upd_nth (l : list nat) (i v : nat) : list nat :=
    match l, i with
    | [], _ => []
    | _ :: r, O => v :: r
    | x :: r, S i' => x :: upd_nth r i' v
    end.

  (** MakeDelta2 second loop body, noncontiguous_buffer.cc:104-109. *)
  Definition delta2_step (d : list nat) (p : nat) : list nat :=
    let slen := suffix_length p in
    if Byte.eqb (pat_before p slen) (pat_at (m_len - 1 - slen))
    then d
    else upd_nth d (m_len - 1 - slen) (m_len - 1 - p + slen).

  (** MakeDelta2, noncontiguous_buffer.cc:91-110. *)
  Definition delta2_table : list nat :=
    fold_left delta2_step (seq 0 (m_len - 1)) (delta2_first m_len (m_len - 1)).
  Definition delta2 (j : nat) : nat := nth j delta2_table 0.

  (** The vector of (offset, view), noncontiguous_buffer.cc:156-162. *)
  Fixpoint block_vector (bs : list block) (acc : nat) : list (nat * block) :=
    match bs with
    | [] => []
    | b :: r => (acc, b) :: block_vector r (acc + length b)
    end.

  (** std::lower_bound over [begin, --end) with the predicate of line 119 (library; the range
      is partitioned by the predicate): first entry whose end is beyond [val], or the last. *)
  Fixpoint lower_bound (v : list (nat * block)) (val k : nat) : nat :=
    match v with
    | [] => k
    | [_] => k
    | (o, b) :: r => if o + length b <=? val then lower_bound r val (S k) else k
    end.

  (** BinarySearch, noncontiguous_buffer.cc:112-120; iterators are indexes. *)
  Definition binary_search (v : list (nat * block)) (val hint : nat) : out nat :=
    match nth_error v hint with
    | None => UB                                        (* hint-> on end() *)
    | Some (o, b) =>
        if (o <=? val) && (val <? o + length b) then Ok hint
        else Ok (lower_bound v val 0)
    end.

  (** iter->second.data()[i - iter->first]; any access outside the view is UB. *)
  Definition read_at (v : list (nat * block)) (iter : nat) (i : Z) : out byte :=
    match nth_error v iter with
    | None => UB
    | Some (o, b) =>
        if (Z.of_nat o <=? i)%Z then
          match nth_error b (Z.to_nat i - o) with Some c => Ok c | None => UB end
        else UB
    end.

  (** Inner comparison loop, noncontiguous_buffer.cc:168-173.  [jj] = j + 1 (so [jj = 0] is
      j = -1); i is a size_t, its wrapped value 2^64-1 is written -1.
      Returns (i, iter, jj) at exit. *)
  Fixpoint compare_loop (v : list (nat * block)) (i : Z) (iter jj : nat) : out (Z * nat * nat) :=
    match jj with
    | O => Ok (i, iter, O)
    | S j =>
        let! c := read_at v iter i in
        if Byte.eqb c (pat_at j) then
          let i' := (i - 1)%Z in
          match nth_error v iter with
          | None => UB
          | Some (o, _) =>
              if (0 <=? i')%Z && (i' <? Z.of_nat o)%Z
              then match iter with O => UB | S it => compare_loop v i' it j end
              else compare_loop v i' iter j
          end
        else Ok (i, iter, jj)
    end.

  (** Outer loop, noncontiguous_buffer.cc:163-180.  [None] = npos. *)
  Fixpoint search_loop (fuel : nat) (v : list (nat * block)) (size : nat) (i iter : nat)
    : out (option nat) :=
    match fuel with
    | O => NoFuel
    | S f =>
        if i <? size then
          let! it := binary_search v i iter in
          let! (i1, it1, jj) := compare_loop v (Z.of_nat i) it m_len in
          match jj with
          | O => Ok (Some (Z.to_nat (i1 + 1)))
          | S j =>
              let! c := read_at v it1 i1 in
              search_loop f v size (Z.to_nat i1 + Nat.max (delta1 c) (delta2 j)) it1
          end
        else Ok None
    end.

  (** operator(), noncontiguous_buffer.cc:150-181. *)
  Definition nb_find (b : nbuf) : out (option nat) :=
    match pat with
    | [] => Ok (Some 0)
    | _ => search_loop (S (byte_size b)) (block_vector (blocks b) 0) (byte_size b) (m_len - 1) 0
    end.
End Searcher.
