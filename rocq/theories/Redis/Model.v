(** Model of the Redis client codec: trpc/client/redis/{reader.h,reader.cc,reply.h,formatter.cc} and
    trpc/codec/redis/{redis_protocol.cc,redis_proto_checker.cc}.

    A buffer is the list of its blocks.  A position (iterator and offset) is the list of what is
    left: the rest of the current block, then the following blocks; [] is end().  Reader objects are
    local to RedisZeroCopyCheckResponse, so GetReply always starts with ridx_ = -1.  Not modelled:
    logging, the depth of the C++ call stack. *)
From Verif.Lib Require Import Base Bytes Decimal.
From Coq Require Import Strings.Byte.
Local Open Scope Z_scope.
Local Open Scope out_scope.

Notation text := (list byte).
Notation cursor := (list (list byte)).

(** Reply, reply.h:35-120; the type INVALID only occurs with a protocol error. *)
Inductive reply := Reply (serial : Z) (b : body)
with body :=
| BStatus (s : text) | BError (s : text) | BInt (z : Z) | BBulk (s : text) | BNil | BArray (l : list reply).

(** What a step of the reader ends with: a result, too little data, or a protocol error. *)
Inductive res (A : Type) := Got (a : A) | More | Perr.
Arguments Got {A} _.
Arguments More {A}.
Arguments Perr {A}.

(** TryReadable, reader.cc:39-58: goes to the next block that is not empty. *)
Fixpoint readable (cur : cursor) : option cursor :=
  match cur with
  | [] => None
  | [] :: r => readable r
  | _ => Some cur
  end.

(** SeekNewLine, reader.cc:60-76. *)
Fixpoint seek_newline (p : text) : option nat :=
  match p with
  | x :: r =>
      match r with
      | y :: _ => if Byte.eqb x x0d && Byte.eqb y x0a then Some O else option_map S (seek_newline r)
      | [] => None
      end
  | [] => None
  end.

(** TryReadVariableLengthString, reader.cc:168-219.  Length of the line and position behind it. *)
Fixpoint var_string (fuel : nat) (cur : cursor) : out (option (nat * cursor)) :=
  match fuel with
  | O => NoFuel
  | S f =>
      match cur with
      | [] => UB
      | p :: rest =>
          match seek_newline p with
          | Some len =>
              let t := skipn (len + 2) p in
              Ok (Some (len, match t with [] => rest | _ => t :: rest end))
          | None =>
              match readable rest with
              | None => Ok None
              | Some next =>
                  match p, next with
                  | [], _ => UB
                  | _, [] => UB
                  | _, s :: rest2 =>
                      if Byte.eqb (last p x00) x0d && Byte.eqb (hd x00 s) x0a then
                        Ok (Some ((length p - 1)%nat, if (length s =? 1)%nat then rest2 else skipn 1 s :: rest2))
                      else if (2 <=? length s)%nat && Byte.eqb (hd x00 s) x0d && Byte.eqb (nth 1 s x00) x0a then
                        Ok (Some (length p, if (length s =? 2)%nat then rest2 else skipn 2 s :: rest2))
                      else
                        let! r := var_string f next in
                        match r with
                        | Some (len, c) => Ok (Some ((len + length p)%nat, c))
                        | None => Ok None
                        end
                  end
              end
          end
      end
  end.
Definition var_line (cur : cursor) : out (option (nat * cursor)) := var_string (S (length cur)) cur.

(** Copying [wait] bytes that may span blocks: FillStringReply, reader.cc:578-614, and ReadInteger,
    reader.cc:121-139. *)
Fixpoint gather (cur : cursor) (wait : Z) : out text :=
  match cur with
  | [] => UB
  | p :: rest =>
      if wait <=? Z.of_nat (length p) then Ok (firstn (Z.to_nat wait) p)
      else let! t := gather rest (wait - Z.of_nat (length p)) in Ok (p ++ t)
  end.

(** ReadInteger, reader.cc:107-144: the text it points to, its length, and the position behind. *)
Definition read_integer (cur : cursor) : out (res (text * nat * cursor)) :=
  let! r := var_line cur in
  match r with
  | None => Ok More
  | Some (len, c) =>
      if (24 <=? len)%nat then Ok Perr
      else match cur with
           | [] => UB
           | p :: _ =>
               if (length p <? len)%nat
               then let! t := gather cur (Z.of_nat len) in Ok (Got (t, len, c))
               else Ok (Got (p, len, c))
           end
  end.

(** ConvertToInteger, reader.cc:78-105.  Reads the first byte even if the length is 0. *)
Definition i64_max : Z := 2 ^ 63 - 1.
Fixpoint convert_loop (s : text) (count : nat) (v : Z) : out (option Z) :=
  match count with
  | O => Ok (Some v)
  | S n =>
      match s with
      | [] => UB
      | c :: r =>
          let dec := (if b2z c <? 128 then b2z c else b2z c - 256) - 48 in
          if (0 <=? dec) && (dec <? 10) then
            if i64_max <? v * 10 then UB
            else if i64_max <? v * 10 + dec then UB
            else convert_loop r n (v * 10 + dec)
          else Ok None
      end
  end.
Definition convert (s : text) (len : nat) : out Z :=
  match s with
  | [] => UB
  | c :: r =>
      let '(mult, s1, count) :=
        if Byte.eqb c x2d then (-1, r, (len - 1)%nat)
        else if Byte.eqb c x2b then (1, r, (len - 1)%nat)
        else (1, s, len) in
      let! v := convert_loop s1 count 0 in
      Ok (match v with Some x => mult * x | None => -1 end)
  end.

(** TryReadFixedLengthString, reader.cc:146-166: [left] bytes from here. *)
Fixpoint fixed_string (cur : cursor) (left : Z) : option cursor :=
  match cur with
  | [] => None
  | p :: rest =>
      if left <? Z.of_nat (length p) then Some (skipn (Z.to_nat left) p :: rest)
      else if left =? Z.of_nat (length p) then Some rest
      else fixed_string rest (left - Z.of_nat (length p))
  end.

(** One item: a whole reply or the head of an array. *)
Inductive item := IDone (b : body) | IOpen (n : Z).
Definition i32 (z : Z) : Z := (z + 2 ^ 31) mod 2 ^ 32 - 2 ^ 31.

(** ProcessItem, reader.cc:366-406, with ProcessReplyType (536-576), ProcessLineItem,
    ProcessVariableLengthString, ProcessInteger, ProcessBulkItem (284-324), ProcessMultiBulkItem
    (326-364).  [ridx]: index of the task.  Result: item, position behind it, bytes consumed. *)
Definition process_line (mk : text -> body) (cur : cursor) : out (res (item * cursor * Z)) :=
  let! r := var_line cur in
  match r with
  | None => Ok More
  | Some (len, c) => let! s := gather cur (Z.of_nat len) in Ok (Got (IDone (mk s), c, 1 + (Z.of_nat len + 2)))
  end.
Definition process_integer (cur : cursor) : out (res (item * cursor * Z)) :=
  let! r := read_integer cur in
  match r with
  | Got (p, len, c) => let! z := convert p len in Ok (Got (IDone (BInt z), c, 1 + (Z.of_nat len + 2)))
  | More => Ok More
  | Perr => Ok Perr
  end.
Definition process_bulk (cur : cursor) : out (res (item * cursor * Z)) :=
  let! r := read_integer cur in
  match r with
  | Got (p, len, c) =>
      let! z := convert p len in
      if z <? 0 then Ok (Got (IDone BNil, c, 1 + (Z.of_nat len + 2)))
      else
        match readable c with
        | None => Ok More
        | Some c1 =>
            match fixed_string c1 (z + 2) with
            | None => Ok More
            | Some c2 =>
                let! s := gather c1 z in
                Ok (Got (IDone (BBulk s), c2, 1 + (z + 2) + (Z.of_nat len + 2)))
            end
        end
  | More => Ok More
  | Perr => Ok Perr
  end.
Definition process_array (ridx : Z) (cur : cursor) : out (res (item * cursor * Z)) :=
  if ridx =? 8 then Ok Perr
  else
    let! r := read_integer cur in
    match r with
    | Got (p, len, c) =>
        let! z := convert p len in
        let n := i32 z in
        Ok (Got (if n =? -1 then IDone BNil else if 0 <? n then IOpen n else IDone (BArray []), c, 1 + (Z.of_nat len + 2)))
    | More => Ok More
    | Perr => Ok Perr
    end.
Definition process_item (ridx : Z) (cur : cursor) : out (res (item * cursor * Z)) :=
  match readable cur with
  | Some ((t :: b) :: rest) =>
      let next (k : cursor -> out (res (item * cursor * Z))) :=
        match readable (b :: rest) with None => Ok More | Some c => k c end in
      if Byte.eqb t x2d then next (process_line BError)
      else if Byte.eqb t x2b then next (process_line BStatus)
      else if Byte.eqb t x3a then next process_integer
      else if Byte.eqb t x24 then next process_bulk
      else if Byte.eqb t x2a then next (process_array ridx)
      else Ok Perr
  | _ => Ok More
  end.

(** ProcessSerialNo, reader.cc:503-534: serial number (0 if there is none), position, consumed. *)
Definition process_serial (cur : cursor) : out (res (Z * cursor * Z)) :=
  match readable cur with
  | Some ((t :: b) :: rest) =>
      if negb (Byte.eqb t x40) then Ok (Got (0, (t :: b) :: rest, 0))
      else match readable (b :: rest) with
           | None => Ok More
           | Some c =>
               let! r := read_integer c in
               match r with
               | Got (p, len, c1) => let! z := convert p len in Ok (Got (z mod 2 ^ 32, c1, Z.of_nat len + 3))
               | More => Ok More
               | Perr => Ok Perr
               end
           end
  | _ => Ok More
  end.

(** An array being read: its serial number, its elements_ and the replies finished so far (idx_ of
    the task above is their number). *)
Notation frame := (Z * Z * list reply)%type.

(** MoveToNextTask, reader.cc:221-242: [inr]: the whole reply is finished. *)
Fixpoint finish (stack : list frame) (r : reply) : list frame + reply :=
  match stack with
  | [] => inr r
  | (sn, n, done) :: rest =>
      if Z.of_nat (length done) =? n - 1 then finish rest (Reply sn (BArray (done ++ [r])))
      else inl ((sn, n, done ++ [r]) :: rest)
  end.

(** The loop of GetReply, reader.cc:478-492; rstack_ has 9 entries. *)
Fixpoint reply_loop (fuel : nat) (stack : list frame) (cur : cursor) (consumed : Z) (first : bool) (pipeline : Z)
  : out (res (reply * Z)) :=
  match fuel with
  | O => NoFuel
  | S f =>
      match cur with
      | [] => Ok More
      | _ =>
          let ridx := Z.of_nat (length stack) in
          let! s := if first || (1 <? pipeline) && (ridx =? 1) then process_serial cur else Ok (Got (0, cur, 0)) in
          match s with
          | More => Ok More
          | Perr => Ok Perr
          | Got (sn, cur1, k1) =>
              let! x := process_item ridx cur1 in
              match x with
              | More => Ok More
              | Perr => Ok Perr
              | Got (IOpen n, cur2, k2) =>
                  if 8 <? ridx + 1 then UB
                  else reply_loop f ((sn, n, []) :: stack) cur2 (consumed + k1 + k2) false pipeline
              | Got (IDone b, cur2, k2) =>
                  match finish stack (Reply sn b) with
                  | inr r => Ok (Got (r, consumed + k1 + k2))
                  | inl stack1 => reply_loop f stack1 cur2 (consumed + k1 + k2) false pipeline
                  end
              end
          end
      end
  end.

(** GetReply, reader.cc:443-501: the reply and the number of bytes to skip. *)
Definition get_reply (blocks : cursor) (pipeline : Z) : out (res (reply * Z)) :=
  match readable blocks with
  | None => Ok More
  | Some cur =>
      reply_loop (S (length (concat blocks))) (if 1 <? pipeline then [(0, pipeline, [])] else []) cur 0 true pipeline
  end.

(** NoncontiguousBuffer::Skip. *)
Fixpoint skip (blocks : cursor) (n : Z) : cursor :=
  match blocks with
  | [] => []
  | p :: rest => if n <? Z.of_nat (length p) then skipn (Z.to_nat n) p :: rest else skip rest (n - Z.of_nat (length p))
  end.

(** RedisZeroCopyCheckResponse, redis_proto_checker.cc:23-50: the replies, what is left in the
    buffer, and whether it returns PACKET_ERR. *)
Fixpoint check_loop (fuel : nat) (blocks : cursor) (acc : list reply) : out (list reply * cursor * bool) :=
  match fuel with
  | O => NoFuel
  | S f =>
      if (length (concat blocks) =? 0)%nat then Ok (acc, blocks, false)
      else
        let! r := get_reply blocks 1 in
        match r with
        | Got (x, n) => check_loop f (skip blocks n) (acc ++ [x])
        | More => Ok (acc, blocks, false)
        | Perr => Ok (acc, blocks, true)
        end
  end.
Definition check_response (blocks : cursor) (supports_pipeline : bool) (merged : Z) : out (list reply * cursor * bool) :=
  if supports_pipeline then check_loop (S (length (concat blocks))) blocks []
  else
    let! r := get_reply blocks merged in
    match r with
    | Got (x, n) => Ok ([x], skip blocks n, false)
    | More => Ok ([], blocks, false)
    | Perr => Ok ([], blocks, true)
    end.

(** ** Commands *)

(** snprintf(tmp_buff, 16, "*%u\r\n", n): at most 15 characters. *)
Definition print16 (c : byte) (n : Z) : text := firstn 15 (c :: dec_nat (n mod 2 ^ 32) ++ [x0d; x0a]).

(** EncodeImpl, redis_protocol.cc:35-50. *)
Definition encode_command (params : list text) : text :=
  print16 x2a (Z.of_nat (length params)) ++
  flat_map (fun p => print16 x24 (Z.of_nat (length p)) ++ p ++ [x0d; x0a]) params.
(** ZeroCopyEncode, 21-33. *)
Definition encode_request (do_resp : bool) (params : list text) : out text :=
  if do_resp then Ok (encode_command params) else match params with p :: _ => Ok p | [] => UB end.

(** Formatter::FormatCommand, formatter.cc:23-177.  Variable arguments: a C string, a pointer with a
    length, or a number; taking one of another type is undefined.  [render] is VPrintf, given the
    conversion and the arguments that are left. *)
Inductive arg := AStr (s : text) | ABin (s : text) | ANum (z : Z).

Fixpoint skip_digits (p : text) : text :=
  match p with c :: r => if is_digit c then skip_digits r else p | [] => [] end.
Definition skip_char (c : byte) (p : text) : text :=
  match p with x :: r => if Byte.eqb x c then r else p | [] => [] end.
(** The pointer p after flags, width and precision, formatter.cc:76-96. *)
Definition skip_spec (p : text) : text :=
  let p := skip_digits (skip_char x2b (skip_char x20 (skip_char x2d (skip_char x30 (skip_char x23 p))))) in
  match p with x :: r => if Byte.eqb x x2e then skip_digits r else p | [] => [] end.
(** strchr also finds the terminating NUL, which is what p points to at the end of the format. *)
Definition in_set (set : text) (p : text) : bool := match p with [] => true | c :: _ => existsb (Byte.eqb c) set end.
Definition int_formats : text := [x64; x69; x6f; x75; x78; x58].
Definition double_formats : text := [x65; x45; x66; x46; x67; x47; x61; x41].
(** Lines 101-148.  [CNum]: one number is taken and p points to the conversion; [CBad]: return -1;
    [COther]: a conversion that is in none of the sets takes no argument. *)
Inductive conversion := CNum (p : text) | COther (p : text) | CBad.
Definition find_conversion (p : text) : conversion :=
  if in_set int_formats p then CNum p
  else if in_set double_formats p then CNum p
  else
    let sized (q : text) := match q with [] => CBad | _ => if in_set int_formats q then CNum q else CBad end in
    match p with
    | x :: r =>
        if Byte.eqb x x68 then match r with y :: t => if Byte.eqb y x68 then sized t else sized r | [] => sized r end
        else if Byte.eqb x x6c then match r with y :: t => if Byte.eqb y x6c then sized t else sized r | [] => sized r end
        else COther p
    | [] => COther p
    end.

Section Format.
  Variable render : text -> list arg -> option text.

  Fixpoint format_loop (fuel : nat) (c : text) (args : list arg) (touched : bool) (cur : text) (params : list text)
    : out (option (list text)) :=
    match fuel with
    | O => NoFuel
    | S f =>
        (** Lines 150-167: [p] points to the conversion; too long a conversion is not printed at all
            and c is advanced by 2 as usual. *)
        let print (r2 p : text) (args args1 : list arg) :=
          let l := S (length c - length p) in
          if (l <? 14)%nat then
            match render (firstn l c) args with
            | None => Ok None
            | Some t => match p with [] => UB | _ :: p1 => format_loop f p1 args1 true (cur ++ t) params end
            end
          else format_loop f r2 args1 true cur params in
        match c with
        | [] => Ok (Some (if touched then params ++ [cur] else params))
        | x :: r =>
            if negb (Byte.eqb x x25) || match r with [] => true | _ => false end then
              if Byte.eqb x x20 then
                if touched then format_loop f r args false [] (params ++ [cur])
                else format_loop f r args false cur params
              else format_loop f r args true (cur ++ [x]) params
            else
              match r with
              | [] => UB
              | y :: r2 =>
                  if Byte.eqb y x73 then
                    match args with AStr s :: a => format_loop f r2 a true (cur ++ s) params | _ => UB end
                  else if Byte.eqb y x62 then
                    match args with ABin s :: a => format_loop f r2 a true (cur ++ s) params | _ => UB end
                  else if Byte.eqb y x25 then format_loop f r2 args true (cur ++ [x25]) params
                  else
                    match find_conversion (skip_spec r) with
                    | CBad => Ok None
                    | CNum p => match args with ANum z :: a => print r2 p args a | _ => UB end
                    | COther p => print r2 p args args
                    end
              end
        end
    end.
  Definition format_command (format : text) (args : list arg) : out (option (list text)) :=
    format_loop (S (length format)) format args false [] [].
End Format.
