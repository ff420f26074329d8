(** Runners over the model: several numbered buffers, and client programs of the builder and
    of the zero-copy streams.  No code of /repo is modelled here; the runners only call the
    functions of Model.v in the order the C++ expressions evaluate. *)
From Verif.Lib Require Import Base Bytes.
From Verif.Buffer Require Import Model Spec.
Local Open Scope nat_scope.
Local Open Scope out_scope.

(** The bytes of a buffer. *)
Definition content (b : nbuf) : list byte := concat (blocks b).

(** Well-formed: the size field is right and no block is empty. *)
Definition nb_wf (b : nbuf) : Prop :=
  byte_size b = length (content b) /\ Forall (fun l : block => l <> []) (blocks b).

Definition mstate := nat -> nbuf.

Definition m_step (m : mstate) (o : bop) : out mstate :=
  match o with
  | OpAppendBlock i l => Ok (upd m i (nb_append_block (m i) l))
  | OpAppendContiguous i l => Ok (upd m i (nb_append_contiguous (m i) l))
  | OpAppend i j =>
      (* the by-value parameter is move-constructed first *)
      let (x, rest) := nb_move (m j) in
      let m1 := upd m j rest in
      Ok (upd m1 i (nb_append (m1 i) x))
  | OpSkip i n => let! b := nb_skip (m i) n in Ok (upd m i b)
  | OpCut i n j =>
      let! (rc, rest) := nb_cut (m i) n in
      let m1 := upd m i rest in
      let! (d, _) := nb_move_assign (m1 j) rc in
      Ok (upd m1 j d)
  | OpClear i => Ok (upd m i (nb_clear (m i)))
  | OpCopy i j => if i =? j then Ok m else Ok (upd m i (nb_copy_assign (m i) (m j)))
  | OpMove i j =>
      if i =? j then Ok m
      else let! (d, s) := nb_move_assign (m i) (m j) in Ok (upd (upd m i d) j s)
  end.

Fixpoint m_run (m : mstate) (ops : list bop) : out mstate :=
  match ops with
  | [] => Ok m
  | o :: r => let! m1 := m_step m o in m_run m1 r
  end.

(** Builder client programs. *)
Inductive bd_op :=
| BReserve (w : list byte)
| BAppend (l : list byte)
| BChar (c : byte)
| BMulti (ls : list (list byte))
| BBuffer (nb : nbuf).

(** Bytes contributed by one client call. *)
Definition bd_op_bytes (o : bd_op) : list byte :=
  match o with
  | BReserve w => w | BAppend l => l | BChar c => [c] | BMulti ls => concat ls
  | BBuffer nb => concat (blocks nb)
  end.

Section B.
  Variable bmax : nat.

  (** Documented preconditions: at most a block per Reserve, well-formed buffers. *)
  Definition bd_op_legal (o : bd_op) : Prop :=
    match o with
    | BReserve w => length w <= bmax
    | BBuffer nb => nb_wf nb
    | _ => True
    end.

  Definition bd_step (b : builder) (o : bd_op) : out builder :=
    match o with
    | BReserve w => bd_reserve bmax b w
    | BAppend l => bd_append bmax b l
    | BChar c => bd_append_char bmax b c
    | BMulti ls => bd_append_multi bmax b ls
    | BBuffer nb => bd_append_nb bmax b nb
    end.

  Fixpoint bd_run (b : builder) (ops : list bd_op) : out builder :=
    match ops with
    | [] => Ok b
    | o :: r => let! b1 := bd_step b o in bd_run b1 r
    end.

  (** Output stream client: runs the operations, collecting the offered sizes. *)
  Fixpoint os_run (o : ostream) (ops : list out_op) : out (ostream * list nat) :=
    match ops with
    | [] => Ok (o, [])
    | WNext fill :: r =>
        let! (o1, k) := os_next bmax o fill in
        let! (o2, ks) := os_run o1 r in Ok (o2, k :: ks)
    | WKeep k :: r =>
        let! o1 := os_backup o (length (os_pending o) - k) in os_run o1 r
    end.

  (** The client used by protobuf's SerializePartialToZeroCopyStream: ask for space until
      the whole string is stored, give back the rest of the last area (library behaviour). *)
  Fixpoint os_write_string (fuel : nat) (o : ostream) (l : list byte) : out ostream :=
    match l with
    | [] => Ok o
    | _ =>
        match fuel with
        | O => NoFuel
        | S f =>
            let! (o1, k) := os_next bmax o (fun i => nth i l Byte.x00) in
            if length l <=? k then os_backup o1 (k - length l)
            else os_write_string f o1 (skipn k l)
        end
    end.
End B.

(** Input stream client.  [RBackUp n] gives back [n] bytes, or all that may be given back if
    that is less. *)
Inductive in_op := RNext | RBackUp (n : nat) | RSkip (n : nat).

Fixpoint is_run (i : istream) (ops : list in_op) : out (istream * list in_event) :=
  match ops with
  | [] => Ok (i, [])
  | RNext :: r =>
      let! (i1, c) := is_next i in
      let! (i2, es) := is_run i1 r in Ok (i2, EvNext c :: es)
  | RBackUp n :: r =>
      let c := Nat.min n (is_skip i) in
      let! i1 := is_backup i c in
      let! (i2, es) := is_run i1 r in Ok (i2, EvBackUp c :: es)
  | RSkip n :: r =>
      let! (i1, b) := is_do_skip i n in
      let! (i2, es) := is_run i1 r in Ok (i2, EvSkip n b :: es)
  end.

(** The client used by protobuf's ParseFromZeroCopyStream: read every chunk (library). *)
Fixpoint is_read_all (fuel : nat) (i : istream) : out (istream * list byte) :=
  match fuel with
  | O => NoFuel
  | S f =>
      let! (i1, c) := is_next i in
      match c with
      | None => Ok (i1, [])
      | Some l => let! (i2, r) := is_read_all f i1 in Ok (i2, l ++ r)
      end
  end.
