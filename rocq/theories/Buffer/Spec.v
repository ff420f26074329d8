(** Specification of the buffer component: everything is a plain byte string. *)
From Verif.Lib Require Import Base Bytes.
Local Open Scope nat_scope.

(** ** Operations on several buffers, addressed by number. *)
Inductive bop :=
| OpAppendBlock (i : nat) (l : list byte)       (* buf_i.Append(block with content l) *)
| OpAppendContiguous (i : nat) (l : list byte)  (* buf_i.Append(BufferPtr with content l) *)
| OpAppend (i j : nat)                          (* buf_i.Append(std::move(buf_j)) *)
| OpSkip (i n : nat)                            (* buf_i.Skip(n) *)
| OpCut (i n j : nat)                           (* buf_j = buf_i.Cut(n) *)
| OpClear (i : nat)                             (* buf_i.Clear() *)
| OpCopy (i j : nat)                            (* buf_i = buf_j *)
| OpMove (i j : nat).                           (* buf_i = std::move(buf_j) *)

Definition upd {A} (s : nat -> A) (i : nat) (v : A) : nat -> A :=
  fun k => if k =? i then v else s k.

Definition sstate := nat -> list byte.

(** The meaning of each operation on byte strings; [None] = the documented precondition is
    violated (skipping or cutting more than the content, appending an empty block). *)
Definition spec_step (s : sstate) (o : bop) : option sstate :=
  match o with
  | OpAppendBlock i l =>
      match l with [] => None | _ => Some (upd s i (s i ++ l)) end
  | OpAppendContiguous i l => Some (upd s i (s i ++ l))
  | OpAppend i j =>
      let x := s j in let s1 := upd s j [] in Some (upd s1 i (s1 i ++ x))
  | OpSkip i n =>
      if n <=? length (s i) then Some (upd s i (skipn n (s i))) else None
  | OpCut i n j =>
      if n <=? length (s i)
      then Some (upd (upd s i (skipn n (s i))) j (firstn n (s i)))
      else None
  | OpClear i => Some (upd s i [])
  | OpCopy i j => Some (upd s i (s j))
  | OpMove i j => if i =? j then Some s else Some (upd (upd s i (s j)) j [])
  end.

Fixpoint spec_run (s : sstate) (ops : list bop) : option sstate :=
  match ops with
  | [] => Some s
  | o :: r => match spec_step s o with Some s' => spec_run s' r | None => None end
  end.

(** ** Substring search. *)

(** [s] contains [p] at offset [k]. *)
Definition occurs_at (p s : list byte) (k : nat) : Prop :=
  exists a c, s = a ++ p ++ c /\ length a = k.

(** [k] is the first offset at which [p] occurs in [s]. *)
Definition first_occurrence (p s : list byte) (k : nat) : Prop :=
  occurs_at p s k /\ forall k', k' < k -> ~ occurs_at p s k'.

(** ** Builder calls. *)
Definition at_most (m : option nat) (l : list byte) : list byte :=
  match m with Some n => firstn n l | None => l end.

(** ** Zero-copy input stream: legal traces over a byte string [s].  A state is
    (position, bytes of the last Next not yet backed up). *)
Inductive in_event :=
| EvNext (chunk : option (list byte))
| EvBackUp (n : nat)
| EvSkip (n : nat) (ok : bool).

Inductive in_trace (s : list byte) : nat -> nat -> list in_event -> nat -> Prop :=
| in_nil p l : in_trace s p l [] p
| in_next p l c es p' :
    c <> [] -> firstn (length c) (skipn p s) = c ->
    in_trace s (p + length c) (length c) es p' ->
    in_trace s p l (EvNext (Some c) :: es) p'
| in_end p l es p' :
    p = length s -> in_trace s p 0 es p' -> in_trace s p l (EvNext None :: es) p'
| in_backup p l n es p' :
    n <= l -> in_trace s (p - n) (l - n) es p' -> in_trace s p l (EvBackUp n :: es) p'
| in_skip_ok p l n es p' :
    p + n <= length s -> in_trace s (p + n) 0 es p' -> in_trace s p l (EvSkip n true :: es) p'
| in_skip_no p l n es p' :
    length s < p + n -> in_trace s p 0 es p' -> in_trace s p l (EvSkip n false :: es) p'.

(** The bytes consumed by a trace: chunks are appended, back-ups remove from the end, a
    successful Skip consumes the next bytes of [s]. *)
Fixpoint consumed (s acc : list byte) (es : list in_event) : list byte :=
  match es with
  | [] => acc
  | EvNext (Some c) :: r => consumed s (acc ++ c) r
  | EvNext None :: r => consumed s acc r
  | EvBackUp n :: r => consumed s (firstn (length acc - n) acc) r
  | EvSkip n true :: r => consumed s (acc ++ firstn n (skipn (length acc) s)) r
  | EvSkip _ false :: r => consumed s acc r
  end.

(** ** Zero-copy output stream: the bytes a client has written, given the sizes it was
    offered.  [pend] is what it stored in the last offered area and has not given back.
    [WKeep k]: give back all but the first [k] bytes of the last offered area (every legal
    BackUp has this form). *)
Inductive out_op := WNext (fill : nat -> byte) | WKeep (k : nat).

Fixpoint out_written (done pend : list byte) (ops : list out_op) (sizes : list nat) : list byte :=
  match ops with
  | [] => done ++ pend
  | WNext fill :: r =>
      match sizes with
      | k :: ks => out_written (done ++ pend) (map fill (seq 0 k)) r ks
      | [] => []
      end
  | WKeep k :: r => out_written done (firstn k pend) r sizes
  end.
