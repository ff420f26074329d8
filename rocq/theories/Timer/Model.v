(** Model of the request timeout queue of the future transport,
    trpc/transport/client/future/common/{timingwheel.h, timingwheel_timeout_queue.h}.

    Simplifications:
    - the linked lists of the five wheels are kept in one list, every entry carrying its level
      (0..4) and slot; the list of a slot is the subsequence of the entries with that level and
      slot, so appending at the end is InsertTail;
    - nodes and map iterators are identified by the request id;
    - size_t does not wrap (times are below 2^63); int due_time is cut down to 32 bits;
    - Pop() without an id (any element) is Pop of some id. *)
From Verif.Lib Require Import Base ListX.
Local Open Scope Z_scope.
Local Open Scope out_scope.

(** TimerNode, timingwheel.h:30-37, with the place where it is linked.  [n_due]: a ghost, the tick
    at which the node is due (set when it is added, never read). *)
Record node := mk_node { n_id : Z; n_exp : Z; n_level : nat; n_slot : Z; n_due : Z }.

(** last_expire_time_ms_ (the next tick to process) and the wheels. *)
Record wheel := mk_wheel { w_last : Z; w_nodes : list node }.

(** Conversion to int. *)
Definition int32 (z : Z) : Z := (z + 2 ^ 31) mod 2 ^ 32 - 2 ^ 31.

(** The slot chosen by AddTimerNode, timingwheel.h:230-259. *)
Definition place (last e : Z) : nat * Z :=
  let due := int32 (e - last) in
  if due <? 0 then (0%nat, Z.land last 1023)
  else if due <? 1024 then (0%nat, Z.land e 1023)
  else if due <? 2 ^ 16 then (1%nat, Z.land (Z.shiftr e 10) 63)
  else if due <? 2 ^ 22 then (2%nat, Z.land (Z.shiftr e 16) 63)
  else if due <? 2 ^ 28 then (3%nat, Z.land (Z.shiftr e 22) 63)
  else (4%nat, Z.land (Z.shiftr e 28) 15).

(** AddTimerNode of a detached node. *)
Definition relink (last : Z) (n : node) : node :=
  let '(l, s) := place last (n_exp n) in mk_node (n_id n) (n_exp n) l s (n_due n).

(** Add, lines 154-165. *)
Definition tw_add (w : wheel) (id e : Z) : wheel :=
  let '(l, s) := place (w_last w) e in
  mk_wheel (w_last w) (w_nodes w ++ [mk_node id e l s (Z.max e (w_last w))]).

(** Delete, lines 168-177. *)
Definition tw_delete (w : wheel) (id : Z) : out wheel :=
  if existsb (fun n => n_id n =? id) (w_nodes w)
  then Ok (mk_wheel (w_last w) (filter (fun n => negb (n_id n =? id)) (w_nodes w)))
  else UB.

Definition in_slot (l : nat) (s : Z) (n : node) : bool := (n_level n =? l)%nat && (n_slot n =? s).

(** Cascade, lines 263-278. *)
Definition cascade (w : wheel) (l : nat) (s : Z) : wheel :=
  mk_wheel (w_last w)
    (filter (fun n => negb (in_slot l s n)) (w_nodes w) ++
     map (relink (w_last w)) (filter (in_slot l s) (w_nodes w))).

(** The condition of DoTimeout, lines 183-197: the calls of Cascade. *)
Definition cascades (w : wheel) : wheel :=
  let t := w_last w in
  if negb (Z.land t 1023 =? 0) then w else
  let s1 := Z.land (Z.shiftr t 10) 63 in
  let w1 := cascade w 1 s1 in
  if negb (s1 =? 0) then w1 else
  let s2 := Z.land (Z.shiftr t 16) 63 in
  let w2 := cascade w1 2 s2 in
  if negb (s2 =? 0) then w2 else
  let s3 := Z.land (Z.shiftr t 22) 63 in
  let w3 := cascade w2 3 s3 in
  if negb (s3 =? 0) then w3 else
  cascade w3 4 (Z.land (Z.shiftr t 28) 15).

(** Lines 183-203: cascade and detach the current slot of the first level. *)
Definition tw_detach (w : wheel) : wheel * list node :=
  let w1 := cascades w in
  let s := Z.land (w_last w) 1023 in
  (mk_wheel (w_last w1) (filter (fun n => negb (in_slot 0 s n)) (w_nodes w1)),
   filter (in_slot 0 s) (w_nodes w1)).

(** Line 215. *)
Definition tw_next (w : wheel) : wheel := mk_wheel (w_last w + 1) (w_nodes w).

(* ------------------------------------------------------------------------- *)
(** * timingwheel_timeout_queue.h *)

(** hash_map_: request ids with their messages. *)
Record tqueue := mk_tq { tq_map : list (Z * Z); tq_wheel : wheel }.

Definition tq_new (now : Z) : tqueue := mk_tq [] (mk_wheel now []).

(** Get and Contains, lines 174-181 and 99. *)
Definition tq_get (q : tqueue) (id : Z) : option Z :=
  match find (fun x => fst x =? id) (tq_map q) with Some (_, m) => Some m | None => None end.

Definition map_erase (m : list (Z * Z)) (id : Z) : list (Z * Z) := filter (fun x => negb (fst x =? id)) m.

(** Push, lines 118-128. *)
Definition tq_push (q : tqueue) (id msg e : Z) : tqueue * bool :=
  match tq_get q id with
  | Some _ => (q, false)
  | None => (mk_tq ((id, msg) :: tq_map q) (tw_add (tq_wheel q) id e), true)
  end.

(** Pop(unique_id), lines 137-150. *)
Definition tq_pop (q : tqueue) (id : Z) : out (tqueue * option Z) :=
  match tq_get q id with
  | None => Ok (q, None)
  | Some m => let! w := tw_delete (tq_wheel q) id in
              Ok (mk_tq (map_erase (tq_map q) id) w, Some m)
  end.

(** GetAndPop, lines 167-171: what the timeout handler does with each expired request. *)
Definition tq_get_and_pop (q : tqueue) (id : Z) : out (tqueue * Z) :=
  match tq_get q id with
  | None => UB
  | Some m => Ok (mk_tq (map_erase (tq_map q) id) (tq_wheel q), m)
  end.

(** The loop over the detached list, timingwheel.h:205-213. *)
Fixpoint fire (q : tqueue) (l : list node) : out (tqueue * list (Z * Z)) :=
  match l with
  | [] => Ok (q, [])
  | n :: r => let! (q1, m) := tq_get_and_pop q (n_id n) in
              let! (q2, fired) := fire q1 r in Ok (q2, (n_id n, m) :: fired)
  end.

(** One round of the loop of DoTimeout, lines 182-216. *)
Definition tq_tick (q : tqueue) : out (tqueue * list (Z * Z)) :=
  let '(w, l) := tw_detach (tq_wheel q) in
  let! (q1, fired) := fire (mk_tq (tq_map q) w) l in
  Ok (mk_tq (tq_map q1) (tw_next (tq_wheel q1)), fired).

(** [n] rounds: the requests fired at each tick. *)
Fixpoint tq_ticks (n : nat) (q : tqueue) : out (tqueue * list (Z * list (Z * Z))) :=
  match n with
  | O => Ok (q, [])
  | S n1 => let t := w_last (tq_wheel q) in
            let! (q1, fired) := tq_tick q in
            let! (q2, l) := tq_ticks n1 q1 in Ok (q2, (t, fired) :: l)
  end.

(** DoTimeout, timingwheel.h:180-219: while now >= last. *)
Definition tq_do_timeout (q : tqueue) (now : Z) : out (tqueue * list (Z * list (Z * Z))) :=
  tq_ticks (Z.to_nat (now + 1 - w_last (tq_wheel q))) q.

Inductive tq_call :=
| TPush (id msg e : Z) | TPop (id : Z) | TGet (id : Z) | TSize | TTimeout (now : Z).
Inductive tq_answer :=
| APushed (b : bool) | AMsg (m : option Z) | ASize (n : Z) | AFired (l : list (Z * list (Z * Z))).

Fixpoint tq_run (q : tqueue) (calls : list tq_call) : out (tqueue * list tq_answer) :=
  match calls with
  | [] => Ok (q, [])
  | c :: r =>
      let! (q1, a) := match c with
        | TPush id msg e => let '(q1, b) := tq_push q id msg e in Ok (q1, APushed b)
        | TPop id => let! (q1, m) := tq_pop q id in Ok (q1, AMsg m)
        | TGet id => Ok (q, AMsg (tq_get q id))
        | TSize => Ok (q, ASize (Z.of_nat (length (tq_map q))))
        | TTimeout now => let! (q1, l) := tq_do_timeout q now in Ok (q1, AFired l)
        end in
      let! (q2, l) := tq_run q1 r in Ok (q2, a :: l)
  end.
