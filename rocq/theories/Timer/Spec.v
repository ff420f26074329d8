(** Specification of a timeout queue: a set of requests with the tick at which each is due. *)
From Coq Require Import Permutation.
From Verif.Lib Require Import Base.
From Verif.Timer Require Import Model.
Local Open Scope Z_scope.

(** [s_next]: the first tick not yet processed; [s_pending]: (id, message, due tick). *)
Record squeue := mk_sq { s_next : Z; s_pending : list (Z * Z * Z) }.

Definition s_id (x : Z * Z * Z) : Z := fst (fst x).
Definition s_msg (x : Z * Z * Z) : Z := snd (fst x).
Definition s_due (x : Z * Z * Z) : Z := snd x.

Definition s_find (q : squeue) (id : Z) : option Z :=
  match find (fun x => s_id x =? id) (s_pending q) with Some x => Some (s_msg x) | None => None end.

(** The requests due at tick [t]. *)
Definition due_at (l : list (Z * Z * Z)) (t : Z) : list (Z * Z) :=
  map (fun x => (s_id x, s_msg x)) (filter (fun x => s_due x =? t) l).

Definition s_do (q : squeue) (c : tq_call) : squeue * tq_answer :=
  match c with
  | TPush id msg e =>
      match s_find q id with
      | Some _ => (q, APushed false)
      | None => (mk_sq (s_next q) ((id, msg, Z.max e (s_next q)) :: s_pending q), APushed true)
      end
  | TPop id => (mk_sq (s_next q) (filter (fun x => negb (s_id x =? id)) (s_pending q)), AMsg (s_find q id))
  | TGet id => (q, AMsg (s_find q id))
  | TSize => (q, ASize (Z.of_nat (length (s_pending q))))
  | TTimeout now =>
      (mk_sq (Z.max (s_next q) (now + 1)) (filter (fun x => now <? s_due x) (s_pending q)),
       AFired (map (fun i => let t := s_next q + Z.of_nat i in (t, due_at (s_pending q) t))
                   (seq 0 (Z.to_nat (now + 1 - s_next q)))))
  end.

(** The expiry times of all pushes lie within [lo, hi) of the first unprocessed tick. *)
Fixpoint within (lo hi : Z) (q : squeue) (calls : list tq_call) : Prop :=
  match calls with
  | [] => True
  | c :: r => (match c with TPush _ _ e => lo <= e - s_next q < hi | _ => True end) /\
              within lo hi (fst (s_do q c)) r
  end.

Fixpoint s_run (q : squeue) (calls : list tq_call) : list tq_answer :=
  match calls with [] => [] | c :: r => snd (s_do q c) :: s_run (fst (s_do q c)) r end.

(** Answers agree; requests of one tick may fire in any order. *)
Definition agree (a b : tq_answer) : Prop :=
  match a, b with
  | AFired l, AFired m => Forall2 (fun x y => fst x = fst y /\ Permutation (snd x) (snd y)) l m
  | _, _ => a = b
  end.

(** The state after tick 5 of an empty queue when a handler pushes a request for time 4 during it. *)
Definition handler_state : tqueue :=
  let '(w, _) := tw_detach (mk_wheel 5 []) in
  let '(q, _) := tq_push (mk_tq [] w) 1 7 4 in mk_tq (tq_map q) (tw_next (tq_wheel q)).

(** Nothing fired. *)
Definition quiet (l : list (Z * list (Z * Z))) : bool := forallb (fun x => match snd x with [] => true | _ => false end) l.
