(** Model of the work-stealing deques: UnboundedSPMCQueue (trpc/util/queue/unbounded_spmc_queue.h) and, with [bounded], its
    variant of fixed capacity BoundedSPMCQueue (trpc/util/queue/bounded_spmc_queue.h), as an interleaving of the owner and
    any number of thieves.

    Simplified: sequentially consistent memory (the code orders its accesses by fences); the owner's loads of array_, which only
    the owner writes, are merged with the next step; the copying of Resize is one step with the store of array_ (nobody
    else sees the new array before); the int64_t positions of the unbounded queue are numbers without bound, and so is the
    capacity.  The size_t positions of the bounded queue wrap. *)
From Verif.Lib Require Import Base ListX.
From Verif.Queue Require Import ModelMpmc.
Local Open Scope Z_scope.

Section Deque.
Context {V : Type}.
Variable bounded : bool.

Definition wrap (x : Z) : Z := if bounded then x mod 2 ^ 64 else x.

(** Array, unbounded_spmc_queue.h:64-88 (and Element): capacity and storage; what is not written yet is null, or not initialised. *)
Definition array := (Z * (Z -> option V))%type.
Definition a_get (a : array) (i : Z) : option V := snd a (Z.land i (fst a - 1)).
Definition a_put (a : array) (i : Z) (x : option V) : array := (fst a, zset (snd a) (Z.land i (fst a - 1)) x).
(** Resize, 80-86. *)
Fixpoint copy_loop (n : nat) (i : Z) (old new : array) : array :=
  match n with
  | O => new
  | S m => copy_loop m (i + 1) old (a_put new i (a_get old i))
  end.
Definition resize (bottom top : Z) (old : array) : array :=
  copy_loop (Z.to_nat (bottom - top)) top old (2 * fst old, fun _ => None).

(** The owner: Push, 131-147 (Enqueue, bounded_spmc_queue.h:48-64) and Pop, 149-174 (Dequeue, 68-93). *)
Inductive opc :=
| OIdle
| OPushB (v : V)              (* load bottom_ *)
| OPushT (v : V) (b : Z)      (* load top_ *)
| OPushA (v : V) (b t : Z)    (* test the capacity *)
| OPushW (v : V) (b : Z)      (* write the element *)
| OPushP (v : V) (b : Z)      (* store bottom_ *)
| OPopB                       (* load bottom_ *)
| OPopS (b : Z)               (* store bottom_ *)
| OPopT (b : Z)               (* load top_ *)
| OPopR (b t : Z)             (* read the element *)
| OPopC (b : Z) (x : option V)             (* compare_exchange *)
| OPopE (b : Z) (r : option (option V)).   (* store bottom_; [r] is what is returned, [None] for nullptr *)
(** A thief: Steal, 176-193 (98-114). *)
Inductive tpc :=
| TIdle
| TB (t : Z)                  (* load bottom_ *)
| TA (t : Z)                  (* load array_ *)
| TR (t : Z) (a : nat)        (* read the element *)
| TC (t : Z) (x : option V).  (* compare_exchange *)

(** [d_arrs] are all arrays made so far (the old ones are kept in garbage_), [d_cur] is array_.  [d_in] and [d_got] are bookkeeping:
    what was pushed and what was returned. *)
Record deque := { d_top : Z; d_bot : Z; d_arrs : list array; d_cur : nat; d_own : opc; d_thr : list tpc;
  d_in : list V; d_got : list (option V) }.
(** The constructors, 106-113 (bounded_spmc_queue.h:36-43). *)
Definition init (cap : Z) (n : nat) : deque :=
  {| d_top := 0; d_bot := 0; d_arrs := [(cap, fun _ => None)]; d_cur := 0; d_own := OIdle; d_thr := repeat TIdle n; d_in := []; d_got := [] |}.

Definition nth_array (l : list array) (a : nat) : array := nth a l (0, fun _ => None).
Definition cell (s : deque) (a : nat) (i : Z) : option V := a_get (nth_array (d_arrs s) a) i.
Definition cap (s : deque) : Z := fst (nth_array (d_arrs s) (d_cur s)).
Definition set_own (o : opc) (s : deque) : deque :=
  {| d_top := d_top s; d_bot := d_bot s; d_arrs := d_arrs s; d_cur := d_cur s; d_own := o; d_thr := d_thr s; d_in := d_in s; d_got := d_got s |}.
Definition set_bot (b : Z) (s : deque) : deque :=
  {| d_top := d_top s; d_bot := b; d_arrs := d_arrs s; d_cur := d_cur s; d_own := d_own s; d_thr := d_thr s; d_in := d_in s; d_got := d_got s |}.
Definition set_top (t : Z) (s : deque) : deque :=
  {| d_top := t; d_bot := d_bot s; d_arrs := d_arrs s; d_cur := d_cur s; d_own := d_own s; d_thr := d_thr s; d_in := d_in s; d_got := d_got s |}.
Definition set_thr (i : nat) (c : tpc) (s : deque) : deque :=
  {| d_top := d_top s; d_bot := d_bot s; d_arrs := d_arrs s; d_cur := d_cur s; d_own := d_own s; d_thr := lset (d_thr s) i c; d_in := d_in s; d_got := d_got s |}.
Definition set_arrs (l : list array) (c : nat) (s : deque) : deque :=
  {| d_top := d_top s; d_bot := d_bot s; d_arrs := l; d_cur := c; d_own := d_own s; d_thr := d_thr s; d_in := d_in s; d_got := d_got s |}.
Definition add_in (v : V) (s : deque) : deque :=
  {| d_top := d_top s; d_bot := d_bot s; d_arrs := d_arrs s; d_cur := d_cur s; d_own := d_own s; d_thr := d_thr s; d_in := d_in s ++ [v]; d_got := d_got s |}.
Definition add_got (l : list (option V)) (s : deque) : deque :=
  {| d_top := d_top s; d_bot := d_bot s; d_arrs := d_arrs s; d_cur := d_cur s; d_own := d_own s; d_thr := d_thr s; d_in := d_in s; d_got := d_got s ++ l |}.

Inductive step : deque -> deque -> Prop :=
| o_push v s : d_own s = OIdle -> step s (set_own (OPushB v) s)
| o_pushb v s : d_own s = OPushB v -> step s (set_own (OPushT v (d_bot s)) s)
| o_pusht v b s : d_own s = OPushT v b -> step s (set_own (OPushA v b (d_top s)) s)
| o_room v b t s : d_own s = OPushA v b t -> ~ cap s - 1 < wrap (b - t) -> step s (set_own (OPushW v b) s)
| (* Enqueue returns false *)
  o_full v b t s : d_own s = OPushA v b t -> cap s - 1 < wrap (b - t) -> bounded = true -> step s (set_own OIdle s)
| o_resize v b t s : d_own s = OPushA v b t -> cap s - 1 < wrap (b - t) -> bounded = false ->
    step s (set_own (OPushW v b)
             (set_arrs (d_arrs s ++ [resize b t (nth_array (d_arrs s) (d_cur s))]) (length (d_arrs s)) s))
| o_write v b s : d_own s = OPushW v b ->
    step s (set_own (OPushP v b) (set_arrs (lset (d_arrs s) (d_cur s) (a_put (nth_array (d_arrs s) (d_cur s)) b (Some v))) (d_cur s) s))
| o_publish v b s : d_own s = OPushP v b -> step s (set_own OIdle (add_in v (set_bot (wrap (b + 1)) s)))
| o_pop s : d_own s = OIdle -> step s (set_own OPopB s)
| o_popb s : d_own s = OPopB -> step s (set_own (OPopS (wrap (d_bot s - 1))) s)
| o_pops b s : d_own s = OPopS b -> step s (set_own (OPopT b) (set_bot b s))
| o_popt b s : d_own s = OPopT b -> step s (set_own (if d_top s <=? b then OPopR b (d_top s) else OPopE b None) s)
| o_popr b t s : d_own s = OPopR b t -> t <> b -> step s (set_own OIdle (add_got [cell s (d_cur s) b] s))
| o_last b t s : d_own s = OPopR b t -> t = b -> step s (set_own (OPopC b (cell s (d_cur s) b)) s)
| o_cas b x s : d_own s = OPopC b x -> d_top s = b -> step s (set_own (OPopE b (Some x)) (set_top (wrap (b + 1)) s))
| (* bounded_spmc_queue.h:83: returns without restoring bottom_ *)
  o_lost b x s : d_own s = OPopC b x -> d_top s <> b -> step s (set_own (if bounded then OIdle else OPopE b None) s)
| o_end b r s : d_own s = OPopE b r ->
    step s (set_own OIdle (add_got (match r with Some x => [x] | None => [] end) (set_bot (wrap (b + 1)) s)))
| t_start i s : nth_error (d_thr s) i = Some TIdle -> step s (set_thr i (TB (d_top s)) s)
| t_bottom i t s : nth_error (d_thr s) i = Some (TB t) -> step s (set_thr i (if t <? d_bot s then TA t else TIdle) s)
| t_array i t s : nth_error (d_thr s) i = Some (TA t) -> step s (set_thr i (TR t (d_cur s)) s)
| t_read i t a s : nth_error (d_thr s) i = Some (TR t a) -> step s (set_thr i (TC t (cell s a t)) s)
| t_cas i t x s : nth_error (d_thr s) i = Some (TC t x) -> d_top s = t ->
    step s (set_thr i TIdle (add_got [x] (set_top (wrap (t + 1)) s)))
| t_lost i t x s : nth_error (d_thr s) i = Some (TC t x) -> d_top s <> t -> step s (set_thr i TIdle s).

(** Runs whose states before each step satisfy [ok]. *)
Inductive reach (ok : deque -> Prop) (c : Z) (n : nat) : deque -> Prop :=
| r_init : reach ok c n (init c n)
| r_step s s' : reach ok c n s -> ok s -> step s s' -> reach ok c n s'.
End Deque.
Arguments opc : clear implicits.
Arguments tpc : clear implicits.
Arguments deque : clear implicits.
