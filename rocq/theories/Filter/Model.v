(** Model of the filter controllers and the retry limit filter of trpc/filter (paths below are
    relative to that directory).

    The server side is modelled (server_filter_manager.cc, server_filter_controller.cc,
    trpc/server/server_context.h); the client side (client_filter_manager.cc,
    client_filter_controller.cc, trpc/client/client_context.h) is the same code with the
    points not masked.

    Simplifications:
    - a filter is its name and its points; running it is one entry in the list of calls, and
      whether it rejects is given by a function;
    - points are the masked numbers 0..9 (FilterPoint & kServerFilterMask);
    - sizes are unbounded, so the uint32_t casts are the identity. *)
From Verif.Lib Require Import Base ListX.
Local Open Scope out_scope.

Record filt := mk_filt { f_name : nat; f_points : list nat }.

(** message_server_global_filters_ and server_filters_: one deque per point. *)
Record filters := mk_filters { fs_global : nat -> list filt; fs_service : nat -> list filt }.
Definition fs_none : filters := mk_filters (fun _ => []) (fun _ => []).

(** PostOrder, server_filter_controller.h:40. *)
Definition post_order (p : nat) : bool := Nat.odd p.

(** GetMatchPoint, filter_point.h (last function). *)
Definition match_point (p : nat) : nat := if Nat.even p then p + 1 else p - 1.

Definition has_name (n : nat) (l : list filt) : bool := existsb (fun f => f_name f =? n) l.

(** The push loop, server_filter_manager.cc:74-81 and server_filter_controller.cc:46-53. *)
Fixpoint push_points (f : filt) (ps : list nat) (d : nat -> list filt) : nat -> list filt :=
  match ps with
  | [] => d
  | p :: r => push_points f r (fset d p (if post_order p then f :: d p else d p ++ [f]))
  end.

(** ServerFilterManager::AddMessageServerGlobalFilter, server_filter_manager.cc:60-84. *)
Definition add_global (s : filters) (f : filt) : filters * bool :=
  let dup := match f_points f with [] => false | p :: _ => has_name (f_name f) (fs_global s p) end in
  if dup then (s, false) else (mk_filters (push_points f (f_points f) (fs_global s)) (fs_service s), true).

(** ServerFilterController::AddMessageServerFilter, server_filter_controller.cc:22-56. *)
Definition add_service (s : filters) (f : filt) : filters * bool :=
  let dup := match f_points f with
             | [] => false
             | p :: _ => has_name (f_name f) (fs_global s p) || has_name (f_name f) (fs_service s p)
             end in
  if dup then (s, false) else (mk_filters (fs_global s) (push_points f (f_points f) (fs_service s)), true).

(** Registration of filters: (global?, filter); the second result holds the accepted ones. *)
Fixpoint register (s : filters) (regs : list (bool * filt)) : filters * list (bool * filt) :=
  match regs with
  | [] => (s, [])
  | (g, f) :: r =>
      let '(s1, ok) := if g then add_global s f else add_service s f in
      let '(s2, acc) := register s1 r in
      (s2, if ok then (g, f) :: acc else acc)
  end.

(** filter_exec_index, server_context.h:735: int8_t per pair of points, initially -1. *)
Definition exec_index := nat -> Z.
Definition fresh_index : exec_index := fun _ => (-1)%Z.

(** SetFilterExecIndex, server_context.h:182-186. *)
Definition set_index (c : exec_index) (p : nat) (i : nat) : out exec_index :=
  if (Z.of_nat i <=? 127)%Z then Ok (fset c (p / 2) (Z.of_nat i)) else Abort.
(** GetFilterExecIndex, server_context.h:193-195. *)
Definition get_index (c : exec_index) (p : nat) : Z := c (p / 2).

(** One of the two loops of the pre branch, server_filter_controller.cc:65-73, 77-85: the calls
    made, and the index of the filter that rejected. *)
Fixpoint run_until (rej : filt -> bool) (i : nat) (l : list filt) : list filt * option nat :=
  match l with
  | [] => ([], None)
  | f :: r => if rej f then ([f], Some i)
              else let '(calls, o) := run_until rej (S i) r in (f :: calls, o)
  end.

(** RunMessageServerFilters, server_filter_controller.cc:58-117; the results are the context's
    indexes, the calls in order, and whether the status is REJECT (at a post point the status is
    whatever the last filter left; it is not modelled). *)
Definition run_filters (s : filters) (rej : filt -> bool) (p : nat) (c : exec_index)
  : out (exec_index * list filt * bool) :=
  let g := fs_global s p in
  let v := fs_service s p in
  if negb (post_order p) then
    let '(c1, o1) := run_until rej 0 g in
    match o1 with
    | Some i => let! c' := set_index c p i in Ok (c', c1, true)
    | None =>
        let '(c2, o2) := run_until rej 0 v in
        match o2 with
        | Some i => let! c' := set_index c p (i + length g) in Ok (c', c1 ++ c2, true)
        | None => Ok (c, c1 ++ c2, false)
        end
    end
  else
    let e := get_index c (match_point p) in
    let n := if (e =? -1)%Z then length g + length v else Z.to_nat e in
    let '(sv, n1) := if length g <? n then (skipn (length v - (n - length g)) v, length g) else ([], n) in
    Ok (c, sv ++ skipn (length g - n1) g, false).

(* ------------------------------------------------------------------------- *)
(** * Retry limit filter, retry/retry_limit_client_filter.cc *)
Local Open Scope Z_scope.

(** The constructor's assertions, lines 24-25. *)
Definition rl_config_ok (mx ratio : Z) : Prop := 0 < mx < 2 ^ 31 - 1 /\ 0 < ratio <= mx.

(** CLIENT_PRE_RPC_INVOKE, lines 40-49: hedging is cancelled. *)
Definition rl_cancels (mx tokens : Z) : bool := tokens <=? Z.shiftr mx 1.

(** CLIENT_POST_RPC_INVOKE, lines 50-61, not overlapped by another call. *)
Definition rl_post (mx ratio tokens : Z) (ok : bool) : Z :=
  if ok then if mx <=? tokens then tokens + 1 - 1 else tokens + 1
  else if tokens <? 0 then 0 else tokens - ratio.

Definition rl_run (mx ratio : Z) (outcomes : list bool) : Z :=
  fold_left (rl_post mx ratio) outcomes mx.

(** Overlapping calls: one atomic access per step. *)
Inductive rl_pc :=
| RIdle
| RSub      (* line 54: undo the increment *)
| RStore.   (* line 58: store 0 *)

Record rl_mach := mk_rl { rl_tokens : Z; rl_thr : list rl_pc }.

(** Thread [t] starts a post call with outcome [ok], or continues. *)
Inductive rl_step (mx ratio : Z) : rl_mach -> rl_mach -> Prop :=
| rls_ok m t : nth_error (rl_thr m) t = Some RIdle ->
    rl_step mx ratio m (mk_rl (rl_tokens m + 1)
      (lset (rl_thr m) t (if mx <=? rl_tokens m then RSub else RIdle)))
| rls_fail m t : nth_error (rl_thr m) t = Some RIdle ->
    rl_step mx ratio m (mk_rl (rl_tokens m - ratio)
      (lset (rl_thr m) t (if rl_tokens m <? 0 then RStore else RIdle)))
| rls_sub m t : nth_error (rl_thr m) t = Some RSub ->
    rl_step mx ratio m (mk_rl (rl_tokens m - 1) (lset (rl_thr m) t RIdle))
| rls_store m t : nth_error (rl_thr m) t = Some RStore ->
    rl_step mx ratio m (mk_rl 0 (lset (rl_thr m) t RIdle)).

Inductive rl_reach (mx ratio : Z) (n : nat) : rl_mach -> Prop :=
| rlr_init : rl_reach mx ratio n (mk_rl mx (repeat RIdle n))
| rlr_step m m' : rl_reach mx ratio n m -> rl_step mx ratio m m' -> rl_reach mx ratio n m'.

(** A schedule: [inl (t, ok)] starts a call, [inr t] continues it. *)
Definition rl_act (mx ratio : Z) (m : rl_mach) (a : nat * bool + nat) : rl_mach :=
  match a with
  | inl (t, true) => mk_rl (rl_tokens m + 1) (lset (rl_thr m) t (if mx <=? rl_tokens m then RSub else RIdle))
  | inl (t, false) => mk_rl (rl_tokens m - ratio) (lset (rl_thr m) t (if rl_tokens m <? 0 then RStore else RIdle))
  | inr t => match nth t (rl_thr m) RIdle with
             | RIdle => m
             | RSub => mk_rl (rl_tokens m - 1) (lset (rl_thr m) t RIdle)
             | RStore => mk_rl 0 (lset (rl_thr m) t RIdle)
             end
  end.
