(** Model of one Promise/Future pair, trpc/future/future.h, as an interleaving of the thread that holds the
    promise and the thread that holds the future.

    Simplified: sequentially consistent memory; the executor runs a submitted continuation once (or
    refuses it, and then it is run in place, Schedule 167-180); one callback per future; the multiple and
    single parameter versions (which differ in types only) are one. *)
From Verif.Lib Require Import Base.
Local Open Scope Z_scope.

Section Future.
Context {V E : Type}.
(** CommonException("Broken promise"), 1237. *)
Variable broken : E.

Inductive res := Val (v : V) | Exc (e : E).

(** Where a thread is inside TrySchedule (633-648), after unlock. *)
Inductive tpc :=
| TCheck      (* 636: IsReady(), 641: IsFailed() *)
| TTasR       (* 637: test_and_set, seen ready *)
| TTasF       (* 642: test_and_set, seen failed *)
| TTakeR      (* 638-639 *)
| TTakeF.     (* 643-644 *)

(** The promise's thread: it calls SetValue/SetException for each element of the script and then drops
    the promise. *)
Inductive rpc :=
| RRun (script : list res)
| RStored (script : list res)            (* before the lock, 606 *)
| RTry (t : tpc) (script : list res)
| RDone.
(** The future's thread: it may call Then once, and then drops the future. *)
Inductive apc :=
| AStart
| AInstalled                             (* before the lock, 535 *)
| ATry (t : tpc)
| AAfter                                 (* before ~Future *)
| ADone.

(** FutureStateBase and FutureState, 89-142. *)
Record st := {
  f_value : option V; f_ready : bool;
  f_exc : option E; f_failed : bool;
  f_has_result : bool; f_has_callback : bool;
  f_flag : bool;               (* schedule_flag *)
  f_refs : Z;                  (* ref_count *)
  f_freed : Z;                 (* how often the state was deleted *)
  f_runs : list res;           (* what continuations were scheduled with *)
  f_bad : bool;                (* an assertion failed or freed memory was used *)
  f_then : bool;               (* bookkeeping: Then was called *)
  f_r : rpc; f_a : apc }.

(** Promise(), GetFuture(): 1180, 1222-1225. *)
Definition init (script : list res) : st :=
  {| f_value := None; f_ready := false; f_exc := None; f_failed := false; f_has_result := false; f_has_callback := false;
     f_flag := false; f_refs := 2; f_freed := 0; f_runs := []; f_bad := false; f_then := false; f_r := RRun script; f_a := AStart |}.

(** The part of the state the threads share: value, flags. *)
Definition set_r (p : rpc) (s : st) : st :=
  {| f_value := f_value s; f_ready := f_ready s; f_exc := f_exc s; f_failed := f_failed s; f_has_result := f_has_result s;
     f_has_callback := f_has_callback s; f_flag := f_flag s; f_refs := f_refs s; f_freed := f_freed s; f_runs := f_runs s;
     f_bad := f_bad s; f_then := f_then s; f_r := p; f_a := f_a s |}.
Definition set_a (p : apc) (s : st) : st :=
  {| f_value := f_value s; f_ready := f_ready s; f_exc := f_exc s; f_failed := f_failed s; f_has_result := f_has_result s;
     f_has_callback := f_has_callback s; f_flag := f_flag s; f_refs := f_refs s; f_freed := f_freed s; f_runs := f_runs s;
     f_bad := f_bad s; f_then := f_then s; f_r := f_r s; f_a := p |}.
(** Every access to the state: it must not have been deleted. *)
Definition touch (s : st) : st :=
  {| f_value := f_value s; f_ready := f_ready s; f_exc := f_exc s; f_failed := f_failed s; f_has_result := f_has_result s;
     f_has_callback := f_has_callback s; f_flag := f_flag s; f_refs := f_refs s; f_freed := f_freed s; f_runs := f_runs s;
     f_bad := f_bad s || (0 <? f_freed s); f_then := f_then s; f_r := f_r s; f_a := f_a s |}.
(** SetValue, 603-604; SetException, 613-614: before the lock. *)
Definition store (x : res) (s : st) : st :=
  match x with
  | Val v =>
      {| f_value := Some v; f_ready := true; f_exc := f_exc s; f_failed := f_failed s; f_has_result := f_has_result s;
         f_has_callback := f_has_callback s; f_flag := f_flag s; f_refs := f_refs s; f_freed := f_freed s; f_runs := f_runs s;
         f_bad := f_bad s; f_then := f_then s; f_r := f_r s; f_a := f_a s |}
  | Exc e =>
      {| f_value := f_value s; f_ready := f_ready s; f_exc := Some e; f_failed := true; f_has_result := f_has_result s;
         f_has_callback := f_has_callback s; f_flag := f_flag s; f_refs := f_refs s; f_freed := f_freed s; f_runs := f_runs s;
         f_bad := f_bad s; f_then := f_then s; f_r := f_r s; f_a := f_a s |}
  end.
(** 607, with the lock held. *)
Definition mark_result (s : st) : st :=
  {| f_value := f_value s; f_ready := f_ready s; f_exc := f_exc s; f_failed := f_failed s; f_has_result := true;
     f_has_callback := f_has_callback s; f_flag := f_flag s; f_refs := f_refs s; f_freed := f_freed s; f_runs := f_runs s;
     f_bad := f_bad s; f_then := f_then s; f_r := f_r s; f_a := f_a s |}.
(** SetCallback, 536, with the lock held. *)
Definition mark_callback (s : st) : st :=
  {| f_value := f_value s; f_ready := f_ready s; f_exc := f_exc s; f_failed := f_failed s; f_has_result := f_has_result s;
     f_has_callback := true; f_flag := f_flag s; f_refs := f_refs s; f_freed := f_freed s; f_runs := f_runs s;
     f_bad := f_bad s; f_then := f_then s; f_r := f_r s; f_a := f_a s |}.
Definition mark_then (s : st) : st :=
  {| f_value := f_value s; f_ready := f_ready s; f_exc := f_exc s; f_failed := f_failed s; f_has_result := f_has_result s;
     f_has_callback := f_has_callback s; f_flag := f_flag s; f_refs := f_refs s; f_freed := f_freed s; f_runs := f_runs s;
     f_bad := f_bad s; f_then := true; f_r := f_r s; f_a := f_a s |}.
Definition set_flag (s : st) : st :=
  {| f_value := f_value s; f_ready := f_ready s; f_exc := f_exc s; f_failed := f_failed s; f_has_result := f_has_result s;
     f_has_callback := f_has_callback s; f_flag := true; f_refs := f_refs s; f_freed := f_freed s; f_runs := f_runs s;
     f_bad := f_bad s; f_then := f_then s; f_r := f_r s; f_a := f_a s |}.
(** GetValue (508-512, asserts ready) and Schedule. *)
Definition take_value (s : st) : st :=
  {| f_value := f_value s; f_ready := false; f_exc := f_exc s; f_failed := f_failed s; f_has_result := f_has_result s;
     f_has_callback := f_has_callback s; f_flag := f_flag s; f_refs := f_refs s; f_freed := f_freed s;
     f_runs := f_runs s ++ match f_value s with Some v => [Val v] | None => [] end;
     f_bad := f_bad s || negb (f_ready s) || match f_value s with Some _ => false | None => true end;
     f_then := f_then s; f_r := f_r s; f_a := f_a s |}.
(** GetException (474-477) and Schedule. *)
Definition take_exception (s : st) : st :=
  {| f_value := f_value s; f_ready := f_ready s; f_exc := f_exc s; f_failed := false; f_has_result := f_has_result s;
     f_has_callback := f_has_callback s; f_flag := f_flag s; f_refs := f_refs s; f_freed := f_freed s;
     f_runs := f_runs s ++ match f_exc s with Some e => [Exc e] | None => [] end;
     f_bad := f_bad s || match f_exc s with Some _ => false | None => true end;
     f_then := f_then s; f_r := f_r s; f_a := f_a s |}.
(** FutureImpl::Detach, 651-657. *)
Definition detach (s : st) : st :=
  {| f_value := f_value s; f_ready := f_ready s; f_exc := f_exc s; f_failed := f_failed s; f_has_result := f_has_result s;
     f_has_callback := f_has_callback s; f_flag := f_flag s; f_refs := f_refs s - 1;
     f_freed := if f_refs s =? 1 then f_freed s + 1 else f_freed s; f_runs := f_runs s;
     f_bad := f_bad s || (f_refs s <? 1); f_then := f_then s; f_r := f_r s; f_a := f_a s |}.

(** One step of TrySchedule after the unlock (633-648): the state and where the thread is then, [None]
    when it returns. *)
Definition try_step (t : tpc) (s : st) : st * option tpc :=
  match t with
  | TCheck => (s, if f_ready s then Some TTasR else if f_failed s then Some TTasF else None)
  | TTasR => if f_flag s then (s, None) else (set_flag s, Some TTakeR)
  | TTasF => if f_flag s then (s, None) else (set_flag s, Some TTakeF)
  | TTakeR => (take_value s, None)
  | TTakeF => (take_exception s, None)
  end.

(** One step of the promise's thread. *)
Definition r_step (s0 : st) : st :=
  let s := touch s0 in
  match f_r s with
  | RRun (x :: l) => set_r (RStored l) (store x s)
  | RRun [] =>
      (* Promise::Detach, 1231-1243 *)
      if f_has_result s then set_r RDone (detach s) else set_r (RStored []) (store (Exc broken) s)
  | RStored l =>
      let s1 := mark_result s in
      if f_has_callback s1 then set_r (RTry TCheck l) s1 else set_r (RRun l) s1
  | RTry t l =>
      match try_step t s with
      | (s1, Some t1) => set_r (RTry t1 l) s1
      | (s1, None) => set_r (RRun l) s1
      end
  | RDone => s0
  end.

(** One step of the future's thread; [callback] says whether it calls Then. *)
Definition a_step (callback : bool) (s0 : st) : st :=
  let s := touch s0 in
  match f_a s with
  | AStart => if callback then set_a AInstalled (mark_then s) else set_a AAfter s
  | AInstalled =>
      let s1 := mark_callback s in
      if f_has_result s1 then set_a (ATry TCheck) s1 else set_a AAfter s1
  | ATry t =>
      match try_step t s with
      | (s1, Some t1) => set_a (ATry t1) s1
      | (s1, None) => set_a AAfter s1
      end
  | AAfter => set_a ADone (detach s)
  | ADone => s0
  end.

Inductive step : st -> st -> Prop :=
| s_r s : f_r s <> RDone -> step s (r_step s)
| s_a b s : f_a s <> ADone -> step s (a_step b s).
Inductive reach (script : list res) : st -> Prop :=
| r_init : reach script (init script)
| r_next s s' : reach script s -> step s s' -> reach script s'.
End Future.
Arguments res : clear implicits.
Arguments st : clear implicits.
