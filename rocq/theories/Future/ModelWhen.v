(** Model of WhenAll, WhenAny and WhenAnyWithoutException over a range of futures,
    trpc/future/future_utility.h, as an interleaving of the callbacks of the input futures.

    Input [i] will get the result [nth i inputs]; when it does (in any order, on any thread) its callback
    runs, one atomic access per step.  Setting the promise is one step (what happens then is the subject of
    Model.v).  WhenAll over a tuple (131-165, 278-297) does the same with a tuple for the vector. *)
From Verif.Lib Require Import Base ListX.
From Verif.Future Require Import Model.
Local Open Scope Z_scope.

Section When.
Context {V E : Type}.
Variable default : V.
Definition u32 (x : Z) : Z := x mod 2 ^ 32.

(** Where the callback of one input is. *)
Inductive pc :=
| Wait                     (* the input has no result yet *)
| Stored                   (* WhenAll: result[idx] is assigned *)
| Added (current : Z)      (* fetch_add returned *)
| First                    (* exchange returned false *)
| Done.

(** *** WhenAll(first, last), 305-331 *)
Record all := { l_pcs : list pc; l_result : list (option (res V E)); l_counter : Z;
  l_sets : list (list (option (res V E)));   (* what the promise was set to *)
  l_bad : bool }.                            (* an access outside of the vector *)
Definition all_init (n : nat) : all :=
  {| l_pcs := repeat Wait n; l_result := repeat None n; l_counter := 0;
     l_sets := if (n =? 0)%nat then [[]] else []; l_bad := false |}.
Inductive all_step (inputs : list (res V E)) : all -> all -> Prop :=
| (* 319: result[idx] = std::move(fut) *)
  al_store i x s : nth_error (l_pcs s) i = Some Wait -> nth_error inputs i = Some x ->
    all_step inputs s {| l_pcs := lset (l_pcs s) i Stored; l_result := lset (l_result s) i (Some x);
      l_counter := l_counter s; l_sets := l_sets s; l_bad := l_bad s || (length (l_result s) <=? i)%nat |}
| (* 321 *)
  al_add i s : nth_error (l_pcs s) i = Some Stored ->
    all_step inputs s {| l_pcs := lset (l_pcs s) i (Added (l_counter s)); l_result := l_result s;
      l_counter := u32 (l_counter s + 1); l_sets := l_sets s; l_bad := l_bad s |}
| (* 322-324: SetValue moves the vector away; size is a uint32_t, 315 *)
  al_last i c s : nth_error (l_pcs s) i = Some (Added c) -> u32 (c + 1) = u32 (Z.of_nat (length inputs)) ->
    all_step inputs s {| l_pcs := lset (l_pcs s) i Done; l_result := []; l_counter := l_counter s;
      l_sets := l_sets s ++ [l_result s]; l_bad := l_bad s |}
| al_not_last i c s : nth_error (l_pcs s) i = Some (Added c) -> u32 (c + 1) <> u32 (Z.of_nat (length inputs)) ->
    all_step inputs s {| l_pcs := lset (l_pcs s) i Done; l_result := l_result s; l_counter := l_counter s;
      l_sets := l_sets s; l_bad := l_bad s |}.
Inductive all_reach (inputs : list (res V E)) : all -> Prop :=
| al_init : all_reach inputs (all_init (length inputs))
| al_next s s' : all_reach inputs s -> all_step inputs s s' -> all_reach inputs s'.

(** *** WhenAny(first, last), 341-370 *)
Record any := { y_pcs : list pc; y_done : bool; y_counter : Z;
  y_sets : list (res (Z * V) E);             (* what the promise was set to *)
  y_first : option nat;                      (* bookkeeping: the input that came first *)
  y_fails : list nat }.                      (* bookkeeping: the failed inputs, as they were counted *)
Definition any_init (n : nat) : any :=
  {| y_pcs := repeat Wait n; y_done := false; y_counter := 0;
     y_sets := if (n =? 0)%nat then [Val (0, default)] else []; y_first := None; y_fails := [] |}.
(** 358-362 *)
Definition any_result (i : nat) (x : res V E) : res (Z * V) E :=
  match x with Val v => Val (u32 (Z.of_nat i), v) | Exc e => Exc e end.
Inductive any_step (inputs : list (res V E)) : any -> any -> Prop :=
| (* 356: exchange *)
  an_first i x s : nth_error (y_pcs s) i = Some Wait -> nth_error inputs i = Some x -> y_done s = false ->
    any_step inputs s {| y_pcs := lset (y_pcs s) i First; y_done := true; y_counter := y_counter s; y_sets := y_sets s;
      y_first := Some i; y_fails := y_fails s |}
| an_late i x s : nth_error (y_pcs s) i = Some Wait -> nth_error inputs i = Some x -> y_done s = true ->
    any_step inputs s {| y_pcs := lset (y_pcs s) i Done; y_done := true; y_counter := y_counter s; y_sets := y_sets s;
      y_first := y_first s; y_fails := y_fails s |}
| (* 357-363 *)
  an_set i x s : nth_error (y_pcs s) i = Some First -> nth_error inputs i = Some x ->
    any_step inputs s {| y_pcs := lset (y_pcs s) i Done; y_done := y_done s; y_counter := y_counter s;
      y_sets := y_sets s ++ [any_result i x]; y_first := y_first s; y_fails := y_fails s |}.
Inductive any_reach (inputs : list (res V E)) : any -> Prop :=
| an_init : any_reach inputs (any_init (length inputs))
| an_next s s' : any_reach inputs s -> any_step inputs s s' -> any_reach inputs s'.

(** *** WhenAnyWithoutException(first, last), 379-415 *)
Inductive awe_step (inputs : list (res V E)) : any -> any -> Prop :=
| (* 399: exchange *)
  aw_first i v s : nth_error (y_pcs s) i = Some Wait -> nth_error inputs i = Some (Val v) -> y_done s = false ->
    awe_step inputs s {| y_pcs := lset (y_pcs s) i First; y_done := true; y_counter := y_counter s; y_sets := y_sets s;
      y_first := Some i; y_fails := y_fails s |}
| aw_late i v s : nth_error (y_pcs s) i = Some Wait -> nth_error inputs i = Some (Val v) -> y_done s = true ->
    awe_step inputs s {| y_pcs := lset (y_pcs s) i Done; y_done := true; y_counter := y_counter s; y_sets := y_sets s;
      y_first := y_first s; y_fails := y_fails s |}
| (* 400-402 *)
  aw_set i v s : nth_error (y_pcs s) i = Some First -> nth_error inputs i = Some (Val v) ->
    awe_step inputs s {| y_pcs := lset (y_pcs s) i Done; y_done := y_done s; y_counter := y_counter s;
      y_sets := y_sets s ++ [any_result i (Val v)]; y_first := y_first s; y_fails := y_fails s |}
| (* 404: fetch_add *)
  aw_fail i e s : nth_error (y_pcs s) i = Some Wait -> nth_error inputs i = Some (Exc e) ->
    awe_step inputs s {| y_pcs := lset (y_pcs s) i (Added (y_counter s)); y_done := y_done s;
      y_counter := u32 (y_counter s + 1); y_sets := y_sets s; y_first := y_first s; y_fails := y_fails s ++ [i] |}
| (* 405-407; total is a size_t *)
  aw_all_failed i e c s : nth_error (y_pcs s) i = Some (Added c) -> nth_error inputs i = Some (Exc e) ->
    u32 (c + 1) = Z.of_nat (length inputs) ->
    awe_step inputs s {| y_pcs := lset (y_pcs s) i Done; y_done := y_done s; y_counter := y_counter s;
      y_sets := y_sets s ++ [Exc e]; y_first := y_first s; y_fails := y_fails s |}
| aw_one_failed i e c s : nth_error (y_pcs s) i = Some (Added c) -> nth_error inputs i = Some (Exc e) ->
    u32 (c + 1) <> Z.of_nat (length inputs) ->
    awe_step inputs s {| y_pcs := lset (y_pcs s) i Done; y_done := y_done s; y_counter := y_counter s;
      y_sets := y_sets s; y_first := y_first s; y_fails := y_fails s |}.
Inductive awe_reach (inputs : list (res V E)) : any -> Prop :=
| aw_init : awe_reach inputs (any_init (length inputs))
| aw_next s s' : awe_reach inputs s -> awe_step inputs s s' -> awe_reach inputs s'.
End When.
Arguments all : clear implicits.
Arguments any : clear implicits.
