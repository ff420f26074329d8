(** Shared conventions: execution outcomes and arithmetic set-up.

    This file models no code of /repo; it fixes how outcomes of C++ code are
    represented in all the models. *)
From Coq Require Export List ZArith Lia Bool Arith.
From Coq Require Export ZifyBool ZifyNat ZifyN.
From Coq Require Import Strings.Byte.
Export ListNotations.

(** Outcome of running a piece of C++.
    - [Ok a]   : normal completion;
    - [UB]     : undefined behaviour was reached (out-of-range access, front() of an
                 empty list, null dereference, signed overflow ...);
    - [Abort]  : a TRPC_CHECK / TRPC_ASSERT that is active in release builds failed, the
                 process terminates;
    - [NoFuel] : artefact of bounding a C++ loop by fuel; never a behaviour of the code
                 (theorems exclude it). *)
Inductive out (A : Type) : Type :=
| Ok (a : A)
| UB
| Abort
| NoFuel.
Arguments Ok {A} a.
Arguments UB {A}.
Arguments Abort {A}.
Arguments NoFuel {A}.

Definition bind {A B : Type} (x : out A) (f : A -> out B) : out B :=
  match x with
  | Ok a => f a
  | UB => UB
  | Abort => Abort
  | NoFuel => NoFuel
  end.

Declare Scope out_scope.
Delimit Scope out_scope with out.
Notation "'let!' x ':=' e 'in' k" := (bind e (fun x => k))
  (at level 200, x pattern, e at level 100, k at level 200, right associativity) : out_scope.

Definition is_ok {A} (x : out A) : bool := match x with Ok _ => true | _ => false end.
