(** Specification of fair and consistent selection, without reference to the models' helpers. *)
From Verif.Lib Require Import Base Bytes Decimal.
From Verif.LoadBalance Require Import Model.
Local Open Scope Z_scope.

Definition opt_nat_dec (a b : option nat) : {a = b} + {a <> b}.
Proof. decide equality; apply Nat.eq_dec. Defined.

(** How often index [i] was selected. *)
Definition picked (i : nat) (sels : list (option nat)) : Z :=
  Z.of_nat (count_occ opt_nat_dec sels (Some i)).

Definition sum (l : list Z) : Z := fold_right Z.add 0 l.

(** The address of an endpoint. *)
Definition addr (e : endpoint) : list byte * Z := (host e, port e).

(** Clockwise distance on a ring of 2^64 positions. *)
Definition clockwise (from to : Z) : Z := (to - from) mod 2 ^ 64.

(** Address [a] owns request position [h] when the addresses of [eps] have [n] points each on
    the ring, at [pos]: no point is reached before one of its points. *)
Definition owns (pos : list byte * Z -> nat -> Z) (n : nat) (eps : list endpoint) (h : Z)
  (a : list byte * Z) : Prop :=
  In a (map addr eps) /\
  exists i, (i < n)%nat /\
    forall a' i', In a' (map addr eps) -> (i' < n)%nat ->
      clockwise h (pos a i) <= clockwise h (pos a' i').

(** Where an endpoint's i-th virtual node lies. *)
Definition point (hash : list byte -> Z) (a : list byte * Z) (i : nat) : Z :=
  hash ((fst a ++ dec_int (snd a)) ++ dec_int (Z.of_nat i)).

(** The hash function maps virtual nodes of different addresses to different positions. *)
Definition collision_free (hash : list byte -> Z) (nodes : nat) (eps : list endpoint) : Prop :=
  forall a a' i i', In a (map addr eps) -> In a' (map addr eps) -> (i < nodes)%nat -> (i' < nodes)%nat ->
    point hash a i = point hash a' i' -> a = a'.

(** Histories of updates of the consistent-hash table: each update comes with enumerations of
    the old and the new key sets. *)
Inductive ch_reach (hash : list byte -> Z) (nodes : nat) : list endpoint -> list (list endpoint) -> chash -> Prop :=
| ch_first eps os ns :
    (forall k, In k ns <-> In k (map ep_key eps)) -> os = [] ->
    ch_reach hash nodes eps [eps] (ch_update hash nodes None eps os ns)
| ch_more old hist st eps os ns :
    ch_reach hash nodes old hist st ->
    (forall k, In k os <-> In k (map ep_key old)) -> (forall k, In k ns <-> In k (map ep_key eps)) ->
    ch_reach hash nodes eps (eps :: hist) (ch_update hash nodes st eps os ns).
