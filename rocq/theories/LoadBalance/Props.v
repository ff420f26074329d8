(** Properties C22-C24, C48: load balancers. *)
From Verif.Lib Require Import Base Bytes Decimal.
From Verif.LoadBalance Require Import Model Spec Proofs ProofsHash ProofsExact.
From Coq Require Import Permutation String List.
Import ListNotations.
Local Open Scope Z_scope.

(* ------------------------------------------------------------------------- *)
(** * C22: smooth weighted round robin *)

(** At any time [t] after a fresh table, the next W selections give every endpoint exactly its
    weight, and lead back to the state at [t]. *)
Theorem C22_every_window_proportional :
  forall eps t,
  Forall (fun e => 0 <= weight e) eps -> 0 < sum (map weight eps) ->
  Z.of_nat (length eps) * sum (map weight eps) < 2 ^ 31 ->
  exists s pre sels, sw_nexts (sw_fresh eps) t = Ok (s, pre) /\
    sw_nexts s (Z.to_nat (sum (map weight eps))) = Ok (s, sels) /\
    forall i, (i < length eps)%nat -> picked i sels = nth i (map weight eps) 0.
Proof. exact (fun eps t Hw Hp Hb => swrr_window eps Hw Hp Hb t). Qed.
Print Assumptions C22_every_window_proportional.

(** At every moment an endpoint has been chosen less than its share t * w / W plus one, and every
    call selects an endpoint. *)
Theorem C22_never_ahead :
  forall eps t,
  Forall (fun e => 0 <= weight e) eps -> 0 < sum (map weight eps) ->
  Z.of_nat (length eps) * sum (map weight eps) < 2 ^ 31 ->
  exists s sels, sw_nexts (sw_fresh eps) t = Ok (s, sels) /\ length sels = t /\
    Forall (fun o => exists i, o = Some i /\ (i < length eps)%nat) sels /\
    forall i, (i < length eps)%nat ->
      picked i sels * sum (map weight eps) < Z.of_nat t * nth i (map weight eps) 0 + sum (map weight eps).
Proof. exact (fun eps t Hw Hp Hb => swrr_never_ahead eps Hw Hp Hb t). Qed.
Print Assumptions C22_never_ahead.

Theorem C22_zero_weight_never_chosen :
  forall eps t i s sels,
  Forall (fun e => 0 <= weight e) eps -> 0 < sum (map weight eps) ->
  Z.of_nat (length eps) * sum (map weight eps) < 2 ^ 31 ->
  (i < length eps)%nat -> nth i (map weight eps) 0 = 0 ->
  sw_nexts (sw_fresh eps) t = Ok (s, sels) -> ~ In (Some i) sels.
Proof. exact (fun eps t i s sels Hw Hp Hb => swrr_zero_weight eps Hw Hp Hb t i s sels). Qed.
Print Assumptions C22_zero_weight_never_chosen.

(** An update starts a fresh table exactly when a host, port or weight changed. *)
Theorem C22_update_takes_effect :
  forall st eps,
  (st = None -> sw_update st eps = Some (sw_fresh eps)) /\
  (forall s, st = Some s ->
     (map (fun e => (host e, port e, weight e)) (sw_eps s) <> map (fun e => (host e, port e, weight e)) eps ->
      sw_update st eps = Some (sw_fresh eps)) /\
     (map (fun e => (host e, port e, weight e)) (sw_eps s) = map (fun e => (host e, port e, weight e)) eps ->
      sw_update st eps = Some s)).
Proof. exact sw_update_spec. Qed.
Print Assumptions C22_update_takes_effect.

Example C22_case :
  let e n w := mk_ep [Byte.x61] n 0 w 0 in
  exists s, sw_nexts (sw_fresh [e 1 5; e 2 1; e 3 0; e 4 1]) 7 =
    Ok (s, [Some 0; Some 0; Some 1; Some 0; Some 3; Some 0; Some 0]%nat).
Proof. eexists. vm_compute. reflexivity. Qed.

(** Finding: Next updates the current weights holding the lock only in shared mode; two
    concurrent calls lose an update and the weights no longer sum to 0. *)
Theorem C22_concurrent_next_refuted :
  exists sched cur p q,
    sw_run2 [1; 1] 2 [0; 0] (PLoad 0 (-1) None) (PLoad 0 (-1) None) sched = (cur, PDone p, PDone q) /\
    p <> None /\ q <> None /\ sum cur <> 0.
Proof. exact swrr_race. Qed.
Print Assumptions C22_concurrent_next_refuted.

(** Finding: a uint32_t weight of 2^31 is stored as a negative int: the second selection is an
    overflow of a signed int. *)
Theorem C22_huge_weight_refuted :
  exists eps s, Forall (fun e => 0 < weight e < 2 ^ 32) eps /\ nth 0 (map weight eps) 0 = 2 ^ 31 /\
    sw_nexts (sw_fresh eps) 1 = Ok (s, [Some 1%nat]) /\ sw_nexts (sw_fresh eps) 2 = UB.
Proof. exact swrr_huge_weight. Qed.
Print Assumptions C22_huge_weight_refuted.

(* ------------------------------------------------------------------------- *)
(** * C23: polling *)

(** From any counter position that does not wrap within the round (or any at all if the number
    of endpoints divides 2^32), a round selects each endpoint once.  The full claim has no
    condition on [idx]; it is false at the wrap, see C23_counter_wrap_refuted. *)
Theorem C23_round_is_a_permutation_partial :
  forall eps idx,
  eps <> [] -> 0 <= idx < 2 ^ 32 ->
  idx + Z.of_nat (length eps) <= 2 ^ 32 \/ (Z.of_nat (length eps) | 2 ^ 32) ->
  Permutation (snd (pl_nexts (Some (eps, idx)) (length eps))) (map Some eps).
Proof. exact polling_round. Qed.
Print Assumptions C23_round_is_a_permutation_partial.

(** The condition is exact: with different endpoints every other round repeats one. *)
Theorem C23_exact :
  forall eps idx, eps <> [] -> NoDup eps -> 0 <= idx < 2 ^ 32 ->
  (Permutation (snd (pl_nexts (Some (eps, idx)) (length eps))) (map Some eps) <->
   idx + Z.of_nat (length eps) <= 2 ^ 32 \/ (Z.of_nat (length eps) | 2 ^ 32)).
Proof. exact polling_exact. Qed.
Print Assumptions C23_exact.

(** The k-th selection after a fresh table. *)
Theorem C23_kth_selection :
  forall eps d k, eps <> [] ->
  pl_nexts (Some (eps, 0)) k =
  (Some (eps, Z.of_nat k mod 2 ^ 32),
   map (fun j => Some (nth (Z.to_nat ((Z.of_nat j mod 2 ^ 32) mod Z.of_nat (length eps))) eps d)) (seq 0 k)).
Proof. exact (fun eps d k H => pl_nexts_spec eps d 0 k H ltac:(lia)). Qed.
Print Assumptions C23_kth_selection.

(** After any update every selection has host, port and status of an endpoint of the latest
    list. *)
Theorem C23_selection_from_latest :
  forall st eps k e,
  In (Some e) (snd (pl_nexts (pl_update st eps) k)) ->
  exists e', In e' eps /\ host e' = host e /\ port e' = port e /\ status e' = status e.
Proof. exact polling_latest. Qed.
Print Assumptions C23_selection_from_latest.

Example C23_case :
  let e n := mk_ep [Byte.x61] n 0 1 0 in
  snd (pl_nexts (pl_update None [e 1; e 2; e 3]) 4) = [Some (e 1); Some (e 2); Some (e 3); Some (e 1)].
Proof. reflexivity. Qed.

(** Finding: when the 32-bit counter wraps and 2^32 is no multiple of the number of endpoints, a
    round repeats an endpoint and misses another. *)
Theorem C23_counter_wrap_refuted :
  let e n := mk_ep [Byte.x61] n 0 1 0 in
  exists k, snd (pl_nexts (fst (pl_nexts (pl_update None [e 1; e 2; e 3]) k)) 3) =
    [Some (e 3); Some (e 1); Some (e 1)].
Proof. exact polling_wrap. Qed.
Print Assumptions C23_counter_wrap_refuted.

(** Finding: an update that changes only weights or metadata is ignored; the selected record is
    not in the latest list. *)
Theorem C23_stale_record_refuted :
  exists old new e, map addr old = map addr new /\ fst (pl_nexts (pl_update (pl_update None old) new) 1) <> None /\
    snd (pl_nexts (pl_update (pl_update None old) new) 1) = [Some e] /\ ~ In e new.
Proof. exact polling_stale_weight. Qed.
Print Assumptions C23_stale_record_refuted.

(* ------------------------------------------------------------------------- *)
(** * C24: consistent hashing *)

(** After every history of updates, for every hash function that separates the virtual nodes of
    the addresses in it, a request is answered by the address with the clockwise first point. *)
Theorem C24_selects_clockwise_first :
  forall hash nodes, (0 < nodes)%nat -> (forall l, 0 <= hash l < 2 ^ 64) ->
  forall eps hist st h,
  ch_reach hash nodes eps hist st -> collision_free hash nodes (concat hist) -> eps <> [] -> 0 <= h < 2 ^ 64 ->
  exists e, ch_next st h = Some e /\ owns (point hash) nodes eps h (addr e).
Proof. exact consistent_owner. Qed.
Print Assumptions C24_selects_clockwise_first.

Theorem C24_selection_from_latest :
  forall hash nodes, (0 < nodes)%nat -> (forall l, 0 <= hash l < 2 ^ 64) ->
  forall eps hist st h e,
  ch_reach hash nodes eps hist st -> collision_free hash nodes (concat hist) -> 0 <= h < 2 ^ 64 ->
  ch_next st h = Some e -> In (addr e) (map addr eps).
Proof. exact consistent_in. Qed.
Print Assumptions C24_selection_from_latest.

(** Two tables with any histories: the answers to a request differ only if one of them is not in
    the other's list.  So removing endpoints keeps every request whose endpoint survives, adding
    endpoints moves requests only to added ones, and equal lists answer alike (in particular an
    incrementally updated table and one built from scratch). *)
Theorem C24_answers_move_only_when_they_must :
  forall hash nodes, (0 < nodes)%nat -> (forall l, 0 <= hash l < 2 ^ 64) ->
  forall eps hist st eps' hist' st' h e e',
  ch_reach hash nodes eps hist st -> ch_reach hash nodes eps' hist' st' ->
  collision_free hash nodes (concat hist ++ concat hist') -> 0 <= h < 2 ^ 64 ->
  ch_next st h = Some e -> ch_next st' h = Some e' ->
  In (addr e) (map addr eps') -> In (addr e') (map addr eps) -> addr e = addr e'.
Proof. exact consistent_two. Qed.
Print Assumptions C24_answers_move_only_when_they_must.

(** A non-trivial history meets the hypotheses. *)
Example C24_case :
  let a := ip "10.0.0.1" 80 0 1 in let b := ip "10.0.0.2" 80 0 1 in let c := ip "10.0.0.3" 81 0 1 in
  exists st, ch_reach bkdr 3 [b; c] [[b; c]; [a; b]] st /\ ch_next st 12345 = Some b /\
    (forall x y, In x (list_prod (map addr [a; b; c]) (seq 0 3)) -> In y (list_prod (map addr [a; b; c]) (seq 0 3)) ->
       point bkdr (fst x) (snd x) = point bkdr (fst y) (snd y) -> fst x = fst y).
Proof.
  intros a b c.
  exists (ch_update bkdr 3 (ch_update bkdr 3 None [a; b] [] (map ep_key [a; b]))
            [b; c] (map ep_key [a; b]) (map ep_key [b; c])).
  split; [|split].
  - apply ch_more with (old := [a; b]); [apply ch_first|..]; auto; intros k; tauto.
  - vm_compute. reflexivity.
  - intros x y Hx Hy. cbn [list_prod map seq app In] in Hx, Hy.
    repeat destruct Hx as [<-|Hx]; try contradiction; repeat destruct Hy as [<-|Hy]; try contradiction;
      intros E; vm_compute in E; try discriminate E; reflexivity.
Qed.

(** Finding: host and port are concatenated without a separator, so 10.0.0.1:180 and 10.0.0.11:80
    are the same key: replacing one by the other leaves the old endpoint selected, whatever the
    hash function and the request. *)
Theorem C24_key_collision_refuted :
  exists old new e, map addr old <> map addr new /\
    forall hash nodes h, (0 < nodes)%nat ->
      exists st, ch_reach hash nodes new [new; old] st /\ ch_next st h = Some e /\ ~ In (addr e) (map addr new).
Proof. exact key_collision. Qed.
Print Assumptions C24_key_collision_refuted.

(** Finding: the node number is concatenated too: node 11 of port 80 is node 1 of port 801.
    After adding and removing port 801 a request is answered differently from a table built from
    scratch (here with the BKDR hash). *)
Theorem C24_node_collision_refuted :
  let a := ip "10.0.0.1" 80 0 1 in let b := ip "10.0.0.1" 801 0 1 in let c := ip "10.0.0.2" 10 0 1 in
  exists st h, ch_reach bkdr 12 [a; c] [[a; c]; [a; b; c]; [a; c]] st /\
    0 <= h < 2 ^ 64 /\
    ch_next (ch_update bkdr 12 None [a; c] [] (map ep_key [a; c])) h = Some a /\ ch_next st h = Some c.
Proof. exact node_collision. Qed.
Print Assumptions C24_node_collision_refuted.

(** Finding: a changed status does not reach the ring; the selected record is not in the latest
    list. *)
Theorem C24_stale_record_refuted :
  let a s := ip "10.0.0.1" 80 s 1 in
  forall hash nodes h, (0 < nodes)%nat ->
  exists st, ch_reach hash nodes [a 1] [[a 1]; [a 0]] st /\ ch_next st h = Some (a 0) /\ ~ In (a 0) [a 1].
Proof. exact stale_record. Qed.
Print Assumptions C24_stale_record_refuted.

(* ------------------------------------------------------------------------- *)
(** * C48: modulo hash *)

(** After any update, request [h] goes to position h mod n of the latest list (same host, port and
    status). *)
Theorem C48_modulo_position :
  forall st eps h, eps <> [] -> 0 <= h ->
  exists e e', mh_next (mh_update st eps) h = Some e /\
    nth_error eps (Z.to_nat (h mod Z.of_nat (length eps))) = Some e' /\
    host e = host e' /\ port e = port e' /\ status e = status e'.
Proof. exact mh_next_spec. Qed.
Print Assumptions C48_modulo_position.

Example C48_case :
  let e n := mk_ep [Byte.x61] n 0 1 0 in
  mh_next (mh_update (Some [e 9]) [e 1; e 2; e 3]) (2 ^ 64 - 1) = Some (e 1).
Proof. reflexivity. Qed.
