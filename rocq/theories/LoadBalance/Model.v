(** Model of trpc/naming/common/util/loadbalance: polling, smooth weighted round robin,
    consistent hash and modulo hash load balancers (paths below are relative to that directory).

    Simplifications:
    - callee_router_infos_ is one entry per service name; the model is the entry of one name
      (operator[] and find touch no other entry); [None] = no entry;
    - null arguments, logging and Init/config checks are left out;
    - [ep_rest] stands for the fields of TrpcEndpointInfo that are carried along but never
      inspected (is_ipv6, id, meta). *)
From Verif.Lib Require Import Base Bytes Decimal.
Local Open Scope Z_scope.
Local Open Scope out_scope.

(** TrpcEndpointInfo, trpc/naming/common/common_defs.h:98-114. *)
Record endpoint := mk_ep { host : list byte; port : Z; status : Z; weight : Z; ep_rest : Z }.

Definition bytes_eqb (a b : list byte) : bool := if list_eq_dec Byte.byte_eq_dec a b then true else false.

(** The comparison loops of PollingLoadBalance::IsLoadBalanceInfoDiff,
    polling/polling_load_balance.cc:37-60, and CheckLoadbalanceInfoDiff, hash/common.cc:88-108. *)
Fixpoint info_diff (old new : list endpoint) : bool :=
  match old, new with
  | [], [] => false
  | o :: old', n :: new' =>
      negb (bytes_eqb (host o) (host n)) || negb (port o =? port n) || negb (status o =? status n)
      || info_diff old' new'
  | _, _ => true                                        (* sizes differ *)
  end.

(* ------------------------------------------------------------------------- *)
(** * Polling, polling/polling_load_balance.cc *)

(** InnerEndpointInfos, polling_load_balance.h:50-53: endpoints and a uint32_t index. *)
Definition polling := option (list endpoint * Z).

(** Update, polling_load_balance.cc:65-83. *)
Definition pl_update (st : polling) (eps : list endpoint) : polling :=
  match st with
  | Some (old, _) => if info_diff old eps then Some (eps, 0) else st
  | None => Some (eps, 0)
  end.

(** Next, polling_load_balance.cc:86-111; the fetch_and_add is the only access to shared
    mutable state (the lock is shared).  [None] = -1. *)
Definition pl_next (st : polling) : polling * option endpoint :=
  match st with
  | None => (st, None)
  | Some (eps, idx) =>
      match eps with
      | [] => (st, None)
      | d :: _ =>
          (Some (eps, (idx + 1) mod 2 ^ 32),
           Some (nth (Z.to_nat (idx mod Z.of_nat (length eps))) eps d))
      end
  end.

(** Consecutive calls of Next, by whichever threads, in the order of their fetch_and_adds. *)
Fixpoint pl_nexts (st : polling) (k : nat) : polling * list (option endpoint) :=
  match k with
  | O => (st, [])
  | S k' => let '(st1, r) := pl_next st in
            let '(st2, rs) := pl_nexts st1 k' in (st2, r :: rs)
  end.

(* ------------------------------------------------------------------------- *)
(** * Smooth weighted round robin, weighted_round_robin/weighted_round_robin_load_balancer.cc *)

(** InnerEndpointInfos, weighted_round_robin_load_balancer.h:40-45. *)
Record swrr := mk_swrr { sw_eps : list endpoint; sw_weights : list Z; sw_cur : list Z; sw_total : Z }.

(** Conversion to int, and signed addition (overflow undefined). *)
Definition i32 (z : Z) : Z := (z + 2 ^ 31) mod 2 ^ 32 - 2 ^ 31.
Definition add_int (a b : Z) : out Z :=
  if (- 2 ^ 31 <=? a + b) && (a + b <? 2 ^ 31) then Ok (a + b) else UB.

(** IsLoadBalanceInfoDiff, lines 83-111: weight, host and port are compared. *)
Fixpoint sw_diff (old new : list endpoint) : bool :=
  match old, new with
  | [], [] => false
  | o :: old', n :: new' =>
      negb (weight o =? weight n) || negb (bytes_eqb (host o) (host n)) || negb (port o =? port n)
      || sw_diff old' new'
  | _, _ => true
  end.

(** Update, lines 19-46; weight is a uint32_t pushed into a vector<int>, total_weight a
    uint32_t. *)
Definition sw_fresh (eps : list endpoint) : swrr :=
  mk_swrr eps (map (fun e => i32 (weight e)) eps) (map (fun _ => 0) eps)
          (fold_left (fun t e => (t + weight e) mod 2 ^ 32) eps 0).
Definition sw_update (st : option swrr) (eps : list endpoint) : option swrr :=
  match st with
  | Some s => if sw_diff (sw_eps s) eps then Some (sw_fresh eps) else st
  | None => Some (sw_fresh eps)
  end.

(** The selection loop of Next, lines 69-75: (new current weights, selected index). *)
Fixpoint sw_loop (cur ws : list Z) (i : nat) (mx : Z) (sel : option nat)
  : out (list Z * option nat) :=
  match cur, ws with
  | c :: cur', w :: ws' =>
      let! c' := add_int c w in
      let! (r, s) := (if mx <? c' then sw_loop cur' ws' (S i) c' (Some i)
                      else sw_loop cur' ws' (S i) mx sel) in
      Ok (c' :: r, s)
  | _, _ => Ok ([], sel)
  end.

Fixpoint upd {A} (l : list A) (i : nat) (f : A -> A) : list A :=
  match l, i with
  | [], _ => []
  | x :: r, O => f x :: r
  | x :: r, S i' => x :: upd r i' f
  end.

(** Next, lines 48-81: int -= uint32_t is done modulo 2^32.  [None] = -1; the result is the
    selected index (result.result = endpoints[index]). *)
Definition sw_next (s : swrr) : out (swrr * option nat) :=
  match sw_eps s with
  | [] => Ok (s, None)
  | _ =>
      let! (cur, sel) := sw_loop (sw_cur s) (sw_weights s) 0 (-1) None in
      match sel with
      | None => Ok (mk_swrr (sw_eps s) (sw_weights s) cur (sw_total s), None)
      | Some i => Ok (mk_swrr (sw_eps s) (sw_weights s) (upd cur i (fun c => i32 (c - sw_total s)))
                              (sw_total s), Some i)
      end
  end.

Fixpoint sw_nexts (s : swrr) (k : nat) : out (swrr * list (option nat)) :=
  match k with
  | O => Ok (s, [])
  | S k' => let! (s1, r) := sw_next s in
            let! (s2, rs) := sw_nexts s1 k' in Ok (s2, r :: rs)
  end.

(** Two calls of Next running at the same time: both hold the lock in shared mode, so their
    accesses to current_weights interleave.  A thread is at "load current_weights[i]"
    or at "store" (with the value to store), first for every i in turn, then for the selected. *)
Inductive sw_pc := PLoad (i : nat) (mx : Z) (sel : option nat)
                 | PStore (i : nat) (v mx : Z) (sel : option nat)
                 | PSubLoad (i : nat) | PSubStore (i : nat) (v : Z)
                 | PDone (sel : option nat).

Definition sw_step (ws : list Z) (total : Z) (cur : list Z) (p : sw_pc) : list Z * sw_pc :=
  match p with
  | PLoad i mx sel =>
      if (i <? length ws)%nat then (cur, PStore i (nth i cur 0 + nth i ws 0) mx sel)
      else match sel with None => (cur, PDone None) | Some k => (cur, PSubLoad k) end
  | PStore i v mx sel =>
      (upd cur i (fun _ => v),
       if mx <? v then PLoad (S i) v (Some i) else PLoad (S i) mx sel)
  | PSubLoad k => (cur, PSubStore k (i32 (nth k cur 0 - total)))
  | PSubStore k v => (upd cur k (fun _ => v), PDone (Some k))
  | PDone s => (cur, PDone s)
  end.

(** [sched]: which of the two threads moves ([true] = first). *)
Fixpoint sw_run2 (ws : list Z) (total : Z) (cur : list Z) (a b : sw_pc) (sched : list bool)
  : list Z * sw_pc * sw_pc :=
  match sched with
  | [] => (cur, a, b)
  | true :: r => let '(cur', a') := sw_step ws total cur a in sw_run2 ws total cur' a' b r
  | false :: r => let '(cur', b') := sw_step ws total cur b in sw_run2 ws total cur' a b' r
  end.

(* ------------------------------------------------------------------------- *)
(** * Consistent hash, hash/consistenthash_load_balance.cc *)

(** std::map<uint64_t, TrpcEndpointInfo>: list sorted by key. *)
Definition ring := list (Z * endpoint).

(** hashring[key] = e. *)
Fixpoint ring_set (r : ring) (k : Z) (e : endpoint) : ring :=
  match r with
  | [] => [(k, e)]
  | (k', e') :: r' =>
      if k <? k' then (k, e) :: r
      else if k =? k' then (k, e) :: r'
      else (k', e') :: ring_set r' k e
  end.

(** hashring.erase(key). *)
Definition ring_erase (r : ring) (k : Z) : ring := filter (fun p => negb (fst p =? k)) r.

(** hashring.lower_bound(h). *)
Fixpoint ring_lower_bound (r : ring) (h : Z) : option (Z * endpoint) :=
  match r with
  | [] => None
  | (k, e) :: r' => if h <=? k then Some (k, e) else ring_lower_bound r' h
  end.

(** host + std::to_string(port), lines 79, 83. *)
Definition ep_key (e : endpoint) : list byte := host e ++ dec_int (port e).

Section Consistent.
  (** Hash(key, loadbalance_config_.hash_func) and loadbalance_config_.hash_nodes. *)
  Variable hash : list byte -> Z.
  Variable nodes : nat.

  (** Hash(elem + std::to_string(i), ...), lines 89, 98. *)
  Definition node_hash (key : list byte) (i : nat) : Z := hash (key ++ dec_int (Z.of_nat i)).

  Definition erase_nodes (r : ring) (key : list byte) : ring :=
    fold_left (fun r i => ring_erase r (node_hash key i)) (seq 0 nodes) r.
  Definition set_nodes (r : ring) (key : list byte) (e : endpoint) : ring :=
    fold_left (fun r i => ring_set r (node_hash key i) e) (seq 0 nodes) r.

  Definition ckey_in (k : list byte) (ks : list (list byte)) : bool := existsb (bytes_eqb k) ks.

  (** new_set[key] = i for i in order: the last endpoint with that key. *)
  Definition last_with (eps : list endpoint) (k : list byte) : option endpoint :=
    find (fun e => bytes_eqb k (ep_key e)) (rev eps).

  Definition chash := option (list endpoint * ring).

  (** Update, lines 56-110.  [os], [ns]: the orders in which the unordered old_set and new_set
      are iterated (any enumeration of the keys). *)
  Definition ch_update (st : chash) (eps : list endpoint) (os ns : list (list byte)) : chash :=
    let '(old, r) := match st with Some (o, r) => (o, r) | None => ([], []) end in
    if match st with Some (o, _) => info_diff o eps | None => true end then
      let r1 := fold_left (fun r k => if ckey_in k (map ep_key eps) then r else erase_nodes r k) os r in
      let r2 := fold_left (fun r k =>
                  if ckey_in k (map ep_key old) then r
                  else match last_with eps k with Some e => set_nodes r k e | None => r end) ns r1 in
      Some (eps, r2)
    else st.

  (** Next, lines 112-143, for the hash value [h] of the request. *)
  Definition ch_next (st : chash) (h : Z) : option endpoint :=
    match st with
    | None => None
    | Some (_, []) => None
    | Some (_, (k0, e0) :: r) =>
        match ring_lower_bound ((k0, e0) :: r) h with
        | Some (_, e) => Some e
        | None => Some e0                                   (* hashring.begin() *)
        end
    end.
End Consistent.

(** BkdrHash, trpc/naming/common/util/hash/hash_func.cc:30-37 (char is signed). *)
Definition bkdr (l : list byte) : Z :=
  fold_left (fun h b => (h * 131 + (if b2z b <? 128 then b2z b else b2z b - 256)) mod 2 ^ 64) l 0.

(* ------------------------------------------------------------------------- *)
(** * Modulo hash, hash/modulohash_load_balance.cc *)

Definition mhash := option (list endpoint).

(** Update, lines 54-72. *)
Definition mh_update (st : mhash) (eps : list endpoint) : mhash :=
  match st with
  | Some old => if info_diff old eps then Some eps else st
  | None => Some eps
  end.

(** Next, lines 74-104, for the hash value [h] of the request. *)
Definition mh_next (st : mhash) (h : Z) : option endpoint :=
  match st with
  | None => None
  | Some [] => None
  | Some (d :: r) => Some (nth (Z.to_nat (h mod Z.of_nat (length (d :: r)))) (d :: r) d)
  end.
