(** Model of the queue of bytes to be written of a fiber connection: WritingBufferList,
    trpc/runtime/iomodel/reactor/fiber/writing_buffer_list.cc, with its two users in fiber_tcp_connection.cc: Send (101-159) appends and, if it was
    the first, writes; FlushWritingBuffer (306-351) writes until the queue is empty.

    Any number of threads append.  One step is one atomic access, with what the thread does on its own before or after it.  Memory is sequentially
    consistent.  A freed node may be handed out again at once.  The socket is the nondeterminism of Writev.
    Left out: PreSendMessage, the contents of the messages other than their bytes, the handshake (a thread that may not write yet is one that rests),
    the empty node that Stop appends, and the destructor. *)
From Verif.Lib Require Import Base.

(** A buffer is a list of blocks of bytes. *)
Notation msg := (list (list nat)).
Definition bytes (m : msg) : nat := length (concat m).
(** NoncontiguousBuffer::Skip (C08) *)
Fixpoint skip (n : nat) (m : msg) : msg :=
  match m with
  | [] => []
  | b :: m => if length b <=? n then skip (n - length b) m else skipn n b :: m
  end.

(** writing_buffer_list.h:63-68; [n_msg]: the message it was made of *)
Record node := { n_next : option nat; n_buf : msg; n_msg : msg }.

(** A thread in Append, writing_buffer_list.cc:181-226 *)
Inductive pst :=
| PCheck (m : msg) (last : bool)   (* 183-190: about to test; [last]: the time is over *)
| PSleepy (m : msg)                (* has tested, is about to wait *)
| PAsleep (m : msg)
| PSize (m : msg)                  (* 193 *)
| PNew (m : msg)                   (* 195-198 *)
| PXchg (id : nat)                 (* 202 *)
| PLink (id : nat) (prev : option nat)  (* 203-225 *)
| PDone (ok : bool).

(** A thread that writes: FlushTo, 76-179, in the loop of FlushWritingBuffer *)
Inductive fst_ :=
| FLoad                                                    (* 86-90 *)
| FGather (h : nat) (cur : option nat) (iov : msg) (max : nat)  (* 91-101 *)
| FWrite (h : nat) (iov : msg) (max : nat)                 (* 105-115 *)
| FSub (h : nat) (rc total : nat)                          (* 118-122 *)
| FRewind (cur : nat) (flushed rc total : nat)             (* 127-173 *)
| FCas (cur : nat) (rc total : nat)                        (* 144-148 *)
| FSpin (cur : nat) (rc total : nat)                       (* 150-160 *)
| FNext (rc total : nat)                                   (* fiber_tcp_connection.cc:316-350 *)
| FRest.                                                   (* waits for the socket, or for the handshake *)

(** [live]: the nodes in the order of the exchange of tail_; [sent]: all messages, in that order; [written]: what the socket has taken; [finished]: the
    messages for which MessageWriteDone was called; [dead]: the connection was killed by a thread that wrote; [crash]: an assertion failed or freed
    memory was touched. *)
Record st := {
  head : option nat;
  tail : option nat;
  mem : nat -> option node;
  size : nat;
  stopped : bool;
  prods : list pst;
  flushers : list fst_;
  live : list nat;
  sent : list msg;
  written : list nat;
  finished : list msg;
  dead : bool;
  crash : bool }.

Definition upd (m : nat -> option node) (i : nat) (x : option node) : nat -> option node := fun j => if Nat.eqb j i then x else m j.

Definition set_head (x : option nat) (s : st) : st :=
  {| head := x; tail := tail s; mem := mem s; size := size s; stopped := stopped s; prods := prods s; flushers := flushers s; live := live s;
     sent := sent s; written := written s; finished := finished s; dead := dead s; crash := crash s |}.
Definition set_tail (x : option nat) (s : st) : st :=
  {| head := head s; tail := x; mem := mem s; size := size s; stopped := stopped s; prods := prods s; flushers := flushers s; live := live s;
     sent := sent s; written := written s; finished := finished s; dead := dead s; crash := crash s |}.
Definition set_mem (x : nat -> option node) (s : st) : st :=
  {| head := head s; tail := tail s; mem := x; size := size s; stopped := stopped s; prods := prods s; flushers := flushers s; live := live s;
     sent := sent s; written := written s; finished := finished s; dead := dead s; crash := crash s |}.
Definition set_size (x : nat) (s : st) : st :=
  {| head := head s; tail := tail s; mem := mem s; size := x; stopped := stopped s; prods := prods s; flushers := flushers s; live := live s;
     sent := sent s; written := written s; finished := finished s; dead := dead s; crash := crash s |}.
Definition set_stopped (x : bool) (s : st) : st :=
  {| head := head s; tail := tail s; mem := mem s; size := size s; stopped := x; prods := prods s; flushers := flushers s; live := live s;
     sent := sent s; written := written s; finished := finished s; dead := dead s; crash := crash s |}.
Definition set_prods (x : list pst) (s : st) : st :=
  {| head := head s; tail := tail s; mem := mem s; size := size s; stopped := stopped s; prods := x; flushers := flushers s; live := live s;
     sent := sent s; written := written s; finished := finished s; dead := dead s; crash := crash s |}.
Definition set_flushers (x : list fst_) (s : st) : st :=
  {| head := head s; tail := tail s; mem := mem s; size := size s; stopped := stopped s; prods := prods s; flushers := x; live := live s;
     sent := sent s; written := written s; finished := finished s; dead := dead s; crash := crash s |}.
Definition set_live (x : list nat) (s : st) : st :=
  {| head := head s; tail := tail s; mem := mem s; size := size s; stopped := stopped s; prods := prods s; flushers := flushers s; live := x;
     sent := sent s; written := written s; finished := finished s; dead := dead s; crash := crash s |}.
Definition set_sent (x : list msg) (s : st) : st :=
  {| head := head s; tail := tail s; mem := mem s; size := size s; stopped := stopped s; prods := prods s; flushers := flushers s; live := live s;
     sent := x; written := written s; finished := finished s; dead := dead s; crash := crash s |}.
Definition set_written (x : list nat) (s : st) : st :=
  {| head := head s; tail := tail s; mem := mem s; size := size s; stopped := stopped s; prods := prods s; flushers := flushers s; live := live s;
     sent := sent s; written := x; finished := finished s; dead := dead s; crash := crash s |}.
Definition set_finished (x : list msg) (s : st) : st :=
  {| head := head s; tail := tail s; mem := mem s; size := size s; stopped := stopped s; prods := prods s; flushers := flushers s; live := live s;
     sent := sent s; written := written s; finished := x; dead := dead s; crash := crash s |}.
Definition set_dead (x : bool) (s : st) : st :=
  {| head := head s; tail := tail s; mem := mem s; size := size s; stopped := stopped s; prods := prods s; flushers := flushers s; live := live s;
     sent := sent s; written := written s; finished := finished s; dead := x; crash := crash s |}.
Definition set_crash (x : bool) (s : st) : st :=
  {| head := head s; tail := tail s; mem := mem s; size := size s; stopped := stopped s; prods := prods s; flushers := flushers s; live := live s;
     sent := sent s; written := written s; finished := finished s; dead := dead s; crash := x |}.

Definition nat_is (a : option nat) (b : nat) : bool := match a with Some x => Nat.eqb x b | None => false end.

(** 186: the predicate *)
Definition may_append (cap : nat) (s : st) : bool := (size s <? cap) || stopped s.

(** The step of a thread in Append.  None: it waits.  [fresh]: the node the pool hands out. *)
Definition prod_step (cap fresh : nat) (p : pst) (s : st) : option (pst * st) :=
  match p with
  | PCheck m last =>
    if Nat.eqb cap 0 || may_append cap s then Some (PSize m, s)
    else if last then Some (PDone false, s)
    else Some (PSleepy m, s)
  | PSleepy m => Some (PAsleep m, s)
  | PAsleep m => None
  | PSize m => Some (PNew m, set_size (size s + bytes m) s)
  | PNew m =>
    match mem s fresh with
    | Some _ => None
    | None => Some (PXchg fresh, set_mem (upd (mem s) fresh (Some {| n_next := None; n_buf := m; n_msg := m |})) s)
    end
  | PXchg id =>
    match mem s id with
    | None => Some (p, set_crash true s)
    | Some n => Some (PLink id (tail s), set_tail (Some id) (set_live (live s ++ [id]) (set_sent (sent s ++ [n_msg n]) s)))
    end
  | PLink id None => Some (PDone true, set_head (Some id) (set_flushers (flushers s ++ [FLoad]) s))
  | PLink id (Some q) =>
    match mem s q with
    | None => Some (p, set_crash true s)
    | Some n =>
      match n_next n with
      | Some _ => Some (p, set_crash true s)
      | None => Some (PDone true, set_mem (upd (mem s) q (Some {| n_next := Some id; n_buf := n_buf n; n_msg := n_msg n |})) s)
      end
    end
  | PDone _ => None
  end.

(** 92-98: the blocks of one node; IOV_MAX is a parameter *)
Fixpoint fill (iovmax max : nat) (m : msg) (iov : msg) : msg :=
  match m with
  | [] => iov
  | b :: m => if negb (Nat.eqb (length iov) iovmax) && (bytes iov <? max) then fill iovmax max m (iov ++ [b]) else iov
  end.
(** 105-109: the last block was too long *)
Definition revise (max : nat) (iov : msg) : msg :=
  if max <? bytes iov then
    match rev iov with
    | [] => iov
    | b :: r => rev r ++ [firstn (length b - (bytes iov - max)) b]
    end
  else iov.

(** The step of a thread that writes.  [max]: how much FlushWritingBuffer asks for; [res]: what Writev says, or nothing for EAGAIN; [again]: whether the
    loop goes on when all that was asked for was written (otherwise its quota is used up). *)
Inductive result := RAgain | RError | RWrote (n : nat).
Inductive after := AGo (f : fst_) (s : st) | AEnd (s : st) | AWait.

Definition flush_step (iovmax max : nat) (res : result) (again : bool) (f : fst_) (s : st) : after :=
  match f with
  | FRest => AGo FLoad s
  | FLoad =>
    match head s, tail s with
    | Some h, Some _ => AGo (FGather h (Some h) [] max) s
    | _, _ => AGo f (set_crash true s)
    end
  | FGather h None iov max => AGo (FWrite h iov max) s
  | FGather h (Some c) iov max =>
    if Nat.eqb (length iov) iovmax || negb (bytes iov <? max) then AGo (FWrite h iov max) s
    else
      match mem s c with
      | None => AGo f (set_crash true s)
      | Some n => AGo (FGather h (n_next n) (fill iovmax max (n_buf n) iov) max) s
      end
  | FWrite h iov max =>
    let iov := revise max iov in
    if max <? bytes iov then AGo f (set_crash true s)   (* fiber_tcp_connection.cc:332 *)
    else
      match res with
      | RAgain => AGo FRest s
      | RError => AEnd (set_dead true s)
      | RWrote n =>
        if bytes iov <? n then AWait   (* not a result of Writev *)
        else if Nat.eqb n 0 && negb (Nat.eqb (bytes iov) 0) then AEnd (set_dead true s)
        else AGo (FSub h n (bytes iov)) (set_written (written s ++ firstn n (concat iov)) s)
      end
  | FSub h rc total =>
    if size s <? rc then AGo f (set_crash true s)
    else AGo (FRewind h rc rc total) (set_size (size s - rc) s)
  | FRewind c fl rc total =>
    match mem s c with
    | None => AGo f (set_crash true s)
    | Some n =>
      if bytes (n_buf n) <=? fl then
        let s1 := set_finished (finished s ++ [n_msg n]) s in
        match n_next n with
        | None => if Nat.eqb (fl - bytes (n_buf n)) 0 then AGo (FCas c rc total) s1 else AGo f (set_crash true s)
        | Some d => AGo (FRewind d (fl - bytes (n_buf n)) rc total) (set_live (tl (live s)) (set_mem (upd (mem s) c None) s1))
        end
      else
        AGo (FNext rc total)
          (set_head (Some c) (set_mem (upd (mem s) c (Some {| n_next := n_next n; n_buf := skip fl (n_buf n); n_msg := n_msg n |})) s))
    end
  | FCas c rc total =>
    if nat_is (tail s) c then
      if Nat.eqb rc total then AEnd (set_tail None (set_live (tl (live s)) (set_mem (upd (mem s) c None) s)))
      else AGo f (set_crash true s)   (* fiber_tcp_connection.cc:341 *)
    else AGo (FSpin c rc total) s
  | FSpin c rc total =>
    match mem s c with
    | None => AGo f (set_crash true s)
    | Some n =>
      match n_next n with
      | None => AWait
      | Some d => AGo (FNext rc total) (set_head (Some d) (set_live (tl (live s)) (set_mem (upd (mem s) c None) s)))
      end
    end
  | FNext rc total =>
    if Nat.eqb rc 0 then AEnd (set_dead true s)
    else if Nat.eqb rc total && again then AGo FLoad s
    else AGo FRest s
  end.

(** notify_one, 120-122: one of those asleep, if there is one *)
Definition sleeps (p : pst) : bool := match p with PAsleep _ => true | _ => false end.
Definition waked (p : pst) : pst := match p with PAsleep m => PCheck m false | _ => p end.
Inductive notify : list pst -> list pst -> Prop :=
| notify_none l : forallb (fun p => negb (sleeps p)) l = true -> notify l l
| notify_some l1 m l2 : notify (l1 ++ PAsleep m :: l2) (l1 ++ PCheck m false :: l2).

Definition is_sub (f : fst_) : bool := match f with FSub _ _ _ => true | _ => false end.

(** What the threads do on their own; the end of a time-out is not among it. *)
Inductive own_step (cap iovmax : nat) (s : st) : st -> Prop :=
| T_prod l1 p l2 fresh p' s' : prods s = l1 ++ p :: l2 -> prod_step cap fresh p s = Some (p', s') ->
    own_step cap iovmax s (set_prods (l1 ++ p' :: l2) s')
| T_flush l1 f l2 max res again f' s' : flushers s = l1 ++ f :: l2 -> is_sub f = false -> 0 < max ->
    flush_step iovmax max res again f s = AGo f' s' -> own_step cap iovmax s (set_flushers (l1 ++ f' :: l2) s')
| T_end l1 f l2 max res again s' : flushers s = l1 ++ f :: l2 -> 0 < max ->
    flush_step iovmax max res again f s = AEnd s' -> own_step cap iovmax s (set_flushers (l1 ++ l2) s')
| T_sub l1 f l2 f' s' ps : flushers s = l1 ++ f :: l2 -> is_sub f = true -> flush_step iovmax 1 RAgain false f s = AGo f' s' ->
    (if size s' <? cap then notify (prods s) ps else ps = prods s) -> own_step cap iovmax s (set_prods ps (set_flushers (l1 ++ f' :: l2) s')).

(** A thread calls Append, a time-out ends (or the thread wakes for no reason), Stop is called (67-71). *)
Inductive step (cap iovmax : nat) (s : st) : st -> Prop :=
| T_own s' : own_step cap iovmax s s' -> step cap iovmax s s'
| T_call m : step cap iovmax s (set_prods (prods s ++ [PCheck m false]) s)
| T_time l1 m l2 : prods s = l1 ++ PAsleep m :: l2 -> step cap iovmax s (set_prods (l1 ++ PCheck m true :: l2) s)
| T_stop : step cap iovmax s (set_prods (map waked (prods s)) (set_stopped true s)).

Definition st_new : st :=
  {| head := None; tail := None; mem := fun _ => None; size := 0; stopped := false; prods := []; flushers := []; live := []; sent := [];
     written := []; finished := []; dead := false; crash := false |}.

Inductive reach (cap iovmax : nat) : st -> Prop :=
| reach_new : reach cap iovmax st_new
| reach_step s s' : reach cap iovmax s -> step cap iovmax s s' -> reach cap iovmax s'.
