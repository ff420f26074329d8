(** Model of the asynchronous semaphore, trpc/future/async_lock/semaphore.h.

    The semaphore is used on one thread (103, 139), but promises are set inside of Signal and Broke and the
    callbacks attached to them run then and there, so calls nest.  A history is a list of calls; [CReturn] says
    that the callback that is running returns.  The stack holds the calls of Signal and Broke that are waiting
    for a callback to return.

    Simplified: doing_ (an int32_t) is a number without bound; the allocation of an entry (124-132) succeeds; the
    check of the thread succeeds; a waiter is the number of the Wait call it made. *)
From Verif.Lib Require Import Base.
Local Open Scope Z_scope.
Local Open Scope out_scope.

(** struct entry, 48-53. *)
Record entry := { e_id : nat; e_num : Z }.
(** What a call that is interrupted by a callback has yet to do: Signal has ready_list (155), Broke has
    wait_list_. *)
Inductive frame := FSignal (ready : list entry) | FBroke.
(** What happened. *)
Inductive event :=
| Took (id : nat) (num : Z)      (* units were withdrawn for this Wait or TryWait *)
| Queued (id : nat)              (* Wait returned a future that is not ready *)
| Notified (id : nat)            (* its promise was set *)
| Failed (id : nat)              (* its promise was failed *)
| Rejected (id : nat)            (* Wait returned a failed future *)
| Signalled (num : Z).
Record sem := { s_wait : list entry; s_count : Z; s_broken : bool; s_doing : Z;
  s_stack : list frame; s_next : nat; s_log : list event }.
(** 85: Semaphore(count). *)
Definition sem_init (count : Z) : sem :=
  {| s_wait := []; s_count := count; s_broken := false; s_doing := 0; s_stack := []; s_next := 0; s_log := [] |}.

(** HasAvailableUnits, 63-65; MayProceed, 67-69. *)
Definition has_units (count num : Z) : bool := num <=? count.
Definition may_proceed (num : Z) (s : sem) : bool :=
  has_units (s_count s) num && match s_wait s with [] => true | _ => false end.

(** The first loop of Signal, 158-162: the entries taken off, the count, the entries left. *)
Fixpoint grab (count : Z) (l : list entry) : list entry * Z * list entry :=
  match l with
  | [] => ([], count, [])
  | e :: r => if has_units count (e_num e) then
                let '(ready, c, rest) := grab (count - e_num e) r in (e :: ready, c, rest)
              else ([], count, e :: r)
  end.

Definition with_stack (k : list frame) (s : sem) : sem :=
  {| s_wait := s_wait s; s_count := s_count s; s_broken := s_broken s; s_doing := s_doing s; s_stack := k;
     s_next := s_next s; s_log := s_log s |}.

(** Go on with the call on top of the stack until it runs a callback or returns.  Signal, 164-170; Broke, 207-211. *)
Definition resume (s : sem) : out sem :=
  match s_stack s with
  | [] => Ok s
  | FSignal [] :: k => Ok (with_stack k s)
  | FSignal (e :: r) :: k =>
      Ok {| s_wait := s_wait s; s_count := s_count s; s_broken := s_broken s; s_doing := s_doing s - 1;
            s_stack := FSignal r :: k; s_next := s_next s; s_log := s_log s ++ [Notified (e_id e)] |}
  | FBroke :: k =>
      match s_wait s with
      | [] => UB                         (* pop_front of an empty list *)
      | _ :: [] => Ok {| s_wait := []; s_count := s_count s; s_broken := s_broken s; s_doing := s_doing s;
                         s_stack := k; s_next := s_next s; s_log := s_log s |}
      | _ :: e :: r => Ok {| s_wait := e :: r; s_count := s_count s; s_broken := s_broken s; s_doing := s_doing s;
                             s_stack := FBroke :: k; s_next := s_next s; s_log := s_log s ++ [Failed (e_id e)] |}
      end
  end.

(** 102-133 *)
Definition wait (num : Z) (s : sem) : sem :=
  if may_proceed num s then
    {| s_wait := s_wait s; s_count := s_count s - num; s_broken := s_broken s; s_doing := s_doing s; s_stack := s_stack s;
       s_next := S (s_next s); s_log := s_log s ++ [Took (s_next s) num] |}
  else if s_broken s then
    {| s_wait := s_wait s; s_count := s_count s; s_broken := s_broken s; s_doing := s_doing s; s_stack := s_stack s;
       s_next := S (s_next s); s_log := s_log s ++ [Rejected (s_next s)] |}
  else
    {| s_wait := s_wait s ++ [{| e_id := s_next s; e_num := num |}]; s_count := s_count s; s_broken := s_broken s;
       s_doing := s_doing s; s_stack := s_stack s; s_next := S (s_next s); s_log := s_log s ++ [Queued (s_next s)] |}.

(** 179-189 *)
Definition try_wait (num : Z) (s : sem) : sem :=
  if may_proceed num s then
    {| s_wait := s_wait s; s_count := s_count s - num; s_broken := s_broken s; s_doing := s_doing s; s_stack := s_stack s;
       s_next := S (s_next s); s_log := s_log s ++ [Took (s_next s) num] |}
  else s.

(** 141-173; count_ is a size_t *)
Definition signal (num : Z) (s : sem) : out sem :=
  if s_broken s then Ok s else
  let count := (s_count s + num) mod 2 ^ 64 in
  let log := s_log s ++ [Signalled num] in
  if 0 <? s_doing s then
    Ok {| s_wait := s_wait s; s_count := count; s_broken := s_broken s; s_doing := s_doing s; s_stack := s_stack s;
          s_next := s_next s; s_log := log |}
  else
    let '(ready, c, rest) := grab count (s_wait s) in
    resume {| s_wait := rest; s_count := c; s_broken := s_broken s; s_doing := Z.of_nat (length ready);
              s_stack := FSignal ready :: s_stack s; s_next := s_next s;
              s_log := log ++ map (fun e => Took (e_id e) (e_num e)) ready |}.

(** 194-213; ex_ is replaced if it was set before *)
Definition broke (s : sem) : sem :=
  match s_wait s with
  | [] => {| s_wait := []; s_count := 0; s_broken := true; s_doing := s_doing s; s_stack := s_stack s; s_next := s_next s;
             s_log := s_log s |}
  | e :: r => {| s_wait := e :: r; s_count := 0; s_broken := true; s_doing := s_doing s; s_stack := FBroke :: s_stack s;
                 s_next := s_next s; s_log := s_log s ++ [Failed (e_id e)] |}
  end.

Inductive call := CWait (num : Z) | CTryWait (num : Z) | CSignal (num : Z) | CBroke | CReturn.
Definition do_call (c : call) (s : sem) : out sem :=
  match c with
  | CWait n => Ok (wait n s)
  | CTryWait n => Ok (try_wait n s)
  | CSignal n => signal n s
  | CBroke => Ok (broke s)
  | CReturn => resume s
  end.
Fixpoint do_calls (l : list call) (s : sem) : out sem :=
  match l with [] => Ok s | c :: r => let! s1 := do_call c s in do_calls r s1 end.

(** RWLock, rwlock.h: max_ops_ is MaxCounter(). *)
Definition max_ops : Z := 2 ^ 64 - 1.
Inductive rw_call := RwRead | RwWrite | RwTryRead | RwTryWrite | RwReadUnlock | RwWriteUnlock | RwReturn.
(** rwlock.h:45-77 *)
Definition rw_to_sem (c : rw_call) : call :=
  match c with
  | RwRead => CWait 1 | RwWrite => CWait max_ops | RwTryRead => CTryWait 1 | RwTryWrite => CTryWait max_ops
  | RwReadUnlock => CSignal 1 | RwWriteUnlock => CSignal max_ops | RwReturn => CReturn
  end.
