(** The event count on which the workers of a thread pool wait.
    Source: trpc/util/thread/predicate_notifier.h, class PredicateNotifier.

    Simplified:
    - memory is sequentially consistent; every access to the word [state_] and to
      a [next] pointer is one step;
    - the three fields of the word are kept apart and the epoch is a natural
      number that never wraps (in the code it has 32 bits; a thread would have
      to sleep between two of its own instructions while it advances by 2^31);
    - Park and the part of Unpark under the mutex of the waiter are: wait for
      the flag, set the flag.  The condition variable is not modelled;
    - a failed compare-and-swap loads the word again in a step of its own;
      failing without a reason is possible in the code and changes nothing;
    - one thread uses one Waiter; NotifyN is calls of Notify. *)
From Coq Require Import List Bool Arith.
Import ListNotations.

(** The word, lines 209-223: the epoch, the number of threads that prepared and
    have not decided, the top of the stack of those that committed. *)
Record word := { w_ep : nat; w_pre : nat; w_stk : option nat }.

Definition opt_eqb (a b : option nat) : bool :=
  match a, b with Some x, Some y => x =? y | None, None => true | _, _ => false end.
Definition word_eqb (a b : word) : bool :=
  (w_ep a =? w_ep b) && (w_pre a =? w_pre b) && opt_eqb (w_stk a) (w_stk b).

(** Where the thread of a waiter is.  [t] is the "modification epoch" of lines
    100 and 129: the epoch it read plus the number of those before it. *)
Inductive wpc :=
| WIdle
| WPrepared (t : nat)                  (* PrepareWait returned *)
| WCommitting (t : nat)                (* CommitWait, before the load *)
| WStored (t : nat) (snap : word)      (* next is stored, before the exchange *)
| WParked                              (* in Park *)
| WCancelling (t : nat)                (* CancelWait, before the load *)
| WCancel (t : nat) (snap : word).     (* CancelWait, before the exchange *)

(** Where a thread that notifies is. *)
Inductive npc :=
| NIdle
| NStart (all : bool)                            (* before the load *)
| NLoaded (all : bool) (snap : word)             (* before the exchange, or before it reads next *)
| NPop (snap : word) (w : nat) (wnext : option nat)  (* next is read, before the exchange *)
| NClear (w : nat)                               (* popped one, before next := nullptr *)
| NUnpark (o : option nat)                       (* head of the loop in Unpark *)
| NSignal (w : nat) (o : option nat).            (* next is read, before the flag is set *)

(** History, newest first. *)
Inductive event :=
| EPrepare (i : nat)          (* PrepareWait of waiter i *)
| EReturn (i : nat)           (* CommitWait or CancelWait of waiter i returned *)
| EDecide (j : nat) (all : bool).   (* Notify took effect: its exchange, or the load that saw nobody *)

Record st := {
  word_ : word;
  nxt : nat -> option nat;
  sig : nat -> bool;            (* state == kSignaled *)
  wp : nat -> wpc;
  np : nat -> npc;
  log : list event }.

Definition upd {A} (f : nat -> A) (i : nat) (v : A) : nat -> A := fun k => if k =? i then v else f k.

(** Lines 75-79. *)
Definition init (e : nat) : st :=
  {| word_ := {| w_ep := e; w_pre := 0; w_stk := None |}; nxt := fun _ => None; sig := fun _ => false;
     wp := fun _ => WIdle; np := fun _ => NIdle; log := [] |}.

Definition set_wp (s : st) (i : nat) (p : wpc) : st :=
  {| word_ := word_ s; nxt := nxt s; sig := sig s; wp := upd (wp s) i p; np := np s; log := log s |}.
Definition set_np (s : st) (j : nat) (p : npc) : st :=
  {| word_ := word_ s; nxt := nxt s; sig := sig s; wp := wp s; np := upd (np s) j p; log := log s |}.
Definition set_word (s : st) (w : word) : st :=
  {| word_ := w; nxt := nxt s; sig := sig s; wp := wp s; np := np s; log := log s |}.
Definition set_nxt (s : st) (i : nat) (o : option nat) : st :=
  {| word_ := word_ s; nxt := upd (nxt s) i o; sig := sig s; wp := wp s; np := np s; log := log s |}.
Definition set_sig (s : st) (i : nat) (b : bool) : st :=
  {| word_ := word_ s; nxt := nxt s; sig := upd (sig s) i b; wp := wp s; np := np s; log := log s |}.
Definition emit (s : st) (e : event) : st :=
  {| word_ := word_ s; nxt := nxt s; sig := sig s; wp := wp s; np := np s; log := e :: log s |}.

(** PrepareWait, lines 90-93. *)
Definition prepare (s : st) (i : nat) : option st :=
  match wp s i with
  | WIdle =>
      let w := word_ s in
      Some (emit (set_wp (set_word s {| w_ep := w_ep w; w_pre := S (w_pre w); w_stk := w_stk w |})
                         i (WPrepared (w_ep w + w_pre w))) (EPrepare i))
  | _ => None
  end.

(** The call of CommitWait, lines 97-98. *)
Definition commit (s : st) (i : nat) : option st :=
  match wp s i with
  | WPrepared t => Some (set_wp (set_sig s i false) i (WCommitting t))
  | _ => None
  end.

(** The call of CancelWait, line 128. *)
Definition cancel (s : st) (i : nat) : option st :=
  match wp s i with
  | WPrepared t => Some (set_wp s i (WCancelling t))
  | _ => None
  end.

(** The next step of a waiting thread: CommitWait lines 101-123, Park lines
    226-232, CancelWait lines 128-145. *)
Definition wstep (s : st) (i : nat) : option st :=
  let w := word_ s in
  match wp s i with
  | WCommitting t =>
      if w_ep w <? t then Some s                                         (* yield and load again *)
      else if t <? w_ep w then Some (emit (set_wp s i WIdle) (EReturn i))  (* already notified *)
      else Some (set_wp (set_nxt s i (w_stk w)) i (WStored t w))
  | WStored t snap =>
      if word_eqb w snap
      then Some (set_wp (set_word s {| w_ep := S (w_ep w); w_pre := w_pre w - 1; w_stk := Some i |}) i WParked)
      else Some (set_wp s i (WCommitting t))
  | WParked => if sig s i then Some (emit (set_wp s i WIdle) (EReturn i)) else None
  | WCancelling t =>
      if w_ep w <? t then Some s
      else if t <? w_ep w then Some (emit (set_wp s i WIdle) (EReturn i))
      else Some (set_wp s i (WCancel t w))
  | WCancel t snap =>
      if word_eqb w snap
      then Some (emit (set_wp (set_word s {| w_ep := S (w_ep w); w_pre := w_pre w - 1; w_stk := w_stk w |}) i WIdle)
                      (EReturn i))
      else Some (set_wp s i (WCancelling t))
  | _ => None
  end.

(** The call of Notify, line 150. *)
Definition notify (s : st) (j : nat) (all : bool) : option st :=
  match np s j with NIdle => Some (set_np s j (NStart all)) | _ => None end.

(** The next step of a notifying thread: Notify lines 151-186, Unpark lines
    234-247. *)
Definition nstep (s : st) (j : nat) : option st :=
  let w := word_ s in
  match np s j with
  | NIdle => None
  | NStart all =>
      match w_stk w, w_pre w with
      | None, 0 => Some (emit (set_np s j NIdle) (EDecide j all))        (* no waiters *)
      | _, _ => Some (set_np s j (NLoaded all w))
      end
  | NLoaded true snap =>
      if word_eqb w snap
      then Some (emit (set_np (set_word s {| w_ep := w_ep w + w_pre w; w_pre := 0; w_stk := None |}) j
                              (NUnpark (w_stk w))) (EDecide j true))
      else Some (set_np s j (NStart true))
  | NLoaded false snap =>
      match w_pre snap, w_stk snap with
      | S p, _ =>
          if word_eqb w snap
          then Some (emit (set_np (set_word s {| w_ep := S (w_ep w); w_pre := p; w_stk := w_stk w |}) j NIdle)
                          (EDecide j false))
          else Some (set_np s j (NStart false))
      | 0, Some x => Some (set_np s j (NPop snap x (nxt s x)))
      | 0, None => None
      end
  | NPop snap x xn =>
      if word_eqb w snap
      then Some (emit (set_np (set_word s {| w_ep := w_ep w; w_pre := 0; w_stk := xn |}) j (NClear x))
                      (EDecide j false))
      else Some (set_np s j (NStart false))
  | NClear x => Some (set_np (set_nxt s x None) j (NUnpark (Some x)))
  | NUnpark None => Some (set_np s j NIdle)
  | NUnpark (Some x) => Some (set_np s j (NSignal x (nxt s x)))
  | NSignal x o => Some (set_np (set_sig s x true) j (NUnpark o))
  end.

Inductive action := APrepare (i : nat) | ACommit (i : nat) | ACancel (i : nat) | AW (i : nat)
                  | ANotify (j : nat) (all : bool) | AN (j : nat).

Definition exec (s : st) (a : action) : option st :=
  match a with
  | APrepare i => prepare s i
  | ACommit i => commit s i
  | ACancel i => cancel s i
  | AW i => wstep s i
  | ANotify j all => notify s j all
  | AN j => nstep s j
  end.

Inductive reach (e : nat) : st -> Prop :=
| reach_init : reach e (init e)
| reach_step s a s' : reach e s -> exec s a = Some s' -> reach e s'.

Fixpoint run (s : st) (l : list action) : option st :=
  match l with [] => Some s | a :: r => match exec s a with Some s' => run s' r | None => None end end.
