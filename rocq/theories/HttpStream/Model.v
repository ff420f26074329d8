(** The body of an HTTP request on its way from the connection to its handler:
    one fiber parses the connection and writes pieces of the body into a bounded
    buffer, the handler's fiber reads from it.
    Source: trpc/coroutine/fiber_blocking_noncontiguous_buffer.h lines 27-167,
    trpc/stream/http/http_stream.h lines 33-150, http_stream.cc lines 41-91,
    trpc/codec/http/http_server_proto_checker_impl.cc lines 122-203 and
    trpc/server/http_service.cc lines 37-61, 147-160.

    Simplified:
    - a critical section of mutex_ is one step, a notification is one step, and
      so is every load and store of state_ (a plain integer that both fibers
      write); memory is sequentially consistent;
    - a byte is a number; the buffer is a list of bytes;
    - the capacity is fixed (SetCapacity() is left out), as is the mode: this
      is blocking_ = true (without it Write() appends to the request, and there
      is nothing to read);
    - a fiber sleeping on a condition variable is woken by a notification or by
      its timer, never otherwise;
    - the writing fiber stops at its first Write() that returns false (the
      parser then reports an error and the connection is closed). *)
From Coq Require Import List Bool Arith.
Import ListNotations.

(** state_: kWriteEndBit, kEofBit, kErrorBit (http_stream.h lines 35-40). *)
Record bits := { b_end : bool; b_eof : bool; b_err : bool }.
Definition good (b : bits) : bool := negb (b_end b) && negb (b_eof b) && negb (b_err b).

(** What Close() is called with. *)
Inductive close := CEnd | CEof | CErr.
Definition with_bit (c : close) (b : bits) : bits :=
  match c with
  | CEnd => {| b_end := true; b_eof := b_eof b; b_err := b_err b |}
  | CEof => {| b_end := b_end b; b_eof := true; b_err := b_err b |}
  | CErr => {| b_end := b_end b; b_eof := b_eof b; b_err := true |}
  end.

(** What Read() returns: data, kStreamStatusReadEof,
    kStreamStatusServerNetworkError, kStreamStatusServerReadTimeout. *)
Inductive res := Data (x : list nat) | Eof | Err | Late.

(** How far a call of Close() is (http_stream.cc lines 57-62,
    fiber_blocking_noncontiguous_buffer.h lines 145-152): before the load of
    state_, before its store, before the critical section of Stop(), before the
    notification of not_full_, before that of not_empty_. *)
Inductive cpc := CLoad | CStore (b : bits) | CStop | CFull | CEmpty.

(** Where the writing fiber is: before the next call; before the critical
    section of AppendAlways() with what is left of the piece; asleep on
    not_full_; before the notification of not_empty_; inside Close(); finished;
    finished because Write() returned false. *)
Inductive wpc := WNext | WApp (l : list nat) | WWait (l : list nat) | WTell (l : list nat) | WClose (c : cpc) | WDone | WRefused.

(** Why a reader tests the buffer: for the first time, woken by a notification,
    woken by its timer. *)
Inductive why := First | Told | Timer.

(** Where the reading fiber is: before the next call; before the critical
    section of Cut() for n bytes; asleep on not_empty_; before the notification
    of not_full_ with the bytes it cut; before the second test of kErrorBit;
    before the store that sets kEofBit; inside Close(); finished. *)
Inductive rpc := RNext | RCut (n : nat) (w : why) | RWait (n : nat) | RTell (n : nat) (x : list nat) | RTest (n : nat) (x : list nat)
  | ROr (b : bits) (x : list nat) | RClose (c : cpc) | RDone.

(** The buffer, its capacity, stop_token_, state_; what the writing fiber still
    has to write and how it closes; what the reading fiber still has to read,
    how it closes, and what its calls returned. *)
Record st := {
  content : list nat;
  cap : nat;
  stop : bool;
  state : bits;
  pieces : list (list nat);
  wend : option close;
  wp : wpc;
  sizes : list nat;
  rend : option close;
  rp : rpc;
  out : list res }.

Definition set_buf (x : list nat) (s : st) : st :=
  {| content := x; cap := cap s; stop := stop s; state := state s; pieces := pieces s; wend := wend s; wp := wp s;
     sizes := sizes s; rend := rend s; rp := rp s; out := out s |}.
Definition set_stop (s : st) : st :=
  {| content := content s; cap := cap s; stop := true; state := state s; pieces := pieces s; wend := wend s; wp := wp s;
     sizes := sizes s; rend := rend s; rp := rp s; out := out s |}.
Definition set_state (b : bits) (s : st) : st :=
  {| content := content s; cap := cap s; stop := stop s; state := b; pieces := pieces s; wend := wend s; wp := wp s;
     sizes := sizes s; rend := rend s; rp := rp s; out := out s |}.
Definition set_pieces (l : list (list nat)) (s : st) : st :=
  {| content := content s; cap := cap s; stop := stop s; state := state s; pieces := l; wend := wend s; wp := wp s;
     sizes := sizes s; rend := rend s; rp := rp s; out := out s |}.
Definition set_wp (p : wpc) (s : st) : st :=
  {| content := content s; cap := cap s; stop := stop s; state := state s; pieces := pieces s; wend := wend s; wp := p;
     sizes := sizes s; rend := rend s; rp := rp s; out := out s |}.
Definition set_sizes (l : list nat) (s : st) : st :=
  {| content := content s; cap := cap s; stop := stop s; state := state s; pieces := pieces s; wend := wend s; wp := wp s;
     sizes := l; rend := rend s; rp := rp s; out := out s |}.
Definition set_rp (p : rpc) (s : st) : st :=
  {| content := content s; cap := cap s; stop := stop s; state := state s; pieces := pieces s; wend := wend s; wp := wp s;
     sizes := sizes s; rend := rend s; rp := p; out := out s |}.
Definition answer (r : res) (s : st) : st :=
  {| content := content s; cap := cap s; stop := stop s; state := state s; pieces := pieces s; wend := wend s; wp := wp s;
     sizes := sizes s; rend := rend s; rp := RNext; out := out s ++ [r] |}.

(** notify_one() on not_full_ (only the writing fiber sleeps there) and on
    not_empty_ (only the reading fiber does). *)
Definition tell_full (s : st) : st := match wp s with WWait l => set_wp (WApp l) s | _ => s end.
Definition tell_empty (s : st) : st := match rp s with RWait n => set_rp (RCut n Told) s | _ => s end.

(** Close: http_stream.cc lines 57-62; Stop: fiber_blocking_noncontiguous_buffer.h
    lines 145-152.  The second component is where the call is then; nothing: it
    has returned. *)
Definition cstep (c : close) (p : cpc) (s : st) : st * option cpc :=
  match p with
  | CLoad => (s, Some (CStore (state s)))
  | CStore b => (set_state (with_bit c b) s, Some CStop)
  | CStop => (set_stop s, Some CFull)
  | CFull => (tell_full s, Some CEmpty)
  | CEmpty => (tell_empty s, None)
  end.

(** A step of the writing fiber: Write (http_stream.cc lines 45-55) for every
    piece, with AppendAlways (fiber_blocking_noncontiguous_buffer.h lines
    38-47), then Close(): WriteEof() after the whole body, or
    Close(kErrorBit) when the connection breaks
    (http_server_proto_checker_impl.cc lines 128-139, 188-203). *)
Definition wstep (s : st) : option st :=
  match wp s with
  | WNext =>
      match pieces s with
      | [] => match wend s with None => Some (set_wp WDone s) | Some _ => Some (set_wp (WClose CLoad) s) end
      | l :: r =>
          if good (state s) then Some (set_wp (match l with [] => WNext | _ :: _ => WApp l end) (set_pieces r s))
          else Some (set_wp WRefused s)
      end
  | WApp l =>
      if length (content s) <? cap s then
        let k := Nat.min (length l) (cap s - length (content s)) in
        Some (set_wp (WTell (skipn k l)) (set_buf (content s ++ firstn k l) s))
      else Some (set_wp (WWait l) s)
  | WTell l => Some (tell_empty (set_wp (match l with [] => WNext | _ :: _ => WApp l end) s))
  | WClose p =>
      match wend s with
      | Some c => let (s1, q) := cstep c p s in Some (set_wp (match q with Some q => WClose q | None => WDone end) s1)
      | None => None
      end
  | WWait _ | WDone | WRefused => None
  end.

(** CanCut: fiber_blocking_noncontiguous_buffer.h line 166. *)
Definition can_cut (n : nat) (s : st) : bool := (n <=? length (content s)) || stop s.

(** A step of the reading fiber: Read (http_stream.h lines 58-82) with Cut
    (fiber_blocking_noncontiguous_buffer.h lines 112-123; wait_until:
    detail/waitable.h lines 206-216), then Close() (http_service.cc lines 60,
    150).  [late]: its deadline has passed. *)
Definition rstep (late : bool) (s : st) : option st :=
  match rp s with
  | RNext =>
      match sizes s with
      | [] => match rend s with None => Some (set_rp RDone s) | Some _ => Some (set_rp (RClose CLoad) s) end
      | n :: r =>
          let s1 := set_sizes r s in
          if b_err (state s) then Some (answer Err s1)
          else if b_eof (state s) then Some (answer Eof s1)
          else Some (set_rp (RCut n First) s1)
      end
  | RCut n w =>
      if can_cut n s then
        let k := Nat.min (length (content s)) n in
        Some (set_rp (RTell n (firstn k (content s))) (set_buf (skipn k (content s)) s))
      else match w with
           | First => Some (set_rp (RWait n) s)
           | Told => if late then Some (answer Late s) else Some (set_rp (RWait n) s)
           | Timer => Some (answer Late s)
           end
  | RWait n => if late then Some (set_rp (RCut n Timer) s) else None
  | RTell n x => Some (tell_full (set_rp (RTest n x) s))
  | RTest n x =>
      if b_err (state s) then Some (answer Err s)
      else if length x <? n then Some (set_rp (ROr (state s) x) s)
      else Some (answer (Data x) s)
  | ROr b x => Some (answer (Data x) (set_state (with_bit CEof b) s))
  | RClose p =>
      match rend s with
      | Some c => let (s1, q) := cstep c p s in Some (set_rp (match q with Some q => RClose q | None => RDone end) s1)
      | None => None
      end
  | RDone => None
  end.

Definition start0 (c : nat) (ps : list (list nat)) (we : option close) (ns : list nat) (re : option close) : st :=
  {| content := []; cap := c; stop := false; state := {| b_end := false; b_eof := false; b_err := false |};
     pieces := ps; wend := we; wp := WNext; sizes := ns; rend := re; rp := RNext; out := [] |}.

Inductive step (s : st) : st -> Prop :=
| step_w s' : wstep s = Some s' -> step s s'
| step_r late s' : rstep late s = Some s' -> step s s'.

Inductive runs (s : st) : nat -> st -> Prop :=
| runs_0 : runs s 0 s
| runs_S k s1 s2 : runs s k s1 -> step s1 s2 -> runs s (S k) s2.

(** AppendToRequest: http_stream.cc lines 64-81, from what Read() returned for
    max_body_size + 1 bytes.  kEofBit is set exactly when fewer came. *)
Inductive whole := Body (x : list nat) | TooLarge | Failed (r : res).
Definition append_to_request (content_length max : nat) (r : res) : whole :=
  if max <? content_length then TooLarge
  else match r with
       | Data x => if length x <? S max then Body x else TooLarge
       | _ => Failed r
       end.
