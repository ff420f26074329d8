From Coq Require Import List Bool Arith Lia.
From Verif.HttpStream Require Import Model Spec.
Import ListNotations.

(** How far the writing fiber's Close() is: nothing, state_ stored, stopped. *)
Definition ph (s : st) : nat :=
  match wp s with
  | WClose CStop => 1
  | WClose CFull | WClose CEmpty => 2
  | WDone => match wend s with None => 0 | Some _ => 2 end
  | _ => 0
  end.
Definition rest_w (s : st) : list nat :=
  match wp s with WApp l | WWait l | WTell l => l | _ => [] end ++ concat (pieces s).
Definition pend (s : st) : list nat :=
  match rp s with RTell _ x | RTest _ x | ROr _ x => x | _ => [] end.
Definition closing (s : st) : bool := match rp s with RClose _ | RDone => true | _ => false end.
Definition is_end (o : option close) : bool := match o with Some CEnd => true | _ => false end.
Definition is_err (o : option close) : bool := match o with Some CErr => true | _ => false end.
Definition none : bits := {| b_end := false; b_eof := false; b_err := false |}.

(** Where the reading fiber's current call fits into the trace. *)
Definition at_ (s : st) (m : mode) (b ns' : list nat) : Prop :=
  match rp s with
  | RNext => ns' = sizes s /\
      match m with
      | Going => b_eof (state s) = false /\ b = content s ++ rest_w s
      | Ended => b_eof (state s) = true
      | Broken => b_err (state s) = true
      end
  | RCut n _ | RWait n => ns' = n :: sizes s /\ m = Going /\ b_eof (state s) = false /\ b = content s ++ rest_w s
  | RTell n x | RTest n x => ns' = n :: sizes s /\ m = Going /\ b_eof (state s) = false /\ b = x ++ content s ++ rest_w s /\ length x <= n /\
      (length x < n -> ph s = 2 /\ content s = [])
  | ROr bs x => m = Going /\ b_eof (state s) = false /\ b = x /\ ph s = 2 /\ bs = state s /\ is_end (wend s) = true /\
      exists n, ns' = n :: sizes s /\ length x < n
  | RClose _ | RDone => ns' = []
  end.

Record inv (fin : option close) (body ns : list nat) (c : nat) (re : option close) (s : st) : Prop := {
  i_cap : cap s = c /\ length (content s) <= c;
  i_fin : wend s = fin /\ rend s = re;
  i_w : match wp s with
        | WApp l | WWait l => l <> []
        | WClose _ => pieces s = [] /\ fin <> None
        | WDone => pieces s = []
        | _ => True
        end;
  i_rc : match rp s with RClose _ => re <> None | _ => True end;
  i_open : closing s = false ->
      b_end (state s) = ((1 <=? ph s) && is_end fin) /\ b_err (state s) = ((1 <=? ph s) && is_err fin) /\
      stop s = (2 <=? ph s) /\ (b_eof (state s) = true -> ph s = 2 /\ is_end fin = true) /\ wp s <> WRefused /\
      match wp s with WClose (CStore b) => b = none | _ => True end;
  i_trace : exists m b ns', trace fin body ns (out s) m b ns' /\ at_ s m b ns';
  i_full : match wp s with WWait _ => length (content s) = c \/ match rp s with RTell _ _ => True | _ => False end | _ => True end;
  i_empty : match rp s with
            | RWait n =>
                length (content s) < n /\ (stop s = false \/ wp s = WClose CFull \/ wp s = WClose CEmpty) \/
                match wp s with WTell _ => True | _ => False end
            | _ => True
            end
}.
