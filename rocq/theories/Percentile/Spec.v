(** What the intervals have to hold.  Written without the model's helpers, except
    for the records. *)
From Coq Require Import List ZArith Bool Permutation.
From Verif.Lib Require Import Base Count.
From Verif.Percentile Require Import Model.
Import ListNotations.
Open Scope Z_scope.

(** A latency. *)
Definition latency (x : Z) : Prop := 0 <= x < 4294967296.

(** The latencies of interval i: up to 2, up to 4, up to 8 and so on. *)
Definition belongs (i : nat) (x : Z) : bool :=
  match i with
  | O => x <=? 2
  | S _ => (2 ^ Z.of_nat i <? x) && (x <=? 2 ^ (Z.of_nat i + 1))
  end.

(** The latencies for which Log2 negates the least int. *)
Definition overflows (x : Z) : Prop := exists k, 0 <= k < 31 /\ x = 2147483648 + 2 ^ k.
Definition fine (x : Z) : Prop := latency x /\ ~ overflows x.

Definition len {A} (l : list A) : Z := Z.of_nat (length l).

(** An interval for the latencies l: their number and as many of them as fit. *)
Definition sampled (n : Z) (l : list Z) (v : interval) : Prop :=
  added v = len l /\ len (samples v) = Z.min (len l) n /\ sorted v = false /\
  exists rest, Permutation l (samples v ++ rest).

(** A group for the latencies l. *)
Definition holds (n : Z) (l : list Z) (g : group) : Prop :=
  Forall fine l /\ length (ivs g) = 32%nat /\ total g = len l /\
  forall i v, nth_error (ivs g) i = Some v -> sampled n (filter (belongs i) l) v.

(** x is the k-th smallest of l. *)
Definition kth (k : Z) (x : Z) (l : list Z) : Prop :=
  Z.of_nat (cnt (fun y => y <? x) l) < k <= Z.of_nat (cnt (fun y => y <=? x) l).

(** The latencies given to Update() in a run. *)
Definition called (l : list act) : list Z :=
  concat (map (fun a => match a with PCall _ x => [x] | _ => [] end) l).
(** Those of calls that are not finished. *)
Definition waiting (h : thread) : list Z :=
  match at_pc h with PIdle => [] | PFull x _ => [x] | PMerged x _ => [x] end.

(** Everything Reset() has returned. *)
Definition returned (rs : list (group * list Z)) : list Z := concat (map snd rs).

(** Reset() does not visit a thread that has merged a full interval and not yet
    cleared it. *)
Definition spares (a : act) (s : st) : bool :=
  match a, tak s with
  | PVisit _, Some r =>
      match todo r with
      | t :: _ => match nth_error (ths s) t with
                  | Some h => match at_pc h with PMerged _ _ => false | _ => true end
                  | None => true
                  end
      | [] => true
      end
  | _, _ => true
  end.
Inductive gentle : list act -> st -> Prop :=
| gentle_nil s : gentle [] s
| gentle_cons a l s : spares a s = true ->
    (forall s1 x, step a s = Some (Ok (s1, x)) -> gentle l s1) -> gentle (a :: l) s.

(** What a thread still has to be asked for. *)
Definition kept (h : thread) : list Z :=
  match at_pc h with
  | PMerged _ i => filter (fun y => negb (belongs i y)) (seen h)
  | _ => seen h
  end ++ waiting h.
Definition remaining (s : st) : list Z :=
  gglob s ++ match tak s with Some r => gacc r | None => [] end ++ concat (map kept (ths s)).
