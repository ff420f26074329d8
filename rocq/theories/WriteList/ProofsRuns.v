From Coq Require Import List Arith Lia Bool.
From Verif.Lib Require Import Base.
From Verif.WriteList Require Import Model Spec.
Import ListNotations.

Definition call (m : msg) (s : st) : st := set_prods (prods s ++ [PCheck m false]) s.
(** The step of the thread number [i] in Append *)
Definition app_at (cap fresh i : nat) (s : st) : option st :=
  match nth_error (prods s) i with
  | None => None
  | Some p => match prod_step cap fresh p s with
              | Some (p', s') => Some (set_prods (firstn i (prods s) ++ p' :: skipn (S i) (prods s)) s')
              | None => None
              end
  end.
Definition flush1 (iovmax max : nat) (res : result) (again : bool) (s : st) : option st :=
  match flushers s with
  | [f] => if is_sub f then None else
    match flush_step iovmax max res again f s with AGo f' s' => Some (set_flushers [f'] s') | AEnd s' => Some (set_flushers [] s') | AWait => None end
  | _ => None
  end.
Definition sub1 (cap iovmax : nat) (s : st) : option st :=
  match flushers s with
  | [f] => if is_sub f && forallb (fun p => negb (sleeps p)) (prods s) then
      match flush_step iovmax 1 RAgain false f s with AGo f' s' => Some (set_prods (prods s) (set_flushers [f'] s')) | _ => None end
    else None
  | _ => None
  end.
Inductive act1 := ACall (m : msg) | AApp (i fresh : nat) | AFl (max : nat) (res : result) (again : bool) | ASub.
Fixpoint run (cap iovmax : nat) (l : list act1) (s : st) : option st :=
  match l with
  | [] => Some s
  | a :: l =>
    match (match a with ACall m => Some (call m s) | AApp i fresh => app_at cap fresh i s
                     | AFl max res again => if 0 <? max then flush1 iovmax max res again s else None | ASub => sub1 cap iovmax s end) with
    | Some s' => run cap iovmax l s'
    | None => None
    end
  end.
Lemma nth_split_eq {A} (l : list A) i p : nth_error l i = Some p -> l = firstn i l ++ p :: skipn (S i) l.
Proof. revert i. induction l as [|x l IH]; intros [|i] H; cbn in *; try discriminate; [congruence|]. f_equal. apply IH, H. Qed.
Lemma run_reach cap iovmax l : forall s s', reach cap iovmax s -> run cap iovmax l s = Some s' -> reach cap iovmax s'.
Proof.
  induction l as [|a l IH]; cbn [run]; intros s s' R H; [injection H as <-; exact R|].
  match type of H with match ?x with _ => _ end = _ => destruct x as [t|] eqn:E; [|discriminate] end.
  apply (IH t); [|exact H]. clear IH H. eapply reach_step; [exact R|]. destruct a.
  - injection E as <-. apply T_call.
  - apply T_own. unfold app_at in E. destruct (nth_error (prods s) i) as [p|] eqn:N; [|discriminate].
    destruct (prod_step cap fresh p s) as [[p' u]|] eqn:P; [|discriminate]. injection E as <-.
    eapply T_prod; [|exact P]. apply nth_split_eq, N.
  - apply T_own. destruct (Nat.ltb_spec 0 max) as [M|]; [|discriminate]. unfold flush1 in E. destruct (flushers s) as [|f [|? ?]] eqn:F; try discriminate.
    destruct (is_sub f) eqn:B; [discriminate|]. destruct (flush_step iovmax max res again f s) as [f' u|u|] eqn:P; [| |discriminate]; injection E as <-.
    + exact (T_flush cap iovmax s [] f [] max res again f' u F B M P).
    + exact (T_end cap iovmax s [] f [] max res again u F M P).
  - apply T_own. unfold sub1 in E. destruct (flushers s) as [|f [|? ?]] eqn:F; try discriminate.
    destruct (is_sub f) eqn:B; [|discriminate]. cbn [andb] in E. destruct (forallb _ _) eqn:NS; [|discriminate].
    destruct (flush_step iovmax 1 RAgain false f s) as [f' u|u|] eqn:P; [|discriminate|discriminate]. injection E as <-.
    apply (T_sub cap iovmax s [] f [] f' u (prods s) F B P). destruct (size u <? cap); [constructor; exact NS|reflexivity].
Qed.

Definition times {A} (n : nat) (a : A) : list A := repeat a n.
Definition enqueue (i fresh : nat) : list act1 := times 5 (AApp i fresh).

(** Two messages; the socket takes two bytes, then one, then the rest. *)
Definition case_run : list act1 :=
  [ACall [[1; 2]; [3]]] ++ enqueue 0 5 ++ times 3 (AFl 9 RAgain true) ++ [AFl 9 (RWrote 2) true; ASub] ++ times 2 (AFl 9 RAgain true) ++
  [ACall [[4]]] ++ enqueue 1 6 ++ times 5 (AFl 2 RAgain true) ++ [AFl 2 (RWrote 1) true; ASub].
Lemma case_ok : exists s, reach 0 4 s /\ sent s = [[[1; 2]; [3]]; [[4]]] /\ written s = [1; 2; 3] /\ size s = 1 /\
  prods s = [PDone true; PDone true] /\ exists h, flushers s = [FRewind h 1 1 2].
Proof.
  destruct (run 0 4 case_run st_new) as [s|] eqn:E; [|vm_compute in E; discriminate]. exists s.
  split; [eapply run_reach; [apply reach_new|exact E]|]. vm_compute in E. injection E as <-. cbn. repeat (split; [reflexivity|]). eexists. reflexivity.
Qed.

(** An empty message is written; before the list is marked as empty, another message is appended. *)
Definition empty_run : list act1 :=
  [ACall []] ++ enqueue 0 5 ++ times 3 (AFl 9 RAgain true) ++ [AFl 9 (RWrote 0) true; ASub; AFl 9 RAgain true] ++
  [ACall [[7]]] ++ enqueue 1 6 ++ times 3 (AFl 9 RAgain true).
Lemma empty_kills : exists s, reach 0 4 s /\ dead s = true /\ sent s = [[]; [[7]]] /\ written s = [] /\ flushers s = [] /\ stopped s = false.
Proof.
  destruct (run 0 4 empty_run st_new) as [s|] eqn:E; [|vm_compute in E; discriminate]. exists s.
  split; [eapply run_reach; [apply reach_new|exact E]|]. vm_compute in E. injection E as <-. cbn. repeat (split; [reflexivity|]). reflexivity.
Qed.

(** Two threads test before either adds. *)
Definition cap_run : list act1 := [ACall [[1]]; ACall [[2]]; AApp 0 5; AApp 1 6; AApp 0 5].
Lemma cap_passed : exists s, reach 1 4 s /\ stopped s = false /\ size s = 1 /\ prods s = [PNew [[1]]; PSize [[2]]].
Proof.
  destruct (run 1 4 cap_run st_new) as [s|] eqn:E; [|vm_compute in E; discriminate]. exists s.
  split; [eapply run_reach; [apply reach_new|exact E]|]. vm_compute in E. injection E as <-. cbn. repeat (split; [reflexivity|]). reflexivity.
Qed.

(** notify_one comes between the test and the wait. *)
Definition lost_run : list act1 :=
  [ACall [[1]]] ++ enqueue 0 5 ++ [ACall [[2]]; AApp 1 6] ++ times 3 (AFl 9 RAgain true) ++ [AFl 9 (RWrote 1) true; ASub] ++ times 2 (AFl 9 RAgain true) ++
  [AApp 1 6].
Lemma wake_lost : exists s, reach 1 4 s /\ dead s = false /\ flushers s = [] /\ size s = 0 /\ prods s = [PDone true; PAsleep [[2]]].
Proof.
  destruct (run 1 4 lost_run st_new) as [s|] eqn:E; [|vm_compute in E; discriminate]. exists s.
  split; [eapply run_reach; [apply reach_new|exact E]|]. vm_compute in E. injection E as <-. cbn. repeat (split; [reflexivity|]). reflexivity.
Qed.
