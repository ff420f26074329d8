From Coq Require Import List Bool Arith Lia.
From Verif.SeqLock Require Import Model Spec Proofs.
Import ListNotations.

Fixpoint run (M : nat) (l : list nat) (s : st) : option st :=
  match l with [] => Some s | i :: r => match step M i s with Some s1 => run M r s1 | None => None end end.
Lemma run_reach M l : forall s0 s s', reach M s0 s -> run M l s = Some s' -> reach M s0 s'.
Proof.
  induction l as [|i l IH]; cbn; intros s0 s s' R H; [injection H as <-; exact R|].
  destruct (step M i s) eqn:E; [|discriminate]. eapply IH; [|exact H]. eapply reach_S; eassumption.
Qed.

(** ** A counter that starts odd *)
Lemma torn_odd M : 2 < M -> exists s, reach M (start 1 [0; 0] [[Read]; [Write [7; 7]]]) s /\ map snaps (ths s) = [[[7; 0]]; []].
Proof.
  intro L. assert (E : 2 mod M = 2) by (apply Nat.mod_small; lia).
  destruct (run M [1; 1] (start 1 [0; 0] [[Read]; [Write [7; 7]]])) as [s1|] eqn:R1; [|discriminate].
  assert (K : s1 = {| seq := 2; mem := [0; 0]; owner := Some 1; ths := [{| todo := [Read]; at_ := Idle; seen := [] |}; {| todo := []; at_ := WStore [7; 7] 0; seen := [] |}];
    incs := 1; vers := [[0; 0]] |}).
  { cbn -[Nat.modulo] in R1. injection R1 as <-. cbn -[Nat.modulo]. unfold put, go, incr, set_owner, start. cbn -[Nat.modulo]. rewrite E. reflexivity. }
  pose proof (run_reach _ _ _ _ _ (reach_0 _ _) R1) as Q. rewrite K in Q. clear R1.
  eexists. split.
  - eapply run_reach; [exact Q|]. instantiate (2 := [1; 0; 0; 0; 0; 0]). reflexivity.
  - reflexivity.
Qed.
Lemma spin M q v0 ps s : Nat.odd q = true -> written ps = [] -> reach M (start q v0 ps) s -> seq s = q /\ forall t, In t (ths s) -> seen t = [].
Proof.
  intros Oq W R.
  assert (G : seq s = q /\ forall t, In t (ths s) -> seen t = [] /\ writes (todo t) = [] /\ (at_ t = Idle \/ at_ t = RBegin)).
  { induction R.
    - split; [reflexivity|]. cbn. intros t Ht. apply in_map_iff in Ht. destruct Ht as (p & <- & Hp). cbn. refine (conj eq_refl (conj _ (or_introl eq_refl))).
      destruct (writes p) as [|v l] eqn:E; [reflexivity|]. exfalso. assert (X : In v (written ps)); [|rewrite W in X; exact X].
      apply in_flat_map. exists p. rewrite E. split; [exact Hp|left; reflexivity].
    - destruct IHR as [E1 A]. unfold step in H. destruct (nth_error (ths s1) i) as [t|] eqn:Ht; [|discriminate].
      destruct (A t (nth_error_In _ _ Ht)) as (A1 & A2 & [A3|A3]); rewrite A3 in H.
      + destruct (todo t) as [|[v|] r] eqn:T; [discriminate|discriminate|]. injection H as <-. split; [exact E1|]. cbn [put ths].
        intros u Hu. assert (X : u = {| todo := r; at_ := RBegin; seen := seen t |} \/ In u (ths s1)).
        { clear -Hu. revert i Hu. induction (ths s1) as [|a l IH]; intros [|i] Hu; cbn in *; auto; destruct Hu as [Hu|Hu]; auto. destruct (IH _ Hu); auto. }
        destruct X as [->|X]; [|auto]. cbn. auto.
      + rewrite E1, Oq in H. injection H as <-. auto. }
  destruct G as [G1 G2]. split; [exact G1|]. intros t Ht. apply (G2 t Ht).
Qed.

(** ** A counter that wraps *)
Definition mid (x n : nat) (m : list nat) (k : nat) (vs : list (list nat)) : st :=
  {| seq := x; mem := m; owner := None;
     ths := [{| todo := []; at_ := RLoad 0 0 [0]; seen := [] |}; {| todo := repeat (Write [7; 7]) k; at_ := Idle; seen := [] |}]; incs := n; vers := vs |}.
Lemma cycle M x n a b k vs s0 : M <> 0 -> reach M s0 (mid (x mod M) n [a; b] (S k) vs) -> reach M s0 (mid ((x + 2) mod M) (2 + n) [7; 7] k (vs ++ [[7; 7]])).
Proof.
  intros Z R. assert (E : S (S (x mod M) mod M) mod M = (x + 2) mod M).
  { rewrite <- (Nat.add_1_r (x mod M)), Nat.add_mod_idemp_l, <- Nat.add_1_r, Nat.add_mod_idemp_l by exact Z. f_equal. lia. }
  rewrite <- E. eapply run_reach; [exact R|]. instantiate (1 := [1; 1; 1; 1; 1; 1]). cbn -[Nat.modulo]. reflexivity.
Qed.
Lemma cycles M k : M <> 0 -> forall j x n vs s0 a b, reach M s0 (mid (x mod M) n [a; b] (j + k) vs) ->
  exists vs', reach M s0 (mid ((x + 2 * j) mod M) (2 * j + n) (match j with 0 => [a; b] | _ => [7; 7] end) k vs').
Proof.
  intros Z. induction j as [|j IH]; intros x n vs s0 a b R.
  - exists vs. rewrite Nat.add_0_r. exact R.
  - apply cycle in R; [|exact Z]. destruct (IH _ _ _ _ _ _ R) as (vs' & Q). exists vs'.
    replace (x + 2 * S j) with (x + 2 + 2 * j) by lia. replace (2 * S j + n) with (2 * j + (2 + n)) by lia. destruct j; exact Q.
Qed.
Lemma torn_wrap k : 1 <= k -> exists s, reach (2 * k) (start 0 [0; 0] [[Read]; repeat (Write [7; 7]) k]) s /\ map snaps (ths s) = [[[0; 7]]; []].
Proof.
  intro L. assert (Z : 2 * k <> 0) by lia. set (M := 2 * k) in *.
  assert (R : reach M (start 0 [0; 0] [[Read]; repeat (Write [7; 7]) k]) (mid (0 mod M) 0 [0; 0] (k + 0) [[0; 0]])).
  { rewrite Nat.mod_0_l, Nat.add_0_r by exact Z. eapply run_reach; [apply reach_0|]. instantiate (1 := [0; 0; 0]). reflexivity. }
  apply cycles in R; [|exact Z]. destruct R as (vs & R). cbn [Nat.add] in R. fold M in R. rewrite Nat.mod_same in R by exact Z.
  destruct k as [|k]; [lia|]. eexists. split.
  - eapply run_reach; [exact R|]. instantiate (2 := [0; 0]). cbn -[M]. reflexivity.
  - reflexivity.
Qed.

(** A reader is overtaken, notices it and reads again. *)
Lemma retry_ok : exists s, reach 8 (start 0 [0; 0] [[Read]; [Write [7; 7]]; [Read]]) s /\ map snaps (ths s) = [[[7; 7]]; []; [[0; 0]]].
Proof.
  destruct (run 8 [2; 2; 2; 2; 2; 0; 0; 0; 1; 1; 1; 0; 0; 0; 1; 1; 1; 0; 0; 0; 0] (start 0 [0; 0] [[Read]; [Write [7; 7]]; [Read]])) as [s|] eqn:E;
    [|vm_compute in E; discriminate].
  exists s. split; [eapply run_reach; [apply reach_0|exact E]|]. vm_compute in E. injection E as <-. reflexivity.
Qed.
