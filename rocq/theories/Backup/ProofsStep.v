(** Every step keeps the invariant. *)
From Coq Require Import Bool Arith List Lia.
From Verif Require Import Backup.Model Backup.Proofs.
Import ListNotations.

Ltac crunch :=
  cbn in *; unfold is_err in *;
  repeat match goal with
  | H : False |- _ => destruct H
  | H : _ /\ _ |- _ => destruct H
  | H : ?x = ?x |- _ => clear H
  | H : true = false |- _ => discriminate H
  | H : false = true |- _ => discriminate H
  | H : ?x = _ |- _ => is_var x; subst x
  | H : _ = ?x |- _ => is_var x; subst x
  | H : _ \/ _ |- _ => destruct H
  end; cbn in *; try discriminate; try contradiction; try lia.

Ltac fin1 := repeat split; intros; try discriminate; try contradiction; try congruence; try lia; try tauto.

Lemma cstep_inv s t s' : Inv s -> cstep s t = Some s' -> Inv s'.
Proof.
  intros (B & C & W) H. unfold cstep in H. unfold caller_ok in C.
  destruct (cp s) eqn:E.
  - injection H as <-. unfold Inv, caller_ok; cbn. destruct C as [C0 C1]. split; [exact B|].
    split; [split; [discriminate|exact C1]|].
    destruct (won s) as [w|].
    + unfold some_won in *. destruct W as (W1 & W2 & W3 & W4 & W5). destruct w; cbn in *; rewrite ?C0, ?C1 in *; contradiction.
    + unfold none_won in *; cbn in *. rewrite C0, C1 in *. cbn in *. crunch; fin1; left; fin1; left; fin1.
  - assert (G : s' = set_cp s CIssue1 \/ s' = set_cp s CWait0) by (destruct (ret s); injection H as <-; tauto).
    destruct G as [->| ->]; unfold Inv, caller_ok; cbn; (split; [exact B|]); (split; [exact C|exact W]).
  - assert (G : s' = set_cp s CIssue1 \/ s' = set_cp s (CRet Okay) /\ fin s = true /\ ret s = Okay).
    { destruct (fin s); [destruct (ret s); injection H as <-; tauto|]. destruct t; [injection H as <-; tauto|discriminate]. }
    destruct G as [->|(-> & F & R)]; unfold Inv, caller_ok; cbn; (split; [exact B|]).
    + split; [exact C|exact W].
    + split; [|exact W]. destruct C as [C0 C1]. repeat split; auto. intros _.
      destruct (won s) as [w|].
      * unfold some_won in W. destruct w; [|reflexivity]. cbn in W. rewrite C1 in W. tauto.
      * exfalso. unfold none_won, is_err in W. rewrite F, R in W. destruct W as (_ & _ & _ & _ & _ & [[Q _]|(_ & _ & _ & Q & _)]); [discriminate|contradiction].
  - injection H as <-. unfold Inv, caller_ok; cbn. destruct C as [C0 C1]. split; [exact B|].
    split; [split; [exact C0|discriminate]|].
    destruct (won s) as [w|].
    + unfold some_won in *. destruct w; cbn in *; rewrite ?C1 in *; [tauto|].
      destruct W as (W1 & W2 & _ & W4 & W5). repeat split; auto. destruct W4 as [W4|[_ W4]]; [left; exact W4|discriminate].
    + unfold none_won in *; cbn in *. rewrite C1 in *. cbn in *.
      destruct W as (W1 & W2 & W3 & W4 & W5 & W6). repeat split; auto.
      destruct W6 as [[F [W6|(W6 & _)]]|(_ & _ & W6 & _)]; [| |discriminate].
      * left. split; [exact F|]. left. exact W6.
      * destruct W6 as [[_ []]|[Q _]]; discriminate.
  - destruct (fin s) eqn:F; [|discriminate]. injection H as <-. unfold Inv, caller_ok; cbn. split; [exact B|]. split; [|exact W].
    destruct C as [C0 C1]. repeat split; auto. intros Q. contradiction.
  - discriminate.
Qed.

Lemma fail_inv s r c s' : Inv s -> fail s r c = Some s' -> Inv s'.
Proof.
  intros (B & C & W) H. unfold fail in H. destruct (pc s r) eqn:P; try discriminate H.
  assert (G : s' = set_pc s r (HCb c) /\ is_err c).
  { unfold is_err. destruct c; try discriminate H; injection H as <-; split; try reflexivity; discriminate. }
  destruct G as [-> EC]. clear H. split; [exact B|]. split.
  - unfold caller_ok in *. cbn. destruct (cp s), r; cbn in *; rewrite ?P in *; intuition congruence.
  - cbn. destruct (won s) as [w|].
    + unfold some_won in *. destruct r, w; cbn in *; rewrite ?P in *; try tauto;
        destruct W as (W1 & W2 & W3 & W4 & W5); (repeat split; auto); destruct W4 as [W4|[_ W4]]; try discriminate; left; exact W4.
    + unfold none_won in *. destruct r; cbn in *; rewrite ?P in *; cbn in *;
        destruct W as (W1 & W2 & W3 & W4 & W5 & W6); (repeat split; auto); left;
        (destruct W6 as [[F [W6|(W6 & _)]]|(_ & W7 & W6 & _)]; [|exfalso|discriminate]);
        try (destruct W6 as [[Q X]|[Q X]]; first [discriminate Q|destruct X]);
        (split; [exact F|]); left; tauto.
Qed.

Lemma reply_inv s r s' : Inv s -> reply LateFails s r = Some s' -> Inv s'.
Proof.
  intros (B & C & W) H. unfold reply in H. destruct (pc s r) eqn:P; try discriminate H. injection H as <-. split; [exact B|]. split.
  - unfold caller_ok in *. cbn. destruct (won s) as [w|] eqn:EW.
    + destruct W as (-> & _). destruct (cp s), r; cbn in *; rewrite ?P in *; intuition congruence.
    + destruct W as (-> & _ & _ & _ & _ & W6). destruct (cp s), r; cbn in *; rewrite ?P in *; intuition congruence.
  - cbn. destruct (won s) as [w|] eqn:EW.
    + unfold some_won in *. destruct W as (W1 & W2 & W3 & W4 & W5). rewrite W1.
      destruct r, w; cbn in *; rewrite ?P in *; try contradiction;
        (repeat split; auto; try discriminate); destruct W4 as [W4|[_ W4]]; try discriminate; left; exact W4.
    + unfold none_won in W. destruct W as (W1 & W2 & W3 & W4 & W5 & W6). rewrite W1. unfold some_won.
      destruct r; cbn in *; rewrite ?P in *; cbn in *;
        (destruct W6 as [[F [W6|(W6 & _)]]|(_ & W7 & W8 & _)]; [|exfalso|discriminate]);
        try (destruct W6 as [[Q X]|[Q X]]; first [discriminate Q|destruct X]);
        destruct W6 as (A0 & A1 & A2 & A3 & A4); (split; [reflexivity|]); (split; [reflexivity|]); (split; [assumption|]).
      * split; [|repeat split; assumption]. destruct (p0 s); cbn in *; try contradiction; try (left; lia). right. split; [lia|reflexivity].
      * split; [|repeat split; assumption]. destruct (p1 s); cbn in *; try contradiction; try (left; lia). right. split; [lia|reflexivity].
Qed.

Lemma hstep_caller s r s' : Inv s -> hstep s r = Some s' -> caller_ok s' /\ bad s' = false.
Proof.
  intros (B & C & W) H.
  assert (NR : fin s = false -> returned s = false).
  { intros F. unfold returned. unfold caller_ok in C. destruct (cp s); try reflexivity. destruct C as (_ & Q & _). congruence. }
  assert (HF : match pc s r with HWon | HSet _ => fin s = false | _ => True end).
  { destruct (won s) as [w|].
    - unfold some_won in W. destruct W as (_ & _ & W3 & _ & W5). destruct r, w; cbn in *;
        (destruct (p0 s) eqn:?; destruct (p1 s) eqn:?; cbn in *; try exact Logic.I; tauto).
    - unfold none_won in W. destruct W as (_ & _ & _ & _ & _ & W6). destruct r; cbn;
        destruct W6 as [[F _]|(_ & Q0 & Q1 & _)]; rewrite ?F, ?Q0, ?Q1; try exact Logic.I;
        [destruct (p1 s)|destruct (p0 s)]; try exact Logic.I; reflexivity. }
  unfold hstep in H. unfold caller_ok in *.
  destruct (pc s r) as [| | |c|c|c| |] eqn:P; try discriminate H; injection H as <-; cbn.
  - rewrite (NR HF), B. split; [|reflexivity]. destruct (cp s), r; cbn in *; rewrite ?P in *; intuition congruence.
  - split; [|exact B]. destruct (cp s), r; cbn in *; rewrite ?P in *; destruct (fin s), c; intuition congruence.
  - split; [|exact B]. destruct (cp s), r; cbn in *; rewrite ?P in *; destruct (failed s =? 1); intuition congruence.
  - rewrite (NR HF), B. split; [|reflexivity]. destruct (cp s) eqn:EC, r; cbn in *; rewrite ?P in *; try (intuition congruence);
      destruct C as (_ & Q & _); congruence.
  - split; [|exact B]. destruct (cp s), r; cbn in *; rewrite ?P in *; intuition congruence.
Qed.

Lemma hstep_inv s r s' : Inv s -> hstep s r = Some s' -> Inv s'.
Proof.
  intros V H. destruct (hstep_caller s r s' V H) as [C B]. split; [exact B|]. split; [exact C|]. clear C B.
  destruct V as (_ & _ & W). unfold hstep in H.
  assert (EW : won s' = won s) by (destruct (pc s r); try discriminate H; injection H as <-; reflexivity).
  rewrite EW. destruct (won s) as [w|].
  - unfold some_won in *. destruct W as (W1 & W2 & W3 & W4 & W5).
    destruct r, w; cbn in *;
      destruct (p0 s) as [| | |c0|c0|c0| |] eqn:P0; cbn in *; try contradiction; try discriminate H;
      destruct (p1 s) as [| | |c1|c1|c1| |] eqn:P1; cbn in *; try contradiction; try discriminate H;
      injection H as <-; cbn in *; rewrite ?P0, ?P1 in *;
      repeat match goal with X : _ /\ _ |- _ => destruct X end; subst;
      repeat match goal with X : fin s = _ |- _ => rewrite X in *; clear X end;
      try (destruct W4 as [W4|[W4 Q4]]; [|discriminate Q4]);
      try rewrite W4; cbn; unfold is_err in *;
      repeat match goal with
        | |- context [match ?c with Okay => _ | _ => _ end] => is_var c; destruct c; try congruence
        end; cbn; intuition (try congruence; try discriminate).
  - unfold none_won in *. destruct W as (W1 & W2 & W3 & W4 & W5 & W6).
    destruct W6 as [[F W6]|(F & Q0 & Q1 & _)]; [|destruct r; cbn in H; rewrite ?Q0, ?Q1 in H; discriminate H].
    destruct W6 as [(A0 & A1 & A2 & A3 & A4)|(A0 & A1 & A2)].
    + destruct r; cbn in *;
        destruct (p0 s) as [| | |c0|c0|c0| |] eqn:P0; cbn in *; try contradiction; try discriminate H;
        destruct (p1 s) as [| | |c1|c1|c1| |] eqn:P1; cbn in *; try contradiction; try discriminate H;
        injection H as <-; cbn in *; rewrite ?P0, ?P1, ?F, ?W5 in *; cbn in *; unfold is_err in *;
        repeat match goal with
          | |- context [match ?c with Okay => _ | _ => _ end] => is_var c; destruct c; try congruence
          end; cbn; (repeat (split; [first [assumption|reflexivity|lia]|])); try lia; left; (split; [first [assumption|reflexivity]|]);
          first [left; repeat split; (assumption || discriminate || lia || exact Logic.I)
                |right; split; [tauto|]; split; [intros [X|X]; discriminate X|intros; assumption]].
    + destruct A0 as [[Q0 A0]|[Q1 A0]].
      * rewrite Q0 in *. destruct r; cbn in H; [|rewrite Q0 in H; discriminate H].
        destruct (p1 s) as [| | |c1|c1|c1| |] eqn:P1; cbn in A0; try contradiction; injection H as <-; cbn in *; rewrite ?Q0, ?P1 in *; cbn in *.
        -- repeat (split; [first [assumption|reflexivity|lia]|]). left. split; [assumption|]. right. split; [tauto|].
           split; [|intros _ X; destruct (X eq_refl)]. intros _. unfold is_err in A0. split; [exact A0|]. destruct c1; congruence.
        -- repeat (split; [first [assumption|reflexivity|lia]|]). right. destruct (A1 (or_intror eq_refl)). repeat split; assumption.
      * rewrite Q1 in *. destruct r; cbn in H; [rewrite Q1 in H; discriminate H|].
        destruct (p0 s) as [| | |c1|c1|c1| |] eqn:P1; cbn in A0; try contradiction; injection H as <-; cbn in *; rewrite ?Q1, ?P1 in *; cbn in *.
        -- repeat (split; [first [assumption|reflexivity|lia]|]). left. split; [assumption|]. right. split; [tauto|].
           split; [|intros X; destruct (X eq_refl)]. intros _. unfold is_err in A0. split; [exact A0|]. destruct c1; congruence.
        -- repeat (split; [first [assumption|reflexivity|lia]|]). right. destruct (A1 (or_introl eq_refl)). repeat split; assumption.
Qed.

Theorem reach_inv s : reach LateFails s -> Inv s.
Proof.
  induction 1 as [|s a s' R V H]; [apply init_inv|]. destruct a; cbn in H.
  - eapply cstep_inv; eassumption.
  - eapply reply_inv; eassumption.
  - eapply fail_inv; eassumption.
  - eapply hstep_inv; eassumption.
Qed.
