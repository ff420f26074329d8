(** The invariant of the event count. *)
From Coq Require Import List Bool Arith Lia.
From Verif Require Import EventCount.Model EventCount.Spec.
Import ListNotations.

Lemma upd_same A (f : nat -> A) i v : upd f i v i = v.
Proof. unfold upd. rewrite Nat.eqb_refl. reflexivity. Qed.
Lemma upd_other A (f : nat -> A) i v k : k <> i -> upd f i v k = f k.
Proof. intros N. unfold upd. destruct (Nat.eqb_spec k i); congruence. Qed.

Lemma word_eqb_eq a b : word_eqb a b = true -> a = b.
Proof.
  unfold word_eqb. rewrite !andb_true_iff, !Nat.eqb_eq. intros [[E1 E2] E3].
  destruct a as [a1 a2 a3], b as [b1 b2 b3]; cbn in *; subst.
  destruct a3, b3; cbn in E3; try discriminate; try reflexivity.
  apply Nat.eqb_eq in E3. congruence.
Qed.

Fixpoint chain (nx : nat -> option nat) (o : option nat) (l : list nat) : Prop :=
  match l with [] => o = None | x :: r => o = Some x /\ chain nx (nx x) r end.

Lemma chain_upd nx i v o l : ~ In i l -> chain nx o l -> chain (upd nx i v) o l.
Proof.
  revert o; induction l as [|x r IH]; cbn; intros o N H; [exact H|].
  destruct H as [H1 H2]. split; [exact H1|]. rewrite upd_other by (intros ->; apply N; left; reflexivity).
  apply IH; [intros Q; apply N; right; exact Q|exact H2].
Qed.

Lemma chain_on nx o l : chain nx o l -> forall x, on_chain nx o x <-> In x l.
Proof.
  intros H x. split.
  - intros O. revert l H. induction O as [x|x y O IH]; intros l H.
    + destruct l as [|z r]; cbn in H; [discriminate|]. destruct H as [E _]. left. congruence.
    + destruct l as [|z r]; cbn in H; [discriminate|]. destruct H as [E H]. injection E as <-. right. apply IH; exact H.
  - revert o H. induction l as [|z r IH]; intros o H I; [destruct I|].
    cbn in H. destruct H as [-> H]. destruct I as [->|I]; [apply oc_here|]. apply oc_next. apply IH; assumption.
Qed.

Definition hand_ok (nx : nat -> option nat) (p : npc) (c : list nat) : Prop :=
  match p with
  | NClear w => c = [w]
  | NUnpark o => chain nx o c
  | NSignal w o => exists r, c = w :: r /\ chain nx o r
  | _ => c = []
  end.

Definition npc_ok (s : st) (L : list nat) (p : npc) : Prop :=
  match p with
  | NLoaded _ snap => w_ep snap <= w_ep (word_ s) /\ (w_pre snap = 0 -> w_stk snap <> None)
  | NPop snap w wn => w_stk snap = Some w /\ w_pre snap = 0 /\ w_ep snap <= w_ep (word_ s) /\
      (w_ep snap = w_ep (word_ s) -> In w L -> nxt s w = wn)
  | _ => True
  end.

Definition wpc_ok (s : st) (i : nat) (p : wpc) : Prop :=
  match p with
  | WCommitting t => sig s i = false
  | WStored t snap => t = w_ep snap /\ nxt s i = w_stk snap /\ sig s i = false
  | WCancel t snap => t = w_ep snap
  | _ => True
  end.

Record Inv (s : st) (L : list nat) (C : nat -> list nat) : Prop := {
  i_lt : forall i t, ticket (wp s i) = Some t -> t < w_ep (word_ s) + w_pre (word_ s);
  i_inj : forall i j t, ticket (wp s i) = Some t -> ticket (wp s j) = Some t -> i = j;
  i_sur : forall t, w_ep (word_ s) <= t -> t < w_ep (word_ s) + w_pre (word_ s) ->
          exists i, ticket (wp s i) = Some t;
  i_stk : chain (nxt s) (w_stk (word_ s)) L;
  i_hand : forall j, hand_ok (nxt s) (np s j) (C j);
  i_ndL : NoDup L;
  i_ndC : forall j, NoDup (C j);
  i_LC : forall j x, In x L -> In x (C j) -> False;
  i_CC : forall j k x, In x (C j) -> In x (C k) -> j = k;
  i_in : forall x, asleep s x -> In x L \/ exists j, In x (C j);
  i_L : forall x, In x L -> asleep s x;
  i_C : forall j x, In x (C j) -> asleep s x;
  i_np : forall j, npc_ok s L (np s j);
  i_wp : forall i, wpc_ok s i (wp s i);
  i_alL : forall i, In i L -> ~ all_since i (log s);
  i_alT : forall i t, ticket (wp s i) = Some t -> w_ep (word_ s) <= t -> ~ all_since i (log s);
  i_anT : forall i t, ticket (wp s i) = Some t -> t < w_ep (word_ s) -> any_since i (log s);
  i_anC : forall j i, In i (C j) -> any_since i (log s);
  i_anS : forall i, wp s i = WParked -> sig s i = true -> any_since i (log s)
}.

Lemma init_inv e : Inv (init e) [] (fun _ => []).
Proof.
  constructor; cbn; try (intros; discriminate); try tauto; try solve [intros; constructor].
  - intros t A B. lia.
  - intros x [A _]. discriminate A.
Qed.

(** Replacing the program counter of a waiter by one with the same ticket. *)
Ltac usp i k := destruct (Nat.eq_dec k i) as [->|];
   [rewrite ?upd_same in *|rewrite ?upd_other in * by assumption].

Lemma same_ticket s L C i p :
  Inv s L C -> ticket p = ticket (wp s i) -> p <> WParked -> wp s i <> WParked -> wpc_ok s i p ->
  Inv (set_wp s i p) L C.
Proof.
  intros V T P Q W. destruct V. constructor; cbn [word_ nxt sig wp np log set_wp]; auto.
  - intros k t. usp i k; [rewrite T|]; apply i_lt0.
  - intros k m t. usp i k; usp i m; auto; rewrite ?T; intros A B; [apply (i_inj0 i m t)|apply (i_inj0 k i t)|apply (i_inj0 k m t)]; assumption.
  - intros t A B. destruct (i_sur0 t A B) as [k K]. exists k. usp i k; [rewrite T|]; exact K.
  - intros x [A B]. cbn in *. usp i x; [contradiction|]. apply i_in0. split; assumption.
  - intros x A. destruct (i_L0 x A) as [H1 H2]. split; cbn; [|exact H2]. usp i x; [contradiction|exact H1].
  - intros j x A. destruct (i_C0 j x A) as [H1 H2]. split; cbn; [|exact H2]. usp i x; [contradiction|exact H1].
  - intros k. usp i k; [exact W|apply i_wp0].
  - intros k t. usp i k; [rewrite T|]; apply i_alT0.
  - intros k t. usp i k; [rewrite T|]; apply i_anT0.
  - intros k. usp i k; [intros; contradiction|apply i_anS0].
Qed.

(** A waiter returns: no ticket any more, or it was woken. *)
Lemma idle_inv s L C i :
  Inv s L C -> (exists t, ticket (wp s i) = Some t /\ t < w_ep (word_ s)) \/ (wp s i = WParked /\ sig s i = true) ->
  Inv (emit (set_wp s i WIdle) (EReturn i)) L C.
Proof.
  intros V H. 
  assert (NA : ~ asleep s i).
  { intros [A B]. destruct H as [(t & T & _)|[_ T]]; [rewrite A in T; discriminate|congruence]. }
  destruct V. constructor; cbn [word_ nxt sig wp np log set_wp emit all_since any_since]; auto.
  - intros k t. usp i k; [discriminate|apply i_lt0].
  - intros k m t. usp i k; usp i m; try discriminate; apply i_inj0.
  - intros t A B. destruct (i_sur0 t A B) as [k K]. exists k. usp i k; [|exact K].
    destruct H as [(t' & T & ?)|[T _]]; rewrite ?T in K; [|discriminate]. injection K as ->. lia.
  - intros x [A B]. cbn in *. usp i x; [discriminate|]. apply i_in0. split; assumption.
  - intros x A. pose proof (i_L0 x A) as [H1 H2]. split; cbn; [|exact H2]. usp i x; [|exact H1].
    destruct NA. split; assumption.
  - intros j x A. pose proof (i_C0 j x A) as [H1 H2]. split; cbn; [|exact H2]. usp i x; [|exact H1].
    destruct NA. split; assumption.
  - intros k. usp i k; [exact Logic.I|apply i_wp0].
  - intros k t. usp i k; [discriminate|apply i_alT0].
  - intros k t. usp i k; [discriminate|apply i_anT0].
  - intros k. usp i k; [discriminate|apply i_anS0].
Qed.

Lemma prepare_inv s L C i s' : Inv s L C -> prepare s i = Some s' -> Inv s' L C.
Proof.
  intros V H. unfold prepare in H. destruct (wp s i) eqn:E; try discriminate H. injection H as <-.
  assert (NA : ~ asleep s i) by (intros [A _]; congruence).
  destruct V. constructor; cbn [word_ nxt sig wp np log set_wp set_word emit all_since any_since w_ep w_pre w_stk]; auto.
  - intros k t. usp i k; [cbn; intros [= <-]; lia|]. intros A. apply i_lt0 in A. lia.
  - intros k m t. usp i k; usp i m; auto; cbn; intros A B.
    + injection A as <-. apply i_lt0 in B. lia.
    + injection B as <-. apply i_lt0 in A. lia.
    + eapply i_inj0; eassumption.
  - intros t A B. destruct (Nat.eq_dec t (w_ep (word_ s) + w_pre (word_ s))) as [->|N].
    + exists i. rewrite upd_same. reflexivity.
    + destruct (i_sur0 t A ltac:(lia)) as [k K]. exists k. usp i k; [rewrite E in K; discriminate|exact K].
  - intros x [A B]. cbn in *. usp i x; [discriminate|]. apply i_in0. split; assumption.
  - intros x A. pose proof (i_L0 x A) as [H1 H2]. split; cbn; [|exact H2]. usp i x; [congruence|exact H1].
  - intros j x A. pose proof (i_C0 j x A) as [H1 H2]. split; cbn; [|exact H2]. usp i x; [congruence|exact H1].
  - intros k. usp i k; [exact Logic.I|]. specialize (i_wp0 k). destruct (wp s k); exact i_wp0.
  - intros k A. destruct (Nat.eqb_spec i k) as [<-|]; [tauto|]. apply i_alL0; exact A.
  - intros k t. destruct (Nat.eqb_spec i k) as [<-|]; [tauto|]. rewrite upd_other by auto. apply i_alT0.
  - intros k t. usp i k; [cbn; intros [= <-]; lia|]. destruct (Nat.eqb_spec i k) as [<-|]; [congruence|]. apply i_anT0.
  - intros j k A. destruct (Nat.eqb_spec i k) as [<-|]; [|eapply i_anC0; exact A]. destruct NA. eapply i_C0; exact A.
  - intros k. usp i k; [discriminate|]. destruct (Nat.eqb_spec i k) as [<-|]; [congruence|]. apply i_anS0.
Qed.

Lemma commit_inv s L C i s' : Inv s L C -> commit s i = Some s' -> Inv s' L C.
Proof.
  intros V H. unfold commit in H. destruct (wp s i) eqn:E; try discriminate H. injection H as <-.
  apply same_ticket; cbn [wp set_sig]; try (rewrite E); try discriminate; try reflexivity.
  - assert (NA : ~ asleep s i) by (intros [A _]; congruence).
    destruct V. constructor; cbn [word_ nxt sig wp np log set_sig]; auto.
    + intros x [A B]. cbn in *. usp i x; [congruence|]. apply i_in0. split; assumption.
    + intros x A. pose proof (i_L0 x A) as Z. split; cbn; [apply Z|]. usp i x; [reflexivity|apply Z].
    + intros j x A. pose proof (i_C0 j x A) as Z. split; cbn; [apply Z|]. usp i x; [reflexivity|apply Z].
    + intros k. specialize (i_wp0 k). usp i k; [rewrite E; exact Logic.I|]. destruct (wp s k); cbn in *; rewrite ?upd_other by assumption; exact i_wp0.
    + intros k A B. usp i k; [discriminate|]. apply i_anS0; assumption.
  - cbn. apply upd_same.
Qed.

Lemma cancel_inv s L C i s' : Inv s L C -> cancel s i = Some s' -> Inv s' L C.
Proof.
  intros V H. unfold cancel in H. destruct (wp s i) eqn:E; try discriminate H. injection H as <-.
  apply same_ticket; try (rewrite E); try discriminate; try reflexivity; try exact Logic.I. exact V.
Qed.

Lemma set_nxt_inv s L C i o : Inv s L C -> ~ asleep s i -> (forall t snap, wp s i <> WStored t snap) -> Inv (set_nxt s i o) L C.
Proof.
  intros V NA NS. destruct V.
  assert (NL : ~ In i L) by (intros A; apply NA, i_L0, A).
  assert (NC : forall j, ~ In i (C j)) by (intros j A; apply NA; eapply i_C0; exact A).
  constructor; cbn [word_ nxt sig wp np log set_nxt]; auto.
  - apply chain_upd; assumption.
  - intros j. specialize (i_hand0 j). destruct (np s j); cbn in *; auto.
    + apply chain_upd; auto.
    + destruct i_hand0 as (r & E & H). exists r. split; [exact E|]. apply chain_upd; [|exact H].
      intros A. apply (NC j). rewrite E. right; exact A.
  - intros j. specialize (i_np0 j). destruct (np s j); cbn in *; auto.
    destruct i_np0 as (A & B & D & F). repeat split; auto. intros G H. rewrite upd_other; [auto|]. intros ->. contradiction.
  - intros k. specialize (i_wp0 k). destruct (wp s k) eqn:K; cbn in *; auto. destruct i_wp0 as (A & B & D). split; [exact A|]. split; [|exact D].
    rewrite upd_other; [exact B|]. intros ->. eapply NS; exact K.
Qed.
