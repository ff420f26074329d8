(** Concrete cases. *)
From Coq Require Import Strings.String.
From Verif Require Import Lib.Base Lib.Bytes HttpFrame.Model HttpFrame.Spec HttpFrame.Toy HttpFrame.ProofsToy.
From Coq Require Import Strings.Byte.
Open Scope Z_scope.

Lemma num_ok l n : l <> [] -> forallb (fun b => (48 <=? b2z b) && (b2z b <=? 57)) l = true ->
  fold_left (fun a b => 10 * a + (b2z b - 48)) l 0 = n -> decnum l n.
Proof.
  intros A B C. split; [exact A|]. split; [|exact C]. rewrite forallb_forall in B. apply Forall_forall. intros b Hb.
  specialize (B b Hb). lia.
Qed.
Ltac num := apply num_ok; [discriminate|vm_compute; reflexivity|vm_compute; reflexivity].

Lemma two_lengths : exists hb f v1 v2 e q rest, toy_head false hb = HOk (length hb) f /\ cl f = [v1; v2] /\
  decnum v1 1 /\ decnum v2 2 /\ e = q ++ rest /\ rest <> [] /\
  delivered _ (serve (toy false) 100 false (st_init (toy false)) [hb ++ e]) =
    Some ([{| flds := f; cont := q; eof := true; pushes := 1 |}], rest).
Proof.
  exists (text "POST / HTTP/1.1|Content-Length: 1|Content-Length: 2||").
  eexists _, (text "1"), (text "2"), (text "ab"), (text "a"), (text "b"). split; [vm_compute; reflexivity|].
  split; [vm_compute; reflexivity|]. split; [num|]. split; [num|]. split; [reflexivity|]. split; [discriminate|].
  vm_compute. reflexivity.
Qed.

Lemma any_coding : exists hb f, toy_head false hb = HOk (length hb) f /\ te f = [text "gzip"] /\
  delivered _ (serve (toy false) 100 false (st_init (toy false)) [hb ++ text "1|a|0||"]) =
    Some ([{| flds := f; cont := text "a"; eof := true; pushes := 1 |}], []).
Proof.
  exists (text "POST / HTTP/1.1|Transfer-Encoding: gzip||"). eexists.
  split; [vm_compute; reflexivity|]. split; [vm_compute; reflexivity|]. vm_compute. reflexivity.
Qed.

Lemma plus_one : exists hb f v e, toy_head false hb = HOk (length hb) f /\ cl f = [v] /\ (forall n, ~ decnum v n) /\ e <> [] /\
  delivered _ (serve (toy false) 100 false (st_init (toy false)) [hb ++ e]) =
    Some ([{| flds := f; cont := e; eof := true; pushes := 1 |}], []).
Proof.
  exists (text "POST / HTTP/1.1|Content-Length: +1||"). eexists _, (text "+1"), (text "a").
  split; [vm_compute; reflexivity|]. split; [vm_compute; reflexivity|].
  split; [intros n (_ & F & _); inversion F as [|x l H]; subst; vm_compute in H; destruct H as [H _]; apply H; reflexivity|].
  split; [discriminate|]. vm_compute. reflexivity.
Qed.

Lemma lf_split : exists L ws1 ws2 q rest, lawful L /\ concat ws1 = concat ws2 /\
  delivered L (serve L 24 false (st_init L) ws1) = None /\
  delivered L (serve L 24 false (st_init L) ws2) = Some ([q], rest).
Proof.
  exists (toy true), [text "GET / HTTP/1.1" ++ [x0a; x0a] ++ text "GET / HTTP/1.1"],
    [text "GET / HTTP/1.1" ++ [x0a; x0a]; text "GET / HTTP/1.1"].
  eexists _, _. split; [apply toy_lawful|]. split; [vm_compute; reflexivity|]. split; vm_compute; reflexivity.
Qed.

Lemma lost : exists w1 w2 q,
  delivered _ (serve (toy false) 100 false (st_init (toy false)) [w1]) = Some ([q], []) /\
  delivered _ (serve (toy false) 100 false (st_init (toy false)) [w1 ++ w2]) = None.
Proof.
  exists (text "GET / HTTP/1.1||"), (text "GET / HTTP/1.1|Content-Length: x||"). eexists.
  split; vm_compute; reflexivity.
Qed.

Definition response : msg :=
  {| m_head := text "HTTP/1.1 200 OK|Content-Length: 1||"; m_flds := [field_of "Content-Length" "1"];
     m_body := text "a"; m_load := text "a" |}.
Lemma response_ok : well_formed (toy_head false) response.
Proof.
  split; [vm_compute; reflexivity|]. apply (framed_length _ (text "1")); [vm_compute; reflexivity|vm_compute; reflexivity|num|vm_compute; reflexivity].
Qed.
Lemma second_waits : exists m, well_formed (toy_head false) m /\
  answers _ (receive (toy false) 100 false (cst_init (toy false)) [bytes_of m ++ bytes_of m]) =
    Some ([(m_flds m, m_load m)], bytes_of m).
Proof. exists response. split; [exact response_ok|]. vm_compute. reflexivity. Qed.

Lemma until_close : exists hb f e, toy_head false hb = HOk (length hb) f /\ te f = [] /\ cl f = [] /\ e <> [] /\
  answers _ (receive (toy false) 100 false (cst_init (toy false)) [hb; e]) = Some ([(f, [])], e).
Proof.
  exists (text "HTTP/1.1 200 OK|Connection: close||"). eexists _, (text "abc").
  split; [vm_compute; reflexivity|]. split; [vm_compute; reflexivity|]. split; [vm_compute; reflexivity|]. split; [discriminate|].
  vm_compute. reflexivity.
Qed.

Lemma interim : exists m, well_formed (toy_head false) m /\ m_load m <> [] /\
  answers _ (receive (toy false) 100 false (cst_init (toy false)) [text "HTTP/1.1 100 Continue||" ++ bytes_of m]) =
    Some ([([], [])], bytes_of m).
Proof. exists response. split; [exact response_ok|]. split; [discriminate|]. vm_compute. reflexivity. Qed.

(** A stream of two requests, one with a length and one in chunks. *)
Definition r1 : msg :=
  {| m_head := text "POST / HTTP/1.1|content-length: 2||"; m_flds := [field_of "content-length" "2"];
     m_body := text "ab"; m_load := text "ab" |}.
Definition r2 : msg :=
  {| m_head := text "PUT /x HTTP/1.1|Transfer-Encoding: chunked||"; m_flds := [field_of "Transfer-Encoding" "chunked"];
     m_body := text "2|cd|A|0123456789|0||"; m_load := text "cd0123456789" |}.
Lemma hex_ok l n : l <> [] -> (length l <=? 16)%nat = true -> forallb (fun b => match hex_digit b with Some _ => true | None => false end) l = true ->
  fold_left (fun a b => 16 * a + match hex_digit b with Some v => v | None => 0 end) l 0 = n -> hexnum l n.
Proof.
  intros A B C D. split; [exact A|]. split; [apply Nat.leb_le; exact B|]. split; [|exact D].
  rewrite forallb_forall in C. apply Forall_forall. intros b Hb E. specialize (C b Hb). simpl in C. rewrite E in C. discriminate.
Qed.
Ltac hex := apply hex_ok; [discriminate|vm_compute; reflexivity|vm_compute; reflexivity|vm_compute; reflexivity].
Lemma r_ok : Forall (well_formed (toy_head false)) [r1; r2].
Proof.
  constructor; [|constructor; [|constructor]].
  - split; [vm_compute; reflexivity|]. apply (framed_length _ (text "2")); [vm_compute; reflexivity|vm_compute; reflexivity|num|vm_compute; reflexivity].
  - split; [vm_compute; reflexivity|]. apply framed_chunked; [vm_compute; discriminate|vm_compute; reflexivity|].
    change (chunked (text "2" ++ crlf ++ text "cd" ++ crlf ++ text "A" ++ crlf ++ text "0123456789" ++ crlf ++ text "0" ++ crlf ++ crlf)
              (text "cd" ++ text "0123456789" ++ [])).
    apply chunked_more; [hex|discriminate|]. apply chunked_more; [hex|discriminate|]. apply chunked_end. hex.
Qed.
Lemma r_fit : Forall (fits 60 false) [r1; r2].
Proof. constructor; [|constructor; [|constructor]]; split; vm_compute; discriminate. Qed.
Lemma r_regular input : regular (toy_head false) 60 input.
Proof. left. exact toy_strict. Qed.
