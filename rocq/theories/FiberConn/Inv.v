(** The invariant of the connection, for programs that call Send() after
    StartHandshaking() and handlers that never finish inside OnWritable(). *)
From Coq Require Import List Bool Arith Lia.
From Verif.Lib Require Import Count.
From Verif.FiberConn Require Import Model.
Import ListNotations.

Scheme Equality for rst.
Scheme Equality for wst.
Scheme Equality for est.
Scheme Equality for sst.
Scheme Equality for task.

Definition cr (s : cn) (x : rst) : nat := cnt (rst_beq x) (rfs s).
Definition cw (s : cn) (x : wst) : nat := cnt (wst_beq x) (wfs s).
Definition ce (s : cn) (x : est) : nat := cnt (est_beq x) (efs s).
Definition cs (s : cn) (x : sst) : nat := cnt (sst_beq x) (snds s).
Definition ct (s : cn) (x : task) : nat := cnt (task_beq x) (tasks s).

Definition own_r (s : cn) : nat :=
  cr s RTop + cr s RHs + cr s RRead + cr s RNeedW + cr s RSupp + cr s RLeave + cr s RDec + ct s KResetR + ct s KSuppR.
Definition own_w (s : cn) : nat :=
  cw s WTop + cw s WHs + cw s WFlush + cw s WNeedR + cw s WSupp + cw s WLeave + cw s WDec + ct s KResetW + ct s KSuppW.
Definition own_e (s : cn) : nat := ce s EErr + ce s EDec.
Definition sb (s : cn) : nat := cs s SDone + cs s SLock + cs s SMutex + cs s SFlush.
Definition st_r (s : cn) : nat := match str s with StR => 1 | _ => 0 end.
Definition st_w (s : cn) : nat := match str s with StW => 1 | _ => 0 end.
Definition rest_r (s : cn) : nat := ct s KRestR + cw s WNeedR + st_r s.
Definition rest_w (s : cn) : nat := ct s KRestW + cr s RNeedW + st_w s + cs s SRest.
Definition supp_r (s : cn) : nat := cr s RNeedW + cr s RSupp + ct s KSuppR.
Definition supp_w (s : cn) : nat := cw s WNeedR + cw s WSupp + ct s KSuppW.
Definition ph_r (s : cn) : nat :=
  if done s then 1 else match str s with St0 | StFail => 0 | _ => if needr s then 0 else 1 end.
Definition ph_w (s : cn) : nat := match str s with St0 | StFail => 0 | _ => if needr s then 1 else 0 end.
Definition young (s : cn) : bool := match str s with St0 | StR | StW => true | _ => false end.

(** Who has the right to write, besides the events. *)
Definition wait (s : cn) : nat := b2n (pendw s) + sb s.

Record inv (s : cn) : Prop := {
  i_crash : crash s = false;
  i_r : revs s = 0 /\ own_r s = 0 \/ 1 <= revs s /\ own_r s = 1;
  i_w : wevs s = 0 /\ own_w s = 0 \/ 1 <= wevs s /\ own_w s = 1;
  i_e : eevs s = own_e s /\ own_e s <= b2n (eseen s);
  i_k : ct s KKill + b2n (ksub s) = b2n (killed s && en s);
  i_leave : if killed s then True else cr s RLeave + cw s WLeave = 0;
  i_q : if queued s then en s = false /\ revs s = 0 /\ wevs s = 0 /\ eevs s = 0 /\ cs s SFlush = 0 else True;
  i_c : cleaned s <= b2n (queued s);
  i_young : if young s then snds s = [] /\ qn s = 0 /\ pendw s = false else True;
  i_st0 : match str s with
          | St0 => done s = false /\ own_r s = 0 /\ own_w s = 0 /\ rcnt s = 0 /\ wcnt s = 0 /\ needr s = true
          | StFail => killed s = true
          | _ => True
          end;
  i_hw : cw s WHs <= b2n (negb (done s) && needr s);
  i_hr : cr s RHs <= b2n (negb (done s) && negb (needr s));
  i_nd : if done s then cr s RNeedW = 0
         else wait s <= 1 /\ wait s <= qn s /\
              (if killed s then True else qn s = 0 \/ wait s = 1) /\
              cs s SMutex = 0 /\ cs s SFlush = 0 /\ cs s SRest = 0 /\ cw s WFlush = 0 /\ cr s RRead = 0;
  i_off : if en s then True
          else killed s = true /\ rset s = false /\ wset s = false /\
               (if done s then cw s WFlush + sb s <= 1 /\ cw s WFlush + sb s <= qn s else True);
  i_on : if en s then
           (if rset s then 1 <= rcnt s else rcnt s = 0) /\ (if wset s then 1 <= wcnt s else wcnt s = 0) /\
           rcnt s + rest_r s = ph_r s + supp_r s /\
           own_r s <= rcnt s /\ own_w s <= wcnt s /\
           (if done s then
              supp_w s <= wcnt s + rest_w s /\ wcnt s + rest_w s + sb s <= 1 + supp_w s /\
              wcnt s + rest_w s + sb s <= qn s + supp_w s /\
              (if killed s then True else qn s = 0 \/ wcnt s + rest_w s + sb s = 1 + supp_w s)
            else wcnt s + rest_w s = ph_w s + supp_w s)
         else True
}.

Ltac prj := cbn [rcnt wcnt rset wset revs wevs eevs eseen en killed ksub queued cleaned tasks rfs wfs efs snds str
  done needr pendw qn crash set_rcnt set_wcnt set_rset set_wset set_revs set_wevs set_eevs set_eseen set_en set_killed
  set_ksub set_queued set_cleaned set_tasks set_rfs set_wfs set_efs set_snds set_str set_done set_needr set_pendw set_qn
  set_crash] in *.
Ltac dfn := unfold wait, own_r, own_w, own_e, sb, rest_r, rest_w, supp_r, supp_w, st_r, st_w, ph_r, ph_w, young, cr, cw, ce, cs, ct in *.
Ltac comp := rewrite ?cnt_app in *;
  cbn [cnt b2n rst_beq wst_beq est_beq sst_beq task_beq app Nat.add andb negb] in *.

Ltac prjg := cbn [rcnt wcnt rset wset revs wevs eevs eseen en killed ksub queued cleaned tasks rfs wfs efs snds str
  done needr pendw qn crash set_rcnt set_wcnt set_rset set_wset set_revs set_wevs set_eevs set_eseen set_en set_killed
  set_ksub set_queued set_cleaned set_tasks set_rfs set_wfs set_efs set_snds set_str set_done set_needr set_pendw set_qn
  set_crash].
Ltac dfng := unfold wait, own_r, own_w, own_e, sb, rest_r, rest_w, supp_r, supp_w, st_r, st_w, ph_r, ph_w, young, cr, cw, ce, cs, ct.
Ltac compg := rewrite ?cnt_app;
  cbn [cnt b2n rst_beq wst_beq est_beq sst_beq task_beq app Nat.add andb negb].

Lemma inv_start : inv start0.
Proof. constructor; dfn; cbn; repeat split; try lia; auto. Qed.
