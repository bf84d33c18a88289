From Verif Require JointFacts.
From Verif Require Import Py Vec VecDeriv Frechet Joint Richards RichardsFacts RichardsFacts2 RichardsFacts3 LinSimFacts SolveDeriv Dc SpecDc DcFacts DcFacts2 DcFacts3 DcFacts4 Ip SpecIp IpFacts EmpirFacts Dc1dFacts5.
From Coq Require Import Reals Lra Lia.
Local Open Scope R_scope.

Lemma c78_history b p E charge srcs prop h m v w g : let s := linear_ip b p E charge in ip_ok s srcs prop ->
  let st := fst (ihistory s srcs prop h) in let l := snd (ihistory s srcs prop h) in
  snd (idpred s st m None) = snd (idpred s (iinit srcs prop) m None) /\
  snd (iJvec s st m v (ipick l g)) = snd (iJvec s (iinit srcs prop) m v None) /\
  snd (iJtvec s st m w (ipick l g)) = snd (iJtvec s (iinit srcs prop) m w None) /\
  snd (igetJ s st m (ipick l g)) = snd (igetJ s (iinit srcs prop) m None).
Proof.
  intros s OK. set (I := InvI b p E charge srcs prop). set (Rd := Ready b p E charge srcs prop). set (f := F b p E charge srcs prop).
  assert (H : forall h stl, I (fst stl) /\ (snd stl = None \/ snd stl = Some f /\ Rd (fst stl)) -> let r := fold_left (do_icall s) h stl in I (fst r) /\ (snd r = None \/ snd r = Some f /\ Rd (fst r))).
  { clear h. induction h as [|c h IH]; intros stl Hi; [exact Hi|]. cbn [fold_left]. apply IH. clear IH. destruct stl as [st l]. cbn [fst snd] in Hi. destruct Hi as [HI HL].
    assert (GI : forall g, InvG b p E charge srcs prop (ipick l g)). { intros []; cbn; [|left; reflexivity]. destruct HL as [->|[-> _]]; [left|right]; reflexivity. }
    assert (GR : forall g, ipick l g = Some f -> Rd st). { intros [] e; cbn in e; [|discriminate]. destruct HL as [->|[-> R]]; [discriminate|exact R]. }
    assert (Fin : forall st', Rd st' -> I st' /\ (l = None \/ l = Some f /\ Rd st')). { intros st' R'. split; [apply R'|]. destruct HL as [HL|[HL _]]; auto. }
    destruct c as [m0|m0|m0 v0 g0|m0 w0 g0|m0 g0|m0 W0 g0]; cbn [do_icall].
    - destruct (Nat.eq_dec (length m0) p) as [L|L].
      + destruct (ifields_ok b p E charge srcs prop OK st m0 HI L) as (st' & Eq & R' & _). fold s in Eq. rewrite Eq. cbn. split; [apply R'|]. right. split; [reflexivity|exact R'].
      + destruct (ifields_bad b p E charge srcs prop OK st m0 HI L) as (st' & Eq & R'). fold s in Eq. rewrite Eq. apply Fin; exact R'.
    - cbn [fst snd]. destruct (Nat.eq_dec (length m0) p) as [L|L].
      + destruct (idpred_ok b p E charge srcs prop OK st m0 HI L) as (st' & Eq & R'). fold s in Eq. rewrite Eq. apply Fin; exact R'.
      + destruct (idpred_bad b p E charge srcs prop OK st m0 HI L) as (st' & Eq & R'). fold s in Eq. rewrite Eq. apply Fin; exact R'.
    - cbn [fst snd]. destruct (Nat.eq_dec (length m0) p) as [L|L].
      + destruct (iJvec_ok b p E charge srcs prop OK st m0 v0 _ HI (GI g0) L) as (st' & Eq & R'). fold s in Eq. rewrite Eq. apply Fin; exact R'.
      + destruct (iJvec_bad b p E charge srcs prop OK st m0 v0 _ HI (GI g0) L) as (st' & Eq & R'). fold s in Eq. rewrite Eq. apply Fin; exact R'.
    - cbn [fst snd]. destruct (Nat.eq_dec (length m0) p) as [L|L].
      + destruct (iJtvec_ok b p E charge srcs prop OK st m0 w0 _ HI (GI g0) L) as (st' & Eq & R'). fold s in Eq. rewrite Eq. apply Fin; exact R'.
      + destruct (iJtvec_bad b p E charge srcs prop OK st m0 w0 _ HI (GI g0) L) as (st' & Eq & R'). fold s in Eq. rewrite Eq. apply Fin; exact R'.
    - cbn [fst snd]. destruct (igetJ_inv b p E charge srcs prop OK st m0 _ HI (GR g0) (GI g0)) as (Q1 & Q2). fold s in Q1, Q2. split; [exact Q1|]. destruct HL as [HL|[HL R]]; [left; exact HL|right]. split; [exact HL|]. split; [exact Q1|]. apply Q2. apply R.
    - cbn [fst snd]. unfold igetJtJdiag. destruct (t_gtg st). { split; [exact HI|exact HL]. }
      destruct (igetJ_inv b p E charge srcs prop OK st m0 _ HI (GR g0) (GI g0)) as (Q1 & Q2). fold s in Q1, Q2. destruct (igetJ s st m0 (ipick l g0)) as [st1 [J|e]]; cbn [fst snd] in *.
      + destruct (get_scale_ok b p E charge srcs prop OK st1 Q1) as (st2 & Eq & R2 & _). fold s in Eq. rewrite Eq. cbn [fst]. apply Fin. destruct R2 as [R2 A2]. split; [exact R2|exact A2].
      + split; [exact Q1|]. destruct HL as [HL|[HL R]]; [left; exact HL|right]. split; [exact HL|]. split; [exact Q1|]. apply Q2. apply R. }
  specialize (H h (iinit srcs prop, None) (conj (init_inv b p E charge srcs prop) (or_introl eq_refl))). fold (ihistory s srcs prop h) in H. cbv zeta in H.
  destruct (ihistory s srcs prop h) as [st l]. cbn [fst snd] in *. destruct H as [HI HL].
  assert (GI : InvG b p E charge srcs prop (ipick l g)). { destruct g; cbn; [|left; reflexivity]. destruct HL as [->|[-> _]]; [left|right]; reflexivity. }
  assert (GR : ipick l g = Some f -> Rd st). { destruct g; cbn; intros e; [|discriminate]. destruct HL as [->|[-> R]]; [discriminate|exact R]. }
  pose proof (init_inv b p E charge srcs prop) as I0. assert (G0 : InvG b p E charge srcs prop None) by (left; reflexivity).
  destruct (Nat.eq_dec (length m) p) as [L|L].
  - destruct (idpred_ok b p E charge srcs prop OK st m HI L) as (? & E1 & _). destruct (idpred_ok b p E charge srcs prop OK _ m I0 L) as (? & E2 & _).
    destruct (iJvec_ok b p E charge srcs prop OK st m v _ HI GI L) as (? & E3 & _). destruct (iJvec_ok b p E charge srcs prop OK _ m v _ I0 G0 L) as (? & E4 & _).
    destruct (iJtvec_ok b p E charge srcs prop OK st m w _ HI GI L) as (? & E5 & _). destruct (iJtvec_ok b p E charge srcs prop OK _ m w _ I0 G0 L) as (? & E6 & _).
    destruct (igetJ_ok b p E charge srcs prop OK st m _ HI GR GI L) as (? & J1 & E7 & Q7 & _). destruct (igetJ_ok b p E charge srcs prop OK _ m None I0 ltac:(discriminate) G0 L) as (? & J2 & E8 & Q8 & _).
    fold s in E1, E2, E3, E4, E5, E6, E7, E8. rewrite E1, E2, E3, E4, E5, E6, E7, E8. cbn [snd]. repeat split. congruence.
  - destruct (idpred_bad b p E charge srcs prop OK st m HI L) as (? & E1 & _). destruct (idpred_bad b p E charge srcs prop OK _ m I0 L) as (? & E2 & _).
    destruct (iJvec_bad b p E charge srcs prop OK st m v _ HI GI L) as (? & E3 & _). destruct (iJvec_bad b p E charge srcs prop OK _ m v _ I0 G0 L) as (? & E4 & _).
    destruct (iJtvec_bad b p E charge srcs prop OK st m w _ HI GI L) as (? & E5 & _). destruct (iJtvec_bad b p E charge srcs prop OK _ m w _ I0 G0 L) as (? & E6 & _).
    pose proof (igetJ_bad b p E charge st m (ipick l g) L) as E7. pose proof (igetJ_bad b p E charge (iinit srcs prop) m None L) as E8.
    fold s in E1, E2, E3, E4, E5, E6, E7, E8. rewrite E1, E2, E3, E4, E5, E6, E7, E8. repeat split.
Qed.

Section Lin.
  Context (b : dc) (p : nat) (E : mat) (charge : receiver -> bool) (srcs : list source) (prop : vec).
  Let s := linear_ip b p E charge.
  Context (OK : ip_ok s srcs prop).
  Let vw := inherited s prop prop.
  Let SO : setup_ok vw srcs := proj1 OK.
  Let nd := data_size vw srcs.
  Let c := sc b p E charge srcs prop.
  Lemma sc_length : length c = nd.
  Proof.
    unfold c, sc. pose proof OK as (_ & _ & _ & _ & MN).
    assert (RL : forall src r, In src srcs -> In r (s_rx src) -> length (if charge r then map Rinv (meas vw src r (sol vw [] src)) else vconst (nD r) 1) = nD r).
    { intros src r H1 H2. destruct (charge r) eqn:EC; [|unfold vconst; apply repeat_length]. rewrite map_length. apply (meas_length vw (proj1 SO)). destruct MN as [MN|[MN _]]; [|specialize (MN r); cbn in MN; congruence].
      apply (rx_in vw srcs SO); [|exact H2]. unfold U, used. cbn in MN. cbn. rewrite MN. exact H1. }
    pose proof (loop_len (fun src r => if charge r then map Rinv (meas vw src r (sol vw [] src)) else vconst (nD r) 1) srcs RL) as LL. unfold loop in LL. unfold vw in LL. unfold s in LL. rewrite LL.
    unfold nd, data_size. cbn. destruct MN as [MN|[_ MN]].
    - cbn in MN. rewrite MN. reflexivity.
    - unfold data_size in MN. cbn in MN. exact MN.
  Qed.
  Lemma jv_lin : lin_map p nd (J0 vw srcs []).
  Proof.
    destruct (JP_ok vw srcs SO (vzero p)) as (J & EP & HJ & H). { apply vzero_length. } { apply (vSV b p E charge srcs prop OK). } { apply (vSY b p E charge srcs prop OK). }
    change (forall v, length v = p -> mv J v = J0 vw srcs [] v) in H. destruct (lin_mv _ _ _ HJ) as (L1 & L2 & L3). change (d_p vw) with p in *.
    split; [|split]; intros.
    - rewrite <- H by assumption. apply L1; assumption.
    - rewrite <- !H by (assumption || ln). apply L2; assumption.
    - rewrite <- !H by (assumption || ln). apply L3; assumption.
  Qed.
  Lemma c78_jacobian m : length m = p ->
    (exists d, snd (idpred s (iinit srcs prop) m None) = Ok (Some d)) /\ (forall v, length v = p -> exists j, snd (iJvec s (iinit srcs prop) m v None) = Ok j) /\
    has_jacobian p nd (fun m' => predicted (snd (idpred s (iinit srcs prop) m' None))) m (fun v => val [] (snd (iJvec s (iinit srcs prop) m v None))).
  Proof.
    intros Lm. pose proof (init_inv b p E charge srcs prop) as I0. assert (G0 : InvG b p E charge srcs prop None) by (left; reflexivity).
    assert (D : forall x, length x = p -> snd (idpred s (iinit srcs prop) x None) = Ok (Some (vmul c (J0 vw srcs [] x)))).
    { intros x Lx. destruct (idpred_ok b p E charge srcs prop OK _ x I0 Lx) as (? & Eq & _). unfold s. rewrite Eq. cbn [snd]. rewrite (jv_ok b p E charge srcs prop OK x Lx). reflexivity. }
    assert (J : forall v, length v = p -> snd (iJvec s (iinit srcs prop) m v None) = Ok (vmul c (J0 vw srcs [] v))).
    { intros v Lv. destruct (iJvec_ok b p E charge srcs prop OK _ m v _ I0 G0 Lm) as (? & Eq & _). unfold s. rewrite Eq. cbn [snd]. rewrite (jv_ok b p E charge srcs prop OK v Lv). reflexivity. }
    split; [eexists; apply D; exact Lm|]. split; [intros; eexists; apply J; assumption|].
    intros v Lv. rewrite (J v Lv). cbn [val]. eapply vderiv_ext with (f := fun t => vmul c (J0 vw srcs [] (vadd m (vscale t v)))); [intros t; cbv beta; rewrite D by ln; reflexivity|].
    apply (vderiv_lin nd nd (vmul c) (fun t => J0 vw srcs [] (vadd m (vscale t v)))); [apply lin_vmul; apply sc_length|].
    apply (vderiv_lin p nd (J0 vw srcs []) (fun t => vadd m (vscale t v))); [apply jv_lin|]. apply vderiv_line; assumption.
  Qed.
  Lemma c78_adjoint m v w : length m = p -> length v = p -> length w = nd ->
    exists j a, snd (iJvec s (iinit srcs prop) m v None) = Ok j /\ snd (iJtvec s (iinit srcs prop) m w None) = Ok a /\ length j = nd /\ length a = p /\ dot w j = dot a v.
  Proof.
    intros Lm Lv Lw. pose proof (init_inv b p E charge srcs prop) as I0. assert (G0 : InvG b p E charge srcs prop None) by (left; reflexivity).
    destruct (iJvec_ok b p E charge srcs prop OK _ m v _ I0 G0 Lm) as (? & E1 & _). destruct (iJtvec_ok b p E charge srcs prop OK _ m w _ I0 G0 Lm) as (? & E2 & _).
    unfold s. rewrite E1, E2. cbn [snd]. rewrite (jv_ok b p E charge srcs prop OK v Lv). pose proof sc_length as Lc. fold c.
    assert (Lwc : length (vmul w c) = nd) by ln.
    destruct (Jtvec_val vw srcs SO (vzero p) (vmul w c)) as (a & Ea & La & Q). { apply vzero_length. } { exact Lwc. } { apply (vSV b p E charge srcs prop OK). } { apply (vSY b p E charge srcs prop OK). }
    rewrite Jtvec_eq in Ea. unfold jt. fold s. fold vw. fold c. rewrite Ea. eexists _, a. split; [reflexivity|]. split; [reflexivity|].
    pose proof (J0_length vw srcs SO [] v) as LJ. fold nd in LJ. split; [ln|]. split; [exact La|]. rewrite (Q v Lv). change (J0 vw srcs (vzero p) v) with (J0 vw srcs [] v).
    symmetry. apply JointFacts.dot_vmul_l.
  Qed.
End Lin.
