From Verif Require Import Py Vec VecDeriv Frechet Joint Richards RichardsFacts RichardsFacts2 RichardsFacts3 LinSimFacts SolveDeriv Dc SpecDc DcFacts DcFacts2 DcFacts3 DcFacts4 Ip SpecIp.
From Coq Require Import Reals Lra Lia.
Local Open Scope R_scope.

Section Lin.
  Context (b : dc) (p : nat) (E : mat) (charge : receiver -> bool) (srcs : list source) (prop : vec).
  Let s := linear_ip b p E charge.
  Context (OK : ip_ok s srcs prop).
  Let vw := inherited s prop prop.
  Let SO : setup_ok vw srcs := proj1 OK.
  Let n := d_n b.
  Lemma vSV m : solves n (d_solve vw) (getA vw m).
  Proof. pose proof OK as (_ & _ & SV & _). exact SV. Qed.
  Lemma vSY m : symmetric n (getA vw m).
  Proof. pose proof OK as (_ & _ & _ & SY & _). exact SY. Qed.
  Definition F : dfields := fieldsP vw srcs [].
  Lemma JP_any m m' : JP vw srcs m = JP vw srcs m'. Proof. reflexivity. Qed.
  Lemma J0_any m m' v : J0 vw srcs m v = J0 vw srcs m' v. Proof. reflexivity. Qed.
  Lemma F_any m : fieldsP vw srcs m = F. Proof. reflexivity. Qed.

  Definition sc : vec := concat (map (fun src => concat (map (fun r => if charge r then map Rinv (meas vw src r (sol vw [] src)) else vconst (nD r) 1) (s_rx src))) srcs).
  Lemma scale_ok : scale_of s F srcs = Ok sc.
  Proof.
    unfold scale_of, sc. pose proof OK as (_ & _ & _ & _ & MN).
    rewrite (mapM_all _ (fun src => concat (map (fun r => if charge r then map Rinv (meas vw src r (sol vw [] src)) else vconst (nD r) 1) (s_rx src)))); [reflexivity|].
    intros src Hs. rewrite (mapM_all _ (fun r => if charge r then map Rinv (meas vw src r (sol vw [] src)) else vconst (nD r) 1)); [reflexivity|].
    intros r Hr. unfold scale_rx. cbn [ip_charge s linear_ip]. destruct (charge r) eqn:EC; [|reflexivity].
    destruct MN as [MN|[MN _]]; [|specialize (MN r); cbn in MN; congruence].
    assert (EU : U vw srcs = srcs) by (unfold U, used; cbn in MN; cbn [vw inherited d_mini ip_base s linear_ip]; rewrite MN; reflexivity).
    unfold F. rewrite (lookup_ok vw srcs SO [] src) by (rewrite EU; exact Hs). cbn [bind].
    change (rx_eval (ip_base s)) with (rx_eval vw). rewrite (rx_eval_ok vw (proj1 SO) src r) by (apply (rx_in vw srcs SO); [rewrite EU|]; assumption). reflexivity.
  Qed.

  Definition InvI (st : istate) : Prop :=
    t_srcs st = srcs /\ t_prop st = prop /\ (t_q st = None \/ t_q st = Some (map (src_eval b) (U vw srcs))) /\
    (t_A st = None \/ t_A st = Some prop) /\ (t_f st = None \/ t_f st = Some F /\ t_A st = Some prop) /\
    (t_scale st = None \/ t_scale st = Some sc /\ t_A st = Some prop) /\ (t_J st = None \/ exists J, t_J st = Some J /\ JP vw srcs [] = Ok J).
  Definition Ready (st : istate) : Prop := InvI st /\ t_A st = Some prop.
  Ltac inv H := destruct H as (Hs & Hp & Hq & HA & Hf & Hc & HJ).
  Ltac inv2 H := destruct H as (Hs2 & Hp2 & Hq2 & HA2 & Hf2 & Hc2 & HJ2).

  Lemma once_ok st : InvI st -> exists st', dc_fields_once s st = (st', Ok F) /\ Ready st' /\ t_f st' = Some F /\ t_pred st' = t_pred st.
  Proof.
    intros I. pose proof I as I0. inv I. unfold dc_fields_once. destruct Hf as [Hf|[Hf HA']]; rewrite Hf.
    - unfold dc_fields. set (q := match t_q st with Some q => q | None => _ end). assert (Eq : q = map (src_eval b) (U vw srcs)).
      { unfold q. destruct Hq as [Hq|Hq]; rewrite Hq; [|reflexivity]. unfold iused, U, used. cbn. rewrite Hs. reflexivity. }
      clearbody q. subst q. cbv zeta. match goal with |- context [iused s ?x] => assert (EU : iused s x = U vw srcs) by (unfold iused, U, used; cbn; rewrite Hs; reflexivity) end.
      rewrite EU. rewrite map_length, Nat.eqb_refl. eexists. split; [try (cbn [t_prop]; rewrite Hp); reflexivity|]. cbn. try rewrite Hp. split; [|auto].
      split; [|reflexivity]. unfold InvI; cbn. repeat (split; auto). destruct Hc as [|[]]; auto.
    - exists st. split; [reflexivity|]. split; [split; assumption|auto].
  Qed.
  Lemma get_scale_ok st : InvI st -> exists st', get_scale s st = (st', Ok sc) /\ Ready st' /\ t_pred st' = t_pred st.
  Proof.
    intros I. pose proof I as I0. inv I. unfold get_scale. destruct Hc as [Hc|[Hc HA']]; rewrite Hc.
    - destruct (once_ok st I0) as (st' & -> & [I' A'] & f' & P'). pose proof (proj1 I') as Hs'. rewrite Hs', scale_ok. eexists. split; [reflexivity|]. cbn. split; [|exact P'].
      split; [|exact A']. inv2 I'. unfold InvI; cbn. repeat (split; auto).
    - exists st. split; [reflexivity|]. split; [split; assumption|reflexivity].
  Qed.
  Lemma iset_ok st m : Ready st -> length m = p -> exists st', iset_model s st m = (st', Ok tt) /\ Ready st' /\ t_pred st' = t_pred st.
  Proof.
    intros [I A] Lm. unfold iset_model. cbn [ip_p s linear_ip]. rewrite Lm, Nat.eqb_refl. eexists. split; [reflexivity|]. split; [|reflexivity]. split; [exact I|exact A].
  Qed.
  Lemma view_eq st : Ready st -> view s st = vw.
  Proof. intros [I A]. inv I. unfold view. rewrite Hp, A. reflexivity. Qed.
  Lemma Ainv_ok st x : Ready st -> Ainv vw (dcst st) x = Ainv vw (stA srcs []) x.
  Proof. intros [I A]. unfold Ainv, dcst. cbn [st_A]. rewrite A. reflexivity. Qed.
  Lemma Jrows_ok st m : Ready st -> Jrows (view s st) (dcst st) m F = JP vw srcs [].
  Proof.
    intros R. rewrite (view_eq st R). change (JP vw srcs []) with (Jrows vw (stA srcs []) m F). unfold Jrows.
    assert (EU : used vw (dcst st) = used vw (stA srcs [])) by (apply used_eq; destruct R as [I _]; inv I; exact Hs). rewrite EU.
    erewrite over_ext; [reflexivity|]. intros. apply bind_ext. intros. apply mapM_ext. intros. rewrite (Ainv_ok st) by exact R. reflexivity.
  Qed.
  Lemma withJ_ok st m : Ready st -> length m = p -> exists st' J, getJ_with s st m F = (st', Ok J) /\ JP vw srcs [] = Ok J /\ Ready st' /\ t_pred st' = t_pred st.
  Proof.
    intros R Lm. unfold getJ_with. destruct (iset_ok st m R Lm) as (st1 & -> & R1 & P1). rewrite (Jrows_ok st1 m R1).
    destruct (t_J st1) as [J|] eqn:EJ.
    - destruct R1 as [I1 A1]. pose proof I1 as I1'. inv I1. destruct HJ as [HJ|(J' & HJ & Q)]; [congruence|]. exists st1, J. split; [reflexivity|]. split; [congruence|]. split; [split; assumption|exact P1].
    - destruct (JP_ok vw srcs SO (vzero p)) as (J & EP & _). { apply vzero_length. } { apply vSV. } { apply vSY. } change (JP vw srcs (vzero p)) with (JP vw srcs []) in EP. rewrite EP.
      eexists _, J. split; [reflexivity|]. split; [reflexivity|]. split; [|exact P1]. destruct R1 as [I1 A1]. split; [|exact A1]. inv I1. unfold InvI; cbn. repeat (split; auto). right. eauto.
  Qed.
  Lemma JPmv J v : JP vw srcs [] = Ok J -> length v = p -> mv J v = J0 vw srcs [] v.
  Proof.
    intros EJ Lv. destruct (JP_ok vw srcs SO (vzero p)) as (J' & EP & _ & H). { apply vzero_length. } { apply vSV. } { apply vSY. }
    change (JP vw srcs (vzero p)) with (JP vw srcs []) in EP. rewrite EJ in EP. injection EP as <-. apply H. exact Lv.
  Qed.
  Definition jv (v : vec) : vec := if d_storeJ b then match JP vw srcs [] with Ok J => mv J v | Err _ => [] end else J0 vw srcs [] v.
  Lemma jv_ok v : length v = p -> jv v = J0 vw srcs [] v.
  Proof.
    intros Lv. unfold jv. destruct (d_storeJ b); [|reflexivity]. destruct (JP_ok vw srcs SO (vzero p)) as (J' & EP & _ & H). { apply vzero_length. } { apply vSV. } { apply vSY. }
    change (JP vw srcs (vzero p)) with (JP vw srcs []) in EP. rewrite EP. apply H. exact Lv.
  Qed.
  Lemma super_ok st m v : Ready st -> length m = p -> exists st', super_Jvec s st m v F = (st', Ok (jv v)) /\ Ready st' /\ t_pred st' = t_pred st.
  Proof.
    intros R Lm. unfold super_Jvec. destruct (iset_ok st m R Lm) as (st1 & -> & R1 & P1). unfold jv. cbn [ip_base s linear_ip]. destruct (d_storeJ b) eqn:ES.
    - destruct (withJ_ok st1 m R1 Lm) as (st2 & J & E2 & EJ & R2 & P2). unfold s in *. rewrite E2, EJ. cbn. eexists. split; [reflexivity|]. split; [exact R2|congruence].
    - exists st1. split; [|auto]. rewrite (view_eq st1 R1). assert (EU : iused s st1 = U vw srcs) by (unfold iused, U; change (used (ip_base s)) with (used vw); apply used_eq; destruct R1 as [I _]; inv I; exact Hs).
      rewrite EU. pose proof (JvecP_ok vw srcs SO (vzero p) v) as Q. unfold JvecP in Q. cbn [d_p vw inherited ip_p s linear_ip] in Q. rewrite vzero_length, Nat.eqb_refl in Q.
      change (d_storeJ vw) with (d_storeJ b) in Q. rewrite ES in Q. specialize (Q eq_refl eq_refl). f_equal.
      transitivity (Ok (J0 vw srcs (vzero p) v)); [|reflexivity]. rewrite <- Q. erewrite over_ext; [reflexivity|]. intros. rewrite (Ainv_ok st1) by exact R1. reflexivity.
  Qed.
  Lemma iset_bad st m : length m <> p -> iset_model s st m = (st, Err ValueError).
  Proof. intros L. unfold iset_model. cbn [ip_p s linear_ip]. apply Nat.eqb_neq in L. rewrite L. reflexivity. Qed.
  Lemma super_bad st m v : length m <> p -> super_Jvec s st m v F = (st, Err ValueError).
  Proof. intros L. unfold super_Jvec. rewrite (iset_bad st m L). reflexivity. Qed.
  Lemma set_pred_ready st d : Ready st -> Ready (mkIst (t_srcs st) (t_prop st) (t_A st) (t_q st) (t_model st) (t_J st) (t_gtg st) (t_f st) d (t_scale st)).
  Proof. intros [I A]. split; [exact I|exact A]. Qed.
  Lemma ifields_ok st m : InvI st -> length m = p -> exists st', ifields s st m = (st', Ok F) /\ Ready st' /\ t_pred st' = Some (vmul sc (jv m)).
  Proof.
    intros I Lm. unfold ifields. destruct (once_ok st I) as (st1 & -> & R1 & _ & _). unfold iJvec_with. destruct (get_scale_ok st1 (proj1 R1)) as (st2 & -> & R2 & _).
    destruct (super_ok st2 m m R2 Lm) as (st3 & -> & R3 & _). cbn [bind]. eexists. split; [reflexivity|]. split; [apply (set_pred_ready st3); exact R3|reflexivity].
  Qed.
  Lemma ifields_bad st m : InvI st -> length m <> p -> exists st', ifields s st m = (st', Err ValueError) /\ Ready st'.
  Proof.
    intros I Lm. unfold ifields. destruct (once_ok st I) as (st1 & -> & R1 & _ & _). unfold iJvec_with. destruct (get_scale_ok st1 (proj1 R1)) as (st2 & -> & R2 & _).
    rewrite (super_bad st2 m m Lm). cbn [bind]. eauto.
  Qed.
  Definition InvG (f : option dfields) := f = None \/ f = Some F.
  Lemma igiven_ok st m f : InvI st -> (f = Some F -> Ready st) -> InvG f -> length m = p -> exists st', igiven s st m f = (st', Ok F) /\ Ready st'.
  Proof.
    intros I R [->| ->] Lm; cbn [igiven].
    - destruct (ifields_ok st m I Lm) as (st' & -> & R' & _). eauto.
    - exists st. auto.
  Qed.
  Lemma igiven_bad st m f : Ready st -> InvG f -> length m <> p -> (exists st', igiven s st m f = (st', Err ValueError) /\ Ready st') \/ igiven s st m f = (st, Ok F).
  Proof.
    intros I [->| ->] Lm; cbn [igiven]; [left|right; reflexivity]. apply ifields_bad; [apply I|exact Lm].
  Qed.
  Lemma iJvec_ok st m v f : InvI st -> InvG f -> length m = p -> exists st', iJvec s st m v f = (st', Ok (vmul sc (jv v))) /\ Ready st'.
  Proof.
    intros I G Lm. unfold iJvec. destruct (get_scale_ok st I) as (st1 & -> & R1 & _). destruct (igiven_ok st1 m f (proj1 R1) (fun _ => R1) G Lm) as (st2 & -> & R2).
    destruct (super_ok st2 m v R2 Lm) as (st3 & -> & R3 & _). cbn. eauto.
  Qed.
  Lemma iJvec_bad st m v f : InvI st -> InvG f -> length m <> p -> exists st', iJvec s st m v f = (st', Err ValueError) /\ Ready st'.
  Proof.
    intros I G Lm. unfold iJvec. destruct (get_scale_ok st I) as (st1 & -> & R1 & _). destruct (igiven_bad st1 m f R1 G Lm) as [(st2 & -> & R2)| ->]; [eauto|].
    rewrite (super_bad st1 m v Lm). cbn. eauto.
  Qed.
  Definition jt (w : vec) : result vec := JtvecP vw srcs (vzero p) (vmul w sc).
  Lemma iJtvec_ok st m w f : InvI st -> InvG f -> length m = p -> exists st', iJtvec s st m w f = (st', jt w) /\ Ready st'.
  Proof.
    intros I G Lm. unfold iJtvec. destruct (get_scale_ok st I) as (st1 & -> & R1 & _). destruct (igiven_ok st1 m f (proj1 R1) (fun _ => R1) G Lm) as (st2 & -> & R2).
    destruct (iset_ok st2 m R2 Lm) as (st3 & -> & R3 & _). unfold jt, JtvecP. change (d_p vw) with p. change (d_storeJ vw) with (d_storeJ b). change (d_storeJ (ip_base s)) with (d_storeJ b). rewrite vzero_length, Nat.eqb_refl. destruct (d_storeJ b) eqn:ES.
    - destruct (withJ_ok st3 m R3 Lm) as (st4 & J & E4 & EJ & R4 & _). rewrite E4. change (JP vw srcs (vzero p)) with (JP vw srcs []). rewrite EJ. cbn [bind]. exists st4. split; [reflexivity|exact R4].
    - exists st3. split; [|exact R3]. pose proof (view_eq st3 R3) as V. rewrite V. rewrite Lm.
      assert (EU : iused s st3 = U vw srcs) by (unfold iused, U; change (used (ip_base s)) with (used vw); apply used_eq; destruct R3 as [I3 _]; inv I3; exact Hs). rewrite EU. f_equal.
      assert (G0 : forall src u rs w' acc, jt_rx vw (dcst st3) m src u rs w' acc = jt_rx vw (stA srcs (vzero p)) (vzero p) src u rs w' acc).
      { intros src u rs. induction rs as [|r rs IH]; intros w' acc; [reflexivity|]. cbn [jt_rx]. destruct (rx_derivT vw src r _); [|reflexivity]. cbn [bind]. rewrite (Ainv_ok st3) by exact R3. cbn [Ainv stA st_A bind]. apply IH. }
      assert (G1 : forall l w' acc, jt_src vw (dcst st3) m F l w' acc = jt_src vw (stA srcs (vzero p)) (vzero p) F l w' acc).
      { intros l. induction l as [|src l IH]; intros w' acc; [reflexivity|]. cbn [jt_src]. destruct (lookup F src); [|reflexivity]. cbn [bind]. rewrite G0. destruct (jt_rx _ _ _ _ _ _ _ _); [|reflexivity]. cbn [bind]. apply IH. }
      apply G1.
  Qed.
  Lemma iJtvec_bad st m w f : InvI st -> InvG f -> length m <> p -> exists st', iJtvec s st m w f = (st', Err ValueError) /\ Ready st'.
  Proof.
    intros I G Lm. unfold iJtvec. destruct (get_scale_ok st I) as (st1 & -> & R1 & _). destruct (igiven_bad st1 m f R1 G Lm) as [(st2 & -> & R2)| ->]; [eauto|].
    rewrite (iset_bad st1 m Lm). eauto.
  Qed.
  Lemma iset_inv st m : InvI st -> length m = p -> exists st', iset_model s st m = (st', Ok tt) /\ InvI st' /\ t_A st' = t_A st.
  Proof. intros I Lm. unfold iset_model. cbn [ip_p s linear_ip]. rewrite Lm, Nat.eqb_refl. eexists. split; [reflexivity|]. split; [exact I|reflexivity]. Qed.
  Lemma igetJ_ok st m f : InvI st -> (f = Some F -> Ready st) -> InvG f -> length m = p -> exists st' J, igetJ s st m f = (st', Ok J) /\ JP vw srcs [] = Ok J /\ InvI st'.
  Proof.
    intros I RF G Lm. unfold igetJ. destruct (iset_inv st m I Lm) as (st1 & -> & I1 & A1). destruct (t_J st1) as [J|] eqn:EJ.
    - pose proof I1 as I1'. inv I1. destruct HJ as [HJ|(J' & HJ & Q)]; [congruence|]. exists st1, J. split; [reflexivity|]. split; [congruence|exact I1'].
    - destruct (igiven_ok st1 m f I1 ltac:(intros e; split; [exact I1|rewrite A1; apply (RF e)]) G Lm) as (st2 & -> & R2). destruct (withJ_ok st2 m R2 Lm) as (st3 & J & -> & EP & R3 & _). exists st3, J. split; [reflexivity|]. split; [exact EP|apply R3].
  Qed.
  Lemma igetJ_bad st m f : length m <> p -> igetJ s st m f = (st, Err ValueError).
  Proof. intros Lm. unfold igetJ. rewrite (iset_bad st m Lm). reflexivity. Qed.
  Lemma igetJ_inv st m f : InvI st -> (f = Some F -> Ready st) -> InvG f -> InvI (fst (igetJ s st m f)) /\ (t_A st = Some prop -> t_A (fst (igetJ s st m f)) = Some prop).
  Proof.
    intros I RF G. destruct (Nat.eq_dec (length m) p) as [Lm|Lm]; [|rewrite (igetJ_bad st m f Lm); auto].
    unfold igetJ. destruct (iset_inv st m I Lm) as (st1 & -> & I1 & A1). destruct (t_J st1) as [J|] eqn:EJ; [split; [exact I1|cbn [fst]; congruence]|].
    destruct (igiven_ok st1 m f I1 ltac:(intros e; split; [exact I1|rewrite A1; apply (RF e)]) G Lm) as (st2 & -> & R2). destruct (withJ_ok st2 m R2 Lm) as (st3 & J & -> & EP & R3 & _). cbn [fst]. split; [apply R3|intros _; apply R3].
  Qed.
  Lemma idpred_ok st m : InvI st -> length m = p -> exists st', idpred s st m None = (st', Ok (Some (vmul sc (jv m)))) /\ Ready st'.
  Proof. intros I Lm. unfold idpred. cbn [igiven]. destruct (ifields_ok st m I Lm) as (st' & -> & R & ->). eauto. Qed.
  Lemma idpred_bad st m : InvI st -> length m <> p -> exists st', idpred s st m None = (st', Err ValueError) /\ Ready st'.
  Proof. intros I Lm. unfold idpred. cbn [igiven]. destruct (ifields_bad st m I Lm) as (st' & -> & R). eauto. Qed.
  Lemma init_inv : InvI (iinit srcs prop).
  Proof. unfold InvI; cbn. repeat (split; auto). Qed.
End Lin.
