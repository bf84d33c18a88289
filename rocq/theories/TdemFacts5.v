From Verif Require Import Py Vec VecDeriv Joint CplxFacts SolveDeriv RichardsFacts RichardsFacts2 RichardsFacts3 DcFacts Tdem SpecTdem TdemFacts TdemFacts2 TdemFacts3 TdemFacts4.
From Coq Require Import Reals Lra Lia.
Local Open Scope R_scope.

Section Deriv.
  Context (s : td) (SZ : sizes s) (m v : vec) (Lm : length m = t_p s) (Lv : length v = t_p s).
  Context (HJ : has_jacobian (t_p s) (t_nc s) (t_val s) m (mv (t_deriv s m))) (NR : SpecDc.near (t_p s) m (solvable s)).
  Context (src : source) (SO : src_ok s src).
  Notation mt := (mt m v).
  Let OK : solvable s m := SV s m v Lm Lv NR.
  Let mt0' : mt 0 = m := mt0 s m v Lm Lv.
  Let DS := D_S s SZ m v Lm Lv HJ.
  Let DI := D_I s SZ m v Lm Lv HJ NR.
  Lemma Adc_apply m' y : act false (getAdc s m') y = if isEB s then vadd (gradT s (vmul (Sg s m') (grad s y))) (vmul (1 :: vzero (t_nn s - 1)) y) else gradT s (vmul (SI s m') (grad s y)).
  Proof. unfold getAdc. destruct (isEB s); reflexivity. Qed.
  Definition phi' (q : vec) : vec := t_solve s (getAdc s m) (vopp (gradT s (if isEB s then Sd s m (grad s (phi s m q)) v else SId s m (grad s (phi s m q)) v))).
  Lemma D_phi q : vderiv (t_nn s) (fun t => phi s (mt t) q) 0 (phi' q).
  Proof.
    destruct (near_path s m v Lm Lv NR) as (e & He & Hn). pose proof (fun m' => len_phi s SZ m' q) as Lp. pose proof (lin_act _ _ _ (wf_Adc s SZ m)) as [LA0 _].
    assert (HS : solves (t_nn s) (t_solve s) (getAdc s m)) by apply OK.
    pose proof (len_grad s SZ) as LG. pose proof (len_gradT s SZ) as LGT. pose proof (len_Sd s SZ m) as LS. pose proof (len_SId s SZ m) as LI. pose proof (Sd_zero s SZ m v) as ZS. pose proof (SId_zero s SZ m v) as ZI.
    assert (NN : (0 < t_nn s)%nat) by apply SZ.
    eapply vderiv_eq; [|apply (solve_deriv_rhs (t_nn s) (fun t => act false (getAdc s (mt t))) (fun y => gradT s (if isEB s then Sd s m (grad s y) v else SId s m (grad s y) v)) (t_solve s (getAdc s m)) (fun t => phi s (mt t) q) (fun _ => gradT s q) (vzero (t_nn s))) with (e := e)].
    - cbv beta. rewrite mt0'. unfold phi'. f_equal. apply z_add. ln.
    - intros t. apply (lin_act _ _ _ (wf_Adc s SZ (mt t))).
    - intros y Ly. pose proof (LG y) as LGy. apply (vderiv_ext (t_nn s) (fun t => if isEB s then vadd (gradT s (vmul (Sg s (mt t)) (grad s y))) (vmul (1 :: vzero (t_nn s - 1)) y) else gradT s (vmul (SI s (mt t)) (grad s y)))); [intros t; symmetry; apply Adc_apply|].
      destruct (isEB s).
      + eapply vderiv_eq; [|apply vderiv_add; [apply D_gradT; [exact SZ|]; apply (DS (fun _ => grad s y)); apply vderiv_const; exact LGy|apply vderiv_const; apply ln_mul; [cbn [length]; rewrite vzero_length; lia|exact Ly]]].
        cbv beta. rewrite ZS by exact LGy. apply z_add. ln.
      + eapply vderiv_eq; [|apply D_gradT; [exact SZ|]; apply (DI (fun _ => grad s y)); apply vderiv_const; exact LGy]. cbv beta. rewrite ZI by exact LGy. reflexivity.
    - apply solves_lin; assumption.
    - intros y Ly. cbv beta. rewrite mt0'. apply (solves_left (t_nn s)); [apply LA0|exact HS|exact Ly].
    - intros t. apply Lp.
    - apply vderiv_const. apply LGT.
    - exact He.
    - intros t Ht. destruct (Hn t Ht) as (_ & _ & _ & H & _). apply (H (gradT s q)). apply LGT.
  Qed.
  Lemma lin_solve_dc : lin_map (t_nn s) (t_nn s) (t_solve s (getAdc s m)).
  Proof. pose proof (lin_act _ _ _ (wf_Adc s SZ m)) as [LA0 _]. apply solves_lin; [exact LA0|]. apply OK. Qed.
  Lemma D_e0 q : isEB s = true -> length q = nS s -> vderiv (nS s) (fun t => e0 s (mt t) q) 0 (e0_d s m (e0 s m q) v).
  Proof.
    intros K Lq. eapply vderiv_eq; [|apply D_opp; apply (D_grad s SZ); apply D_phi]. unfold phi', e0_d, e0. rewrite K.
    pose proof (len_grad s SZ (phi s m q)) as LG. pose proof (len_gradT s SZ) as LGT. assert (vopp (vopp (grad s (phi s m q))) = grad s (phi s m q)) as -> by (vext (nS s); ring).
    rewrite (lin_opp _ _ _ _ lin_solve_dc) by apply LGT. rewrite (lin_opp _ _ _ _ (L_grad s SZ)) by (apply lin_solve_dc; apply LGT). pose proof (len_grad s SZ (t_solve s (getAdc s m) (gradT s (Sd s m (grad s (phi s m q)) v)))). vext (nS s). ring.
  Qed.
  Lemma D_j0 q : isEB s = false -> length q = nS s -> vderiv (nS s) (fun t => j0 s (mt t) q) 0 (j0_d s m q v).
  Proof.
    intros K Lq. eapply vderiv_eq; [|apply D_opp; apply (DI (fun t => grad s (phi s (mt t) q))); apply (D_grad s SZ); apply D_phi]. cbv beta. unfold phi', j0_d, phi_d. rewrite K, mt0'.
    pose proof (len_gradT s SZ) as LGT. rewrite (lin_opp _ _ _ _ lin_solve_dc) by apply LGT. reflexivity.
  Qed.
  Lemma D_initial : vderiv (dim s) (fun t => initial s (mt t) src) 0 (initial_d s m src (initial s m src) v).
  Proof.
    clearbody DS DI. pose proof (fun m' => len_initial s SZ m' src SO) as LI. pose proof SO as [SO' _]. pose proof D_e0 as De. pose proof D_j0 as Dj. pose proof (len_s_e s SZ src 0 SO) as LE. pose proof OK as (_ & _ & _ & _ & OH).
    pose proof (SV s m v Lm Lv NR) as OK'. specialize (LI m) as LI0. unfold initial, initial_d in *. destruct (s_init src); [|apply vderiv_const; apply vzero_length].
    unfold dim, nS, isEB in *. destruct (t_form s) eqn:K; destruct (s_kind src) as [pp kk|q a g]; try (apply vderiv_const; exact LI0).
    - apply De; [reflexivity|apply SO'].
    - destruct g; [|apply vderiv_const; exact LI0]. destruct (OH eq_refl) as (HS & HL & HA & HC). pose proof (len_MuI s SZ) as LM. unfold nO, isEB in LM. rewrite K in LM.
      apply D_diag; [exact LM|]. apply (D_curlT s SZ). apply (vderiv_lin (t_nF s) (t_nF s) (t_solve s (t_mmr s))).
      + apply solves_lin; [|exact HS]. split; [apply (HL false)|]. split; [exact HA|exact HC].
      + eapply vderiv_eq; [|apply vderiv_add; [apply vderiv_const; exact LE|apply Dj; [reflexivity|apply SO']]]. apply z_addl.
        assert (L2 : length (j0_d s m q v) = t_nF s) by (apply (Dj q eq_refl); apply SO'). exact L2.
    - apply Dj; [reflexivity|apply SO'].
  Qed.
  Lemma dsolution_pure us : dsolution s m v src us = initial_d s m src (hd [] us) v :: psens s m v src 0 us (initial_d s m src (hd [] us) v) (t_steps s).
  Proof. unfold dsolution. cbv zeta. rewrite sens_pure by exact I. reflexivity. Qed.
  Lemma D_solution (AP : apart (t_thr s) (t_steps s)) i : (i <= nT s)%nat ->
    vderiv (dim s) (fun t => nth i (solution s (mt t) src) []) 0 (nth i (dsolution s m v src (solution s m src)) []).
  Proof.
    intros Hi. rewrite dsolution_pure. unfold solution. cbv zeta. cbn [hd]. rewrite march_pure by (auto).
    apply (vderiv_ext (dim s) (fun t => nth i (initial s (mt t) src :: pmarch s (mt t) src 0 (initial s (mt t) src) (t_steps s)) [])).
    { intros t. rewrite march_pure by auto. reflexivity. }
    eapply vderiv_eq; [|apply (D_march s SZ m v Lm Lv HJ NR src SO (t_steps s) (fun _ H => H) 0 (fun t => initial s (mt t) src) _ D_initial i Hi)].
    cbv beta. rewrite mt0'. reflexivity.
  Qed.

  (** ** Fields *)
  Lemma Sd_sub m' a b v' : length a = nS s -> length b = nS s -> Sd s m' (vsub a b) v' = vsub (Sd s m' a v') (Sd s m' b v').
  Proof. intros. rewrite !(Sd_eq s). pose proof (len_dS s SZ m' v'). vext (nS s). ring. Qed.
  Ltac push := 
    repeat first [ rewrite (lin_sub _ _ _ _ _ (L_curl s SZ)) by ln | rewrite (lin_sub _ _ _ _ _ (L_curlT s SZ)) by ln
                 | rewrite (proj1 (proj2 (L_curl s SZ))) by ln | rewrite (proj1 (proj2 (L_curlT s SZ))) by ln
                 | rewrite (lin_opp _ _ _ _ (L_curl s SZ)) by ln | rewrite (lin_opp _ _ _ _ (L_curlT s SZ)) by ln ].
  Lemma D_eB (K : t_form s = FormB) k z z' : vderiv (dim s) z 0 z' ->
    vderiv (t_nE s) (fun t => vsub (vmul (SI s (mt t)) (curlT s (vmul (t_Mu s) (z t)))) (vmul (SI s (mt t)) (s_e s src (time s k)))) 0
      (vadd (vmul (SI s m) (curlT s (vmul (t_Mu s) z'))) (eB_dm s m m src k (z 0) v)).
  Proof.
    clearbody DS DI. intros D. pose proof D as (Lz & Lz' & _). pose proof (Lz 0) as Lz0. pose proof (len_s_e s SZ src (time s k) SO) as LE. pose proof (len_dS s SZ m v) as LdS. pose proof DI as DI1. pose proof (SId_zero s SZ m v) as ZI.
    unfold eB_dm. lens s SZ K. set (se := s_e s src (time s k)) in *.
    eapply vderiv_eq; [|apply vderiv_sub; [apply (DI1 (fun t => curlT s (vmul (t_Mu s) (z t)))); apply (D_curlT s SZ); apply D_diag; [ln|exact D]|apply (DI1 (fun _ => se)); apply vderiv_const; ln]].
    cbv beta. rewrite ZI by ln. unfold SId. rewrite !(Sd_eq s). vext (t_nE s). ring.
  Qed.
  Lemma len_eB_dm (K : t_form s = FormB) k u : length u = dim s -> length (eB_dm s m m src k u v) = t_nE s.
  Proof. intros Lu. pose proof (len_s_e s SZ src (time s k) SO) as LE. unfold eB_dm. lens s SZ K. apply H8. ln. Qed.
  Lemma D_field k x z z' : no_field s x = None -> vderiv (dim s) z 0 z' ->
    vderiv (locs s x) (fun t => getfield s (mt t) src k x (z t)) 0 (vadd (field_du s m x z') (field_dm s m m src k x (z 0) v)).
  Proof.
    clearbody DS DI. intros NF D. pose proof D as (Lz & Lz' & _). pose proof (Lz 0) as Lz0. pose proof (len_s_e s SZ src (time s k) SO) as LE. pose proof (D_curl s SZ) as DC. pose proof (D_curlT s SZ) as DT. pose proof DS as DS1.
    pose proof (len_dS s SZ m v) as LdS. pose proof (fun K => D_eB K k z z' D) as DB. pose proof (fun K => len_eB_dm K k (z 0) Lz0) as LB. pose proof (Sd_sub m) as SS. pose proof (Sd_zero s SZ m v) as ZS. clear OK.
    unfold no_field, gloc, locs, on_edges, gloc, getfield, field_du, field_dm, dim in *. unfold getfield. destruct (t_form s) eqn:K; destruct x; try discriminate; cbn [negb]; lens s SZ K; set (se := s_e s src (time s k)) in *;
      try (specialize (DB eq_refl)); try (specialize (LB eq_refl)); try (eapply vderiv_eq; [|exact D]; symmetry; apply z_add; ln).
    - exact DB.
    - eapply vderiv_eq; [|apply D_diag; [ln|]; apply D_diag; [ln|]; exact D]. symmetry. apply z_add. ln.
    - eapply vderiv_eq; [|apply D_diag; [ln|]; apply (DS1 (fun t => vsub (vmul (SI s (mt t)) (curlT s (vmul (t_Mu s) (z t)))) (vmul (SI s (mt t)) se))); exact DB]. cbv beta. rewrite mt0'. rewrite (Sd_eq s). vext (t_nE s). ring.
    - eapply vderiv_eq; [|apply D_opp; apply DC; exact DB]. push. vext (t_nF s). ring.
    - eapply vderiv_eq; [|apply D_diag; [ln|]; apply D_diag; [ln|]; apply D_opp; apply DC; exact DB]. push. vext (t_nF s). ring.
    - eapply vderiv_eq; [|apply D_diag; [ln|]; apply DS1; exact D]. rewrite (Sd_eq s). vext (t_nE s). ring.
    - eapply vderiv_eq; [|apply D_opp; apply DC; exact D]. symmetry. apply z_add. ln.
    - eapply vderiv_eq; [|apply D_diag; [ln|]; apply D_diag; [ln|]; apply D_opp; apply DC; exact D]. symmetry. apply z_add. ln.
    - eapply vderiv_eq; [|apply D_diag; [ln|]; apply (DS1 (fun t => vsub (curl s (z t)) se)); apply vderiv_sub; [apply DC; exact D|apply vderiv_const; ln]]. cbv beta. rewrite (Sd_eq s). vext (t_nF s). ring.
    - eapply vderiv_eq; [|apply D_diag; [ln|]; apply D_diag; [ln|]; exact D]. symmetry. apply z_add. ln.
    - eapply vderiv_eq; [|apply vderiv_sub; [apply DC; exact D|apply vderiv_const; ln]]. vext (t_nF s). ring.
    - eapply vderiv_eq; [|apply D_diag; [ln|]; apply D_diag; [ln|]; apply vderiv_add; [apply D_diag; [ln|]; apply DT; apply (DS1 (fun _ => se)); apply vderiv_const; ln|apply D_opp; apply D_diag; [ln|]; apply DT; apply (DS1 (fun t => curl s (z t))); apply DC; exact D]].
      cbv beta. rewrite ZS by ln. rewrite SS by ln. pose proof (H7 m se v LE). pose proof (H7 m (curl s (z 0)) v ltac:(ln)). push. vext (t_nE s). ring.
    - eapply vderiv_eq; [|apply vderiv_add; [apply D_diag; [ln|]; apply DT; apply (DS1 (fun _ => se)); apply vderiv_const; ln|apply D_opp; apply D_diag; [ln|]; apply DT; apply (DS1 (fun t => curl s (z t))); apply DC; exact D]].
      cbv beta. rewrite ZS by ln. rewrite SS by ln. pose proof (H7 m se v LE). pose proof (H7 m (curl s (z 0)) v ltac:(ln)). push. vext (t_nE s). ring.
    - eapply vderiv_eq; [|apply D_diag; [ln|]; apply DS1; exact D]. rewrite (Sd_eq s). vext (t_nF s). ring.
    - eapply vderiv_eq; [|apply D_diag; [ln|]; apply D_diag; [ln|]; apply D_opp; apply D_diag; [ln|]; apply DT; apply DS1; exact D]. pose proof (H7 m (z 0) v ltac:(ln)). push. vext (t_nE s). ring.
    - eapply vderiv_eq; [|apply D_opp; apply D_diag; [ln|]; apply DT; apply DS1; exact D]. pose proof (H7 m (z 0) v ltac:(ln)). push. vext (t_nE s). ring.
  Qed.
End Deriv.
