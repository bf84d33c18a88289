From Verif Require Import Py Vec VecDeriv Joint CplxFacts SolveDeriv RichardsFacts RichardsFacts2 RichardsFacts3 DcFacts DcFacts4 Tdem SpecTdem TdemFacts TdemFacts2 TdemFacts3 TdemFacts4 TdemFacts5 TdemFacts6 TdemFacts7.
From Coq Require Import Reals Lra Lia.
Local Open Scope R_scope.

Section Adjoint.
  Context (s : td) (srcs : list source) (ST : setup_ok s srcs) (m v : vec) (OK : solvable s m) (Lv : length v = t_p s).
  Lemma SZ : sizes s. Proof. apply ST. Qed.
  Lemma Lm : length m = t_p s. Proof. apply OK. Qed.
  Lemma len_ADT dt u w : length (getADerivT s dt m u w) = t_p s.
  Proof. pose proof (len_SdT s SZ m) as L1. pose proof (len_SIdT s SZ m) as L2. pose proof Lm. unfold getADerivT. destruct (t_form s); try apply ln_scale; first [apply L1; assumption | apply L2; assumption]. Qed.
  Lemma len_AsubDT dt u w : length (getAsubDerivT s dt m u w) = t_p s.
  Proof. pose proof (len_SdT s SZ m) as L1. pose proof Lm. unfold getAsubDerivT. destruct (t_form s); try apply vzero_length. apply ln_scale. apply L1. assumption. Qed.
  Lemma len_RHSDT k src w : length (getRHSDerivT s k m src w) = t_p s.
  Proof. pose proof (len_SdT s SZ m) as L1. pose proof (len_SIdT s SZ m) as L2. pose proof Lm. unfold getRHSDerivT. destruct (t_form s); try apply vzero_length; first [apply L1; assumption | apply L2; assumption]. Qed.
  Lemma jrhs_dot src k dt u u' w : src_ok s src -> length u = dim s -> length u' = dim s -> length w = dim s ->
    dot w (vsub (vsub (getRHSDeriv s k m src v) (getAsubDeriv s dt m u v)) (getADeriv s dt m u' v)) =
    dot (vadd (vsub (vopp (getADerivT s dt m u' w)) (getAsubDerivT s dt m u w)) (getRHSDerivT s k m src w)) v.
  Proof.
    intros SO Lu Lu' Lw. pose proof (len_ADT dt u' w) as A1. pose proof (len_AsubDT dt u w) as A2. pose proof (len_RHSDT k src w) as A3.
    rewrite (dot_add_l (t_p s)) by ln. rewrite (dot_sub_l (t_p s)) by ln. rewrite dot_opp_l.
    pose proof SZ as SZ0. pose proof Lm as Lm0. pose proof (len_s_e s SZ0 src (time s k) SO) as LE. pose proof (curl_dot s SZ0) as CD. pose proof (curlT_dot s srcs ST) as CT. pose proof (fun u w Hu Hw => Sd_dot s SZ0 m u v w Lm0 Hu Lv Hw) as SD. pose proof (fun u w Hu Hw => SId_dot s SZ0 m u v w Lm0 Hu Lv Hw) as SID. clear A1 A2 A3.
    unfold getRHSDeriv, getAsubDeriv, getADeriv, getRHSDerivT, getAsubDerivT, getADerivT, dim in *. destruct (t_form s) eqn:K; lens s SZ0 K; cbn [negb] in *; set (se := s_e s src (time s k)) in *.
    - rewrite !(dot_sub_r (t_nF s)) by (repeat (first [ln | apply ln_sub; ln])). rewrite ?dot_zero_r, ?dot_zero_l. rewrite <- !dot_vmul. rewrite !CD by (first [apply H8; ln | ln]). rewrite !SID by ln. lra.
    - assert (length (Sd s m u v) = t_nE s) by (apply H7; ln). assert (length (Sd s m u' v) = t_nE s) by (apply H7; ln). rewrite !(dot_sub_r (t_nE s)) by ln. rewrite ?dot_zero_r, ?dot_zero_l, ?dot_scale_r, ?dot_scale_l. rewrite !SD by ln. lra.
    - assert (length (Sd s m se v) = t_nF s) by (apply H7; ln). assert (length (Sd s m (curl s u') v) = t_nF s) by (apply H7; ln). rewrite !(dot_sub_r (t_nE s)) by ln. rewrite ?dot_zero_r, ?dot_zero_l. rewrite !CT by ln. rewrite !SD by ln. lra.
    - assert (length (Sd s m u' v) = t_nF s) by (apply H7; ln). rewrite !(dot_sub_r (t_nF s)) by ln. rewrite ?dot_zero_r, ?dot_zero_l. rewrite <- !dot_vmul. rewrite CD by ln. rewrite <- dot_vmul. rewrite CT by ln. rewrite SD by ln. lra.
  Qed.
  Lemma Asub_dot dt a b : length a = dim s -> length b = dim s -> dot a (act false (getAsub s dt m) b) = dot (act true (getAsub s dt m) a) b.
  Proof.
    intros La Lb. rewrite !(Asub_apply s SZ) by assumption. pose proof SZ as SZ0. unfold Asub_act, dim in *. destruct (t_form s); rewrite ?dot_scale_r, <- ?dot_vmul, ?dot_scale_r, ?dot_scale_l; try reflexivity.
    - rewrite (dot_comm (vmul _ (vscale _ _))). rewrite <- dot_vmul. rewrite dot_scale_r. rewrite (dot_comm _ a). rewrite dot_vmul. reflexivity.
    - rewrite (dot_comm (vmul _ (vscale _ _))). rewrite <- dot_vmul. rewrite dot_scale_r. rewrite (dot_comm _ a). rewrite dot_vmul. reflexivity.
  Qed.
  Lemma back_dual src (SO : src_ok s src) dts : (forall dt, In dt dts -> In dt (t_steps s)) -> forall k us ds du, length us = S (length dts) -> length ds = length dts -> Forall (fun u => length u = dim s) us -> Forall (fun d => length d = dim s) ds -> length du = dim s ->
    let x := back s m src k us ds dts in
    length (snd x) = t_p s /\
    match fst x with Some (z, d, A) => length z = dim s /\ A = getA s d m /\ dts <> [] /\ d = hd 0 dts | None => dts = [] end /\
    dots ds (psens s m v src k us du dts) = dot (snd x) v - match fst x with Some (z, d, _) => dot (act true (getAsub s d m) z) du | None => 0 end.
  Proof.
    induction dts as [|dt dts IH]; intros I k us ds du L1 L2 HU HD Ld.
    - destruct us as [|u us]; [discriminate|]. destruct ds; [|discriminate]. cbn. split; [apply vzero_length|]. split; [reflexivity|]. rewrite dot_zero_l. lra.
    - destruct us as [|u us]; [discriminate|]. destruct ds as [|d ds]; [discriminate|]. inversion HU as [|? ? Lu HU']; subst. inversion HD as [|? ? Ld' HD']; subst. cbn [back psens].
      destruct us as [|u' us]; [discriminate|]. cbn [hd]. inversion HU' as [|? ? Lu' _]; subst.
      set (jr := vsub (vsub _ _) (getADeriv s dt m u' v)). assert (Lj : length jr = dim s) by (apply (len_jrhs s srcs ST); assumption).
      assert (LAs : length (act false (getAsub s dt m) du) = dim s) by (rewrite (Asub_apply s SZ) by exact Ld; apply (len_Asub s SZ); exact Ld).
      set (du' := t_solve s (getA s dt m) (vsub jr (act false (getAsub s dt m) du))). assert (Ldu' : length du' = dim s) by (apply (len_solve s SZ); ln).
      destruct (proj1 (proj2 (proj2 OK)) dt (I dt (or_introl eq_refl))) as [HS HT].
      specialize (IH (fun d H => I d (or_intror H)) (S k) (u' :: us) ds du' ltac:(cbn in L1 |- *; lia) ltac:(cbn in L2; lia) HU' HD' Ldu'). cbv zeta in IH.
      destruct (back s m src (S k) (u' :: us) ds dts) as [nx acc]. cbn [fst snd] in IH. destruct IH as (I1 & I2 & I3). cbv zeta. cbn [fst snd].
      set (A := match nx with Some (_, _, _) => _ | None => _ end). assert (EA : A = getA s dt m).
      { unfold A. destruct nx as [[[z d'] A']|]; [|reflexivity]. destruct I2 as (_ & -> & _). destruct (Req_EM_T dt d') as [->|]; reflexivity. }
      rewrite EA. clear A EA. set (b := match nx with Some (_, _, _) => _ | None => d end).
      assert (Lb : length b = dim s). { unfold b. destruct nx as [[[z d'] A']|]; [|exact Ld']. destruct I2 as (Lz & _). apply ln_sub; [exact Ld'|]. rewrite (Asub_apply s SZ) by exact Lz. apply (len_Asub s SZ). exact Lz. }
      destruct (HT b Lb) as (Lz & Ez & _). set (z := t_solve s (MT (getA s dt m)) b) in *.
      pose proof (len_ADT dt u' z) as A1. pose proof (len_AsubDT dt u z) as A2. pose proof (len_RHSDT (S k) src z) as A3. cbv beta.
      split; [ln|]. split; [split; [exact Lz|]; split; [reflexivity|]; split; [discriminate|reflexivity]|].
      cbn [dots]. rewrite I3. rewrite (dot_add_l (t_p s)) by ln.
      rewrite <- (jrhs_dot src (S k) dt u u' z SO Lu Lu' Lz). fold jr.
      assert (Eb : dot d du' - match nx with Some (z0, d0, _) => dot (act true (getAsub s d0 m) z0) du' | None => 0 end = dot b du').
      { unfold b. destruct nx as [[[z0 d0] A0]|]; [|lra]. destruct I2 as (Lz0 & _). rewrite (dot_sub_l (dim s)); [reflexivity|exact Ld'|]. rewrite (Asub_apply s SZ) by exact Lz0. apply (len_Asub s SZ). exact Lz0. }
      assert (Q : dot b du' = dot z jr - dot (act true (getAsub s dt m) z) du).
      { rewrite <- Ez. cbn [act negb]. destruct (wfm_act _ _ _ (wf_A s SZ dt m)) as (_ & _ & W). rewrite <- (W du' z) by assumption. destruct (HS (vsub jr (act false (getAsub s dt m) du)) ltac:(ln)) as (_ & E & _). fold du' in E. rewrite E.
        rewrite (dot_sub_r (dim s)) by assumption. rewrite Asub_dot by assumption. reflexivity. }
      lra.
  Qed.
  (** ** The initial condition *)
  Lemma phi_zero q : gradT s q = vzero (t_nn s) -> phi s m q = vzero (t_nn s).
  Proof. intros E. unfold phi. rewrite E. apply (lin_zero (t_nn s) (t_nn s)). apply solves_lin; [apply (lin_act _ _ _ (wf_Adc s SZ m))|apply OK]. Qed.
  Lemma z_Sd u : u = vzero (nS s) -> Sd s m u v = vzero (nS s).
  Proof. intros ->. rewrite (Sd_eq s). pose proof (len_dS s SZ m v). vext (nS s). ring. Qed.
  Lemma z_SId u : u = vzero (nS s) -> SId s m u v = vzero (nS s).
  Proof. intros ->. unfold SId. apply z_Sd. pose proof (len_SI s SZ m). vext (nS s). ring. Qed.
  Lemma lin_dc : lin_map (t_nn s) (t_nn s) (t_solve s (getAdc s m)).
  Proof. apply solves_lin; [apply (lin_act _ _ _ (wf_Adc s SZ m))|apply OK]. Qed.
  Lemma still src : src_ok s src -> start_ok s src -> (forall q a, s_kind src = Line q a true -> t_form s = FormE -> s_init src = false) -> initial_d s m src (initial s m src) v = vzero (dim s).
  Proof.
    intros SO HO HE. pose proof SZ as SZ0. destruct SO as [SO _]. pose proof (len_SI s SZ0 m) as LSI. unfold start_ok, grounded in HO. unfold initial_d, initial. destruct (s_init src) eqn:KI; [|reflexivity].
    assert (ZG : gradT s (vzero (nS s)) = vzero (t_nn s)) by apply (lin_zero _ _ _ (L_gradT s SZ0)). assert (ZN : grad s (vzero (t_nn s)) = vzero (nS s)) by apply (lin_zero _ _ _ (L_grad s SZ0)). pose proof (lin_zero _ _ _ lin_dc) as ZD.
    assert (ZO : forall n, vopp (vzero n) = vzero n) by (intros; vext n; ring).
    assert (DN : t_form s <> FormB -> t_form s <> FormH -> dim s = nS s) by (unfold dim, nS, isEB; destruct (t_form s); congruence).
    destruct (t_form s) eqn:K; destruct (s_kind src) as [pp kk|q a g] eqn:KK; try reflexivity; try (destruct g; [|reflexivity]); cbn [andb] in HO; try discriminate.
    - destruct g; [specialize (HE q a eq_refl eq_refl); discriminate|]. destruct SO as (_ & _ & G). specialize (G eq_refl). unfold e0_d, e0. rewrite (phi_zero q G), ZN, !ZO. rewrite (z_Sd _ eq_refl), ZG, ZD, ZN. symmetry. rewrite DN by discriminate. reflexivity.
    - destruct g; [discriminate|]. destruct SO as (_ & _ & G). specialize (G eq_refl). unfold j0_d, phi_d. rewrite (phi_zero q G), ZN. rewrite (z_SId _ eq_refl), ZG, ZD, ZO, ZN. rewrite DN by discriminate. vext (nS s). ring.
  Qed.
  Lemma Adc_sym a b : length a = t_nn s -> length b = t_nn s -> isEB s = true -> dot a (t_solve s (getAdc s m) b) = dot (t_solve s (getAdc s m) a) b.
  Proof.
    intros La Lb K. assert (HS : solves (t_nn s) (t_solve s) (getAdc s m)) by apply OK. destruct (HS a La) as (L1 & E1 & _). destruct (HS b Lb) as (L2 & E2 & _).
    set (x := t_solve s (getAdc s m) a) in *. set (y := t_solve s (getAdc s m) b) in *. rewrite <- E1, <- E2. destruct (wfm_act _ _ _ (wf_Adc s SZ m)) as (_ & _ & W). rewrite (W y x) by assumption. f_equal.
    unfold getAdc. rewrite K. cbn [act negb]. reflexivity.
  Qed.
  Lemma e0_dual e w : isEB s = true -> length e = nS s -> length w = nS s -> dot w (e0_d s m e v) = dot (vopp (SdT s m e (grad s (t_solve s (getAdc s m) (gradT s w))))) v.
  Proof.
    intros K Le Lw. pose proof SZ as SZ0. unfold e0_d. pose proof (len_gradT s SZ0) as LT. pose proof (len_grad s SZ0) as LG. rewrite (grad_dot s SZ0) by (try assumption; apply lin_dc; apply LT).
    rewrite Adc_sym by (try apply LT; exact K). assert (LP : length (t_solve s (getAdc s m) (gradT s w)) = t_nn s) by (apply lin_dc; apply LT). rewrite dot_comm, <- (grad_dot s SZ0) by (try assumption; apply (len_Sd s SZ0); ln). rewrite dot_comm.
    rewrite (Sd_dot s SZ0) by (try exact Lm; try exact Lv; try apply LG; ln). rewrite dot_opp_l. rewrite <- (Sd_dot s SZ0) by (try exact Lm; try exact Lv; try apply LG; ln). rewrite <- (Sd_dot s SZ0) by (try exact Lm; try exact Lv; try apply LG; ln).
    rewrite <- dot_opp_r. f_equal. rewrite !(Sd_eq s). pose proof (len_dS s SZ0 m v). vext (nS s). ring.
  Qed.
  Lemma src_dual src w (SO : src_ok s src) (RO : Forall (rx_ok s) (s_rx src)) (HO : start_ok s src) : length w = src_nD src ->
    exists a, src_adjoint s m m src (solution s m src) w = Ok a /\ length a = t_p s /\ dot w (JT_src s m v src) = dot a v.
  Proof.
    intros Lw. pose proof SZ as SZ0. unfold src_adjoint, JT_src. set (us := solution s m src). set (dus := dsolution s m v src us). destruct (dsolution_lengths s srcs ST m v src SO) as [L1 L2]. fold us in L1, L2. fold dus in L1, L2.
    pose proof (solution_length s m src : length us = S (nT s)) as L3. pose proof (solution_lengths s srcs ST m src SO) as L4. fold us in L4.
    assert (HU : Forall (fun u => length u = dim s) us) by (apply (nth_Forall _ _ (S (nT s))); [exact L3|intros; apply L4; lia]). assert (HD : Forall (fun u => length u = dim s) dus) by (apply (nth_Forall _ _ (S (nT s))); [exact L1|intros; apply L2; lia]).
    destruct (rx_adjoint_dual s srcs ST m v OK Lv src us dus SO L3 L1 HU HD (s_rx src) w RO Lw) as (ds & acc & E & LD & FD & LA & Q). rewrite E. cbn [bind fst snd].
    destruct ds as [|d0 ds]; [discriminate|]. cbn [tl hd]. inversion FD as [|? ? Ld0 FD']; subst. set (du0 := initial_d s m src (hd [] us) v). assert (Edus : dus = du0 :: psens s m v src 0 us du0 (t_steps s)) by apply dsolution_pure.
    assert (Ldu0 : length du0 = dim s) by (specialize (L2 0%nat ltac:(lia)); rewrite Edus in L2; exact L2).
    pose proof (back_dual src SO (t_steps s) (fun _ H => H) 0 us ds du0 L3 ltac:(cbn in LD; unfold nT in LD; lia) HU FD' Ldu0) as B. cbv zeta in B. destruct (back s m src 0 us ds (t_steps s)) as [z acc2]. cbn [fst snd] in B. destruct B as (B1 & B2 & B3).
    rewrite Edus in Q. cbn [dots] in Q. rewrite B3 in Q. rewrite Edus. rewrite Q. clear Q.
    assert (NE : t_steps s <> []) by apply SZ0. destruct z as [[[z d] A]|]; [|contradiction]. destruct B2 as (Lz & -> & _ & Ed).
    set (r := vsub d0 (act true (getAsub s d m) z)). assert (Lr : length r = dim s) by (unfold r; apply ln_sub; [exact Ld0|]; rewrite (Asub_apply s SZ0) by exact Lz; apply (len_Asub s SZ0); exact Lz).
    assert (R : dot d0 du0 - dot (act true (getAsub s d m) z) du0 = dot r du0).
    { unfold r. rewrite (dot_sub_l (dim s)); [reflexivity|exact Ld0|]. rewrite (Asub_apply s SZ0) by exact Lz. apply (len_Asub s SZ0). exact Lz. }
    assert (G : exists a, adjoint0 s m src (hd [] us) d0 (Some (z, d, getA s d m)) = Ok a /\ length a = t_p s /\ dot r du0 = dot a v).
    { unfold adjoint0. pose proof (still src SO HO) as ZD. change (hd [] us) with (initial s m src) in *. unfold start_ok in HO.
      destruct (t_form s) eqn:K; try (exists (vzero (t_p s)); split; [reflexivity|]; split; [apply vzero_length|]; unfold du0; change (hd [] us) with (initial s m src); rewrite ZD by (intros; discriminate); rewrite dot_zero_l, dot_zero_r; reflexivity).
      destruct (s_kind src) as [pp kk|q a g] eqn:KK.
      { exists (vzero (t_p s)). split; [reflexivity|]. split; [apply vzero_length|]. unfold du0. change (hd [] us) with (initial s m src). rewrite ZD by (intros; discriminate). rewrite dot_zero_l, dot_zero_r. reflexivity. }
      destruct g.
      2:{ exists (vzero (t_p s)). split; [reflexivity|]. split; [apply vzero_length|]. unfold du0. change (hd [] us) with (initial s m src). rewrite ZD by (intros; discriminate). rewrite dot_zero_l, dot_zero_r. reflexivity. }
      destruct (HO eq_refl) as [N2 HD1]. replace (nT s <? 2)%nat with false by (symmetry; apply Nat.ltb_ge; exact N2). eexists. split; [reflexivity|].
      assert (EB : isEB s = true) by (unfold isEB; rewrite K; reflexivity). assert (DN : dim s = nS s) by (unfold dim, nS, isEB; rewrite K; reflexivity). split; [apply ln_opp; apply (len_SdT s SZ0); exact Lm|].
      assert (LI : length (initial s m src) = nS s) by (rewrite <- DN; apply (len_initial s SZ0); exact SO).
      destruct (s_init src) eqn:KI.
      - assert (D1 : d = step s 1). { rewrite HD1 by reflexivity. rewrite Ed. unfold step. destruct (t_steps s); reflexivity. } rewrite <- D1. fold r. unfold du0. change (hd [] us) with (initial s m src). unfold initial_d. rewrite KI, K, KK. apply e0_dual; [exact EB|exact LI|rewrite <- DN; exact Lr].
      - unfold du0. change (hd [] us) with (initial s m src). unfold initial_d, initial. rewrite KI. rewrite dot_zero_r. rewrite dot_opp_l. rewrite <- (Sd_dot s SZ0) by (try exact Lm; try exact Lv; try (rewrite DN; apply vzero_length); apply (len_grad s SZ0)).
        rewrite z_Sd by (rewrite DN; reflexivity). rewrite dot_zero_r. lra. }
    destruct G as (a & Ea & La & Qa). rewrite Ea. cbn [bind]. eexists. split; [reflexivity|]. split; [ln|]. rewrite (dot_add_l (t_p s)) by ln. rewrite (dot_add_l (t_p s)) by ln. lra.
  Qed.
End Adjoint.

Lemma len_JT_src s srcs m v src : setup_ok s srcs -> In src srcs -> length (JT_src s m v src) = src_nD src.
Proof. intros ST I. unfold JT_src, src_nD. apply concat_len_map. intros r J. unfold JT_rx. rewrite mv_length. apply rxP_mat. exact (rx_good s srcs ST src r I J). Qed.
Lemma all_dual s srcs (ST : setup_ok s srcs) m (OK : solvable s m) : forall l, (forall src, In src l -> In src srcs) -> Forall (start_ok s) l -> forall w, length w = list_sum (map src_nD l) ->
  exists a, all_adjoint s m m l (map (solution s m) l) w = Ok a /\ length a = t_p s /\ forall v, length v = t_p s -> dot w (concat (map (JT_src s m v) l)) = dot a v.
Proof.
  induction l as [|src l IH]; intros IN HO w Lw.
  - exists (vzero (t_p s)). split; [reflexivity|]. split; [apply vzero_length|]. intros v Lv. rewrite dot_zero_l. destruct w; [reflexivity|discriminate].
  - inversion HO as [|? ? HO1 HO2]; subst. change (list_sum (map src_nD (src :: l))) with (src_nD src + list_sum (map src_nD l))%nat in Lw. cbn [map all_adjoint].
    destruct (src_good s srcs ST src (IN src (or_introl eq_refl))) as [SO RO]. set (w1 := firstn (src_nD src) w). assert (Lw1 : length w1 = src_nD src) by (unfold w1; rewrite firstn_length; lia).
    destruct (src_dual s srcs ST m (vzero (t_p s)) OK (vzero_length _) src w1 SO RO HO1 Lw1) as (a & Ea & La & _).
    destruct (IH (fun x H => IN x (or_intror H)) HO2 (skipn (src_nD src) w) ltac:(rewrite skipn_length; lia)) as (b & Eb & Lb & Qb). rewrite Ea, Eb. cbn [bind]. eexists. split; [reflexivity|]. split; [ln|]. intros v Lv.
    destruct (src_dual s srcs ST m v OK Lv src w1 SO RO HO1 Lw1) as (a' & Ea' & _ & Qa). assert (a' = a) by congruence. subst a'.
    cbn [concat]. rewrite <- (firstn_skipn (src_nD src) w). fold w1. rewrite dot_app' by (rewrite Lw1; symmetry; apply (len_JT_src s srcs); [exact ST|apply IN; left; reflexivity]). rewrite Qa, Qb by exact Lv. rewrite (dot_add_l (t_p s)) by assumption. reflexivity.
Qed.
(** ** The theorems *)
Lemma c67_jacobian s srcs m : setup_ok s srcs -> apart (t_thr s) (t_steps s) -> regular s m -> Forall (fun src => Forall (not_last s) (s_rx src)) srcs ->
  (forall m', exists d, dpred s srcs m' None = Ok d) /\ (forall v, exists j, Jvec s srcs m v None = Ok j) /\
  has_jacobian (t_p s) (data_size srcs) (fun m' => val [] (dpred s srcs m' None)) m (fun v => val [] (Jvec s srcs m v None)).
Proof.
  intros ST AP RG NL. split; [intros; eexists; apply dpred_val; assumption|]. split; [intros; eexists; apply Jvec_val; assumption|].
  eapply has_jacobian_ext; [apply (jac s srcs ST AP m RG)|apply RG| |].
  - intros x _. rewrite dpred_val by assumption. reflexivity.
  - intros v Lv. rewrite Jvec_val by assumption. cbn [val]. symmetry. apply JM_JT; assumption.
Qed.
Lemma c67_jacobian_any s srcs m : setup_ok s srcs -> apart (t_thr s) (t_steps s) -> regular s m -> Forall (start_ok s) srcs ->
  exists J, has_jacobian (t_p s) (data_size srcs) (fun m' => val [] (dpred s srcs m' None)) m J /\
    forall w, length w = data_size srcs -> exists a, Jtvec s srcs m w None = Ok a /\ length a = t_p s /\ forall v, length v = t_p s -> dot a v = dot w (J v).
Proof.
  intros ST AP RG HO. exists (JT s srcs m). split.
  - eapply has_jacobian_ext; [apply (jac s srcs ST AP m RG)|apply RG| |reflexivity]. intros x _. rewrite dpred_val by assumption. reflexivity.
  - intros w Lw. assert (OK : solvable s m) by (apply (near_self (t_p s)); apply RG). destruct (all_dual s srcs ST m OK srcs (fun _ H => H) HO w Lw) as (a & Ea & La & Q).
    exists a. unfold Jtvec. cbn [given]. rewrite fields_ok by exact ST. cbn [bind fst snd]. split; [exact Ea|]. split; [exact La|]. intros v Lv. symmetry. apply Q. exact Lv.
Qed.
Lemma c67_adjoint s srcs m v w : setup_ok s srcs -> solvable s m -> Forall (fun src => Forall (not_last s) (s_rx src)) srcs -> Forall (start_ok s) srcs -> length v = t_p s -> length w = data_size srcs ->
  exists j a, Jvec s srcs m v None = Ok j /\ Jtvec s srcs m w None = Ok a /\ length j = data_size srcs /\ length a = t_p s /\ dot w j = dot a v.
Proof.
  intros ST OK NL HO Lv Lw. destruct (all_dual s srcs ST m OK srcs (fun _ H => H) HO w Lw) as (a & Ea & La & Q). eexists _, a. split; [apply Jvec_val; exact ST|].
  unfold Jtvec. cbn [given]. rewrite fields_ok by exact ST. cbn [bind fst snd]. split; [exact Ea|]. rewrite JM_JT by assumption. split; [|split; [exact La|apply Q; exact Lv]].
  unfold JT, data_size. apply concat_len_map. intros src I. apply (len_JT_src s srcs); assumption.
Qed.
