From Coq Require Import Reals Lra Lia.
From Verif Require Import Py Vec VecDeriv EmpirFacts Scaling ScalingFacts Vrm SpecVrm.
Local Open Scope R_scope.

Lemma dpl_lin t c : derivable_pt_lim (fun s => s - c) t 1.
Proof. eapply dpl_eq; [|apply (dpl_minus (fun s => s) (fun _ => c)); [apply dpl_id|apply dpl_const]]. ring. Qed.
Lemma dpl_ln f x a : derivable_pt_lim f x a -> 0 < f x -> derivable_pt_lim (fun s => ln (f s)) x (a / f x).
Proof. intros H P. eapply dpl_eq; [|apply (dpl_comp f ln); [exact H|apply derivable_pt_lim_ln; exact P]]. unfold Rdiv. ring. Qed.
Lemma dpl_expc f x a : derivable_pt_lim f x a -> derivable_pt_lim (fun s => exp (f s)) x (exp (f x) * a).
Proof. intros H. apply (dpl_comp f exp); [exact H|apply derivable_pt_lim_exp]. Qed.
Lemma ln_quot a dt : 0 < a -> 0 < dt -> ln (1 + dt / a) = ln (a + dt) - ln a.
Proof.
  intros A D. replace (1 + dt / a) with ((a + dt) * / a) by (field; lra). rewrite ln_mult; [|lra|apply Rinv_0_lt_compat; exact A]. rewrite ln_Rinv by exact A. ring.
Qed.
(** ** Whole pulses *)
Lemma early_false a times : times <> [] -> Forall (fun t => a < t) times -> early a times = false.
Proof.
  intros NE F. unfold early. destruct times as [|t times]; [congruence|]. apply Bool.not_true_iff_false. intros H. apply existsb_exists in H. destruct H as (u & Hu & B). apply negb_true_iff in B. rewrite (proj2 (ltb_true a u)) in B; [discriminate|]. exact (proj1 (Forall_forall _ _) F u Hu).
Qed.
Lemma early_true a times : ~ Forall (fun t => a < t) times -> early a times = true.
Proof.
  intros N. unfold early. destruct times as [|t times]; [reflexivity|]. destruct (existsb _ _) eqn:E; [reflexivity|]. exfalso. apply N. apply Forall_forall. intros u Hu. assert (B : negb (ltb a u) = false) by (apply Bool.not_true_iff_false; intros H; assert (X : existsb (fun t => negb (ltb a t)) (t :: times) = true) by (apply existsb_exists; exists u; auto); congruence). apply negb_false_iff, ltb_true in B. exact B.
Qed.
Lemma pulse_integral t0 delt t : 0 < delt -> t0 < t -> integral (fun s => 1 / (t - s)) (t0 - delt) t0 (pulse_h t0 delt t).
Proof.
  intros D T. exists (fun s => - (1) * ln (t - s)). split.
  - intros s Hs. eapply dpl_eq; [|apply dpl_scal, dpl_ln; [apply (dpl_minus (fun _ => t) (fun s => s)); [apply dpl_const|apply dpl_id]|lra]]. field. lra.
  - unfold pulse_h. rewrite ln_quot by lra. replace (t - (t0 - delt)) with (t - t0 + delt) by ring. ring.
Qed.
Lemma pulse_rate t0 delt t : 0 < delt -> t0 < t -> derivable_pt_lim (pulse_h t0 delt) t (pulse_dh t0 delt t).
Proof.
  intros D T. unfold pulse_h, pulse_dh. assert (P : 0 < delt / (t - t0)) by (apply Rmult_lt_0_compat; [lra|apply Rinv_0_lt_compat; lra]). eapply dpl_eq; [|apply (dpl_ln (fun s => 1 + delt / (s - t0))); [apply (dpl_plus (fun _ => 1)); [apply dpl_const|apply (dpl_div (fun _ => delt)); [apply dpl_const|apply dpl_lin|lra]]|cbv beta; lra]]. cbv beta. field. lra.
Qed.
Lemma pulse_fields t0 delt t f : pulse_at t0 delt f t = (if is_b f then mu0 else 1) * (if is_rate f then pulse_dh t0 delt t else pulse_h t0 delt t).
Proof. destruct f; cbn; unfold pulse_dh; ring. Qed.
(** ** Decays with a uniform distribution of log relaxation times *)
Lemma sign_pos x : 0 < x -> sign x = 1. Proof. intros H. unfold sign. destruct (Rlt_dec x 0); [lra|]. destruct (Rlt_dec 0 x); [reflexivity|lra]. Qed.
Lemma sign_neg x : x < 0 -> sign x = -1. Proof. intros H. unfold sign. destruct (Rlt_dec x 0); [reflexivity|lra]. Qed.
Lemma lnq_pos tau1 tau2 : 0 < tau1 < tau2 -> 0 < ln (tau2 / tau1).
Proof. intros H. rewrite <- ln_1. apply ln_increasing; [lra|]. apply Rmult_lt_reg_r with tau1; [lra|]. unfold Rdiv. rewrite Rmult_assoc, Rinv_l by lra. lra. Qed.
Lemma exp_order u tau1 tau2 : 0 < u -> 0 < tau1 < tau2 -> exp (- u / tau1) - exp (- u / tau2) < 0 /\ -1 < exp (- u / tau1) - exp (- u / tau2).
Proof.
  intros U T. assert (I : / tau2 < / tau1) by (apply Rinv_lt_contravar; nra). assert (I2 : 0 < / tau2) by (apply Rinv_0_lt_compat; lra). unfold Rdiv.
  assert (exp (- u * / tau1) < exp (- u * / tau2)) by (apply exp_increasing; nra). assert (exp (- u * / tau2) < 1) by (rewrite <- exp_0; apply exp_increasing; nra). pose proof (exp_pos (- u * / tau1)). lra.
Qed.
Lemma log_bound t0 dchi tau1 tau2 t : 0 < dchi -> 0 < tau1 < tau2 -> t0 < t -> dchi / ln (tau2 / tau1) * step_at t0 t < lstep_dh t0 dchi tau1 tau2 t < 0.
Proof.
  intros D T H. pose proof (lnq_pos _ _ T) as L. destruct (exp_order (t - t0) _ _ ltac:(lra) T) as [E1 E2]. unfold lstep_dh, step_at. rewrite sign_pos by lra. set (X := exp _ - exp _) in *. set (K := dchi / ln (tau2 / tau1)). assert (PK : 0 < K) by (apply Rmult_lt_0_compat; [lra|apply Rinv_0_lt_compat; lra]).
  assert (PI' : 0 < / (t - t0)) by (apply Rinv_0_lt_compat; lra). replace (0 + 1 / 2 * (1 + 1) * K * X / (t - t0)) with (K * / (t - t0) * X) by (field; lra). assert (P : 0 < K * / (t - t0)) by (apply Rmult_lt_0_compat; lra). replace (K * (-1 / (t - t0))) with (K * / (t - t0) * -1) by (field; lra). split; [apply Rmult_lt_compat_l; lra|nra].
Qed.
Lemma log_pulse t0 delt dchi tau1 tau2 t : lpulse_dh t0 delt dchi tau1 tau2 t = lstep_dh t0 dchi tau1 tau2 t - lstep_dh (t0 - delt) dchi tau1 tau2 t.
Proof. unfold lpulse_dh, lstep_dh. replace (t - (t0 - delt)) with (t - t0 + delt) by ring. ring. Qed.
Lemma dpl_Ei Ei c tau t : (forall x, x < 0 -> derivable_pt_lim Ei x (exp x / x)) -> 0 < tau -> c < t -> derivable_pt_lim (fun s => Ei (- (s - c) / tau)) t (exp (- (t - c) / tau) / (t - c)).
Proof.
  intros HE T C. assert (N : - (t - c) / tau < 0) by (unfold Rdiv; pose proof (Rinv_0_lt_compat _ T); nra). assert (DA : derivable_pt_lim (fun s => - (s - c) / tau) t (- / tau)).
  { apply (dpl_ext (fun s => (- / tau) * (s - c))); [intros s; unfold Rdiv; ring|]. eapply dpl_eq; [|apply dpl_scal, dpl_lin]. ring. }
  eapply dpl_eq; [|apply (dpl_comp (fun s => - (s - c) / tau) Ei); [exact DA|exact (HE _ N)]]. cbv beta. field. repeat split; lra.
Qed.
Lemma log_rate Ei t0 delt chi0 dchi tau1 tau2 t : (forall x, x < 0 -> derivable_pt_lim Ei x (exp x / x)) -> 0 < delt -> 0 < tau1 -> 0 < tau2 -> t0 < t ->
  derivable_pt_lim (lpulse_h Ei t0 delt chi0 dchi tau1 tau2) t (lpulse_dh t0 delt dchi tau1 tau2 t).
Proof.
  intros HE D T1 T2 H. apply (dpl_local (fun s => (- (dchi / ln (tau2 / tau1))) * (Ei (- (s - t0) / tau2) - Ei (- (s - t0) / tau1) - Ei (- (s - (t0 - delt)) / tau2) + Ei (- (s - (t0 - delt)) / tau1)))).
  - exists (t - t0). split; [lra|]. intros h Hh. apply Rabs_def2 in Hh. cbv beta. unfold lpulse_h. rewrite !sign_pos by lra. replace (t + h - (t0 - delt)) with (t + h - t0 + delt) by ring. set (K := dchi / ln (tau2 / tau1)). field.
  - eapply dpl_eq; [|apply dpl_scal; apply (dpl_plus (fun s => Ei (- (s - t0) / tau2) - Ei (- (s - t0) / tau1) - Ei (- (s - (t0 - delt)) / tau2))); [apply (dpl_minus (fun s => Ei (- (s - t0) / tau2) - Ei (- (s - t0) / tau1))); [apply dpl_minus|]|]; apply dpl_Ei; first [exact HE|assumption|lra]].
    unfold lpulse_dh. rewrite !sign_pos by lra. replace (t - (t0 - delt)) with (t - t0 + delt) by ring. set (K := dchi / ln (tau2 / tau1)). field. lra.
Qed.
Lemma log_on Ei t0 delt chi0 dchi tau1 tau2 t : 0 < dchi -> 0 < tau1 < tau2 -> t0 - delt < t < t0 -> derivable_pt_lim (lpulse_h Ei t0 delt chi0 dchi tau1 tau2) t 0 /\ lpulse_h Ei t0 delt chi0 dchi tau1 tau2 t = 2 * (chi0 - dchi) /\ 0 < lpulse_dh t0 delt dchi tau1 tau2 t.
Proof.
  intros D T H. assert (E : forall h, Rabs h < Rmin (t0 - t) (t - (t0 - delt)) -> lpulse_h Ei t0 delt chi0 dchi tau1 tau2 (t + h) = 2 * (chi0 - dchi)).
  { intros h Hh. apply Rabs_def2 in Hh. pose proof (Rmin_l (t0 - t) (t - (t0 - delt))). pose proof (Rmin_r (t0 - t) (t - (t0 - delt))). unfold lpulse_h. rewrite (sign_pos (t + h - t0 + delt)), (sign_neg (t + h - t0)) by lra. ring. }
  split; [|split].
  - apply (dpl_local (fun _ => 2 * (chi0 - dchi))); [|apply dpl_const]. exists (Rmin (t0 - t) (t - (t0 - delt))). split; [apply Rmin_glb_lt; lra|]. intros h Hh. symmetry. apply E, Hh.
  - rewrite <- (Rplus_0_r t) at 1. apply E. rewrite Rabs_R0. apply Rmin_glb_lt; lra.
  - rewrite log_pulse. pose proof (log_bound (t0 - delt) dchi tau1 tau2 t D T ltac:(lra)) as B. assert (Z : lstep_dh t0 dchi tau1 tau2 t = 0) by (unfold lstep_dh; rewrite (sign_neg (t - t0)) by lra; unfold Rdiv; ring). lra.
Qed.
(** ** Linear pieces *)
Lemma seg_h_val ta ga tb gb t : ta < tb -> tb < t -> seg_h ga gb (tb - ta) (t - tb) = (gb + (gb - ga) * (t - tb) / (tb - ta)) * (ln (t - ta) - ln (t - tb)) - gb + ga.
Proof. intros H1 H2. unfold seg_h. rewrite ln_quot by lra. replace (t - tb + (tb - ta)) with (t - ta) by ring. reflexivity. Qed.
Lemma seg_integral ta ga tb gb t : ta < tb -> tb < t -> integral (fun s => current ta ga tb gb s / (t - s)) ta tb (seg_h ga gb (tb - ta) (t - tb)).
Proof.
  intros H1 H2. rewrite seg_h_val by assumption. set (m := (gb - ga) / (tb - ta)). set (K := gb + (gb - ga) * (t - tb) / (tb - ta)). exists (fun s => - K * ln (t - s) - m * s). split.
  - intros s Hs. eapply dpl_eq; [|apply (dpl_minus (fun s => - K * ln (t - s))); [apply dpl_scal, dpl_ln; [apply (dpl_minus (fun _ => t) (fun s => s)); [apply dpl_const|apply dpl_id]|lra]|apply dpl_scal, dpl_id]]. unfold K, m, current. field. lra.
  - unfold K, m. field. lra.
Qed.
Lemma seg_deriv ta ga tb gb t : ta < tb -> tb < t -> derivable_pt_lim (fun s => seg_h ga gb (tb - ta) (s - tb)) t (seg_dh ga gb (tb - ta) (t - tb) - 2 * (gb / (t - tb) - ga / (t - ta))).
Proof.
  intros H1 H2. apply (dpl_local (fun s => (gb + (gb - ga) / (tb - ta) * (s - tb)) * (ln (s - ta) - ln (s - tb)) - (gb - ga))).
  - exists (t - tb). split; [lra|]. intros h Hh. apply Rabs_def2 in Hh. rewrite seg_h_val by lra. unfold Rdiv. ring.
  - eapply dpl_eq; [|apply (dpl_minus (fun s => (gb + (gb - ga) / (tb - ta) * (s - tb)) * (ln (s - ta) - ln (s - tb)))); [apply dpl_mult; [apply (dpl_plus (fun _ => gb)); [apply dpl_const|apply dpl_scal, dpl_lin]|apply dpl_minus; (apply dpl_ln; [apply dpl_lin|lra])]|apply dpl_const]]. cbv beta.
    unfold seg_dh. rewrite ln_quot by lra. replace (t - tb + (tb - ta)) with (t - ta) by ring. field. lra.
Qed.
Lemma seg_refine ta ga tm tb gb t : ta < tm -> tm < tb -> tb < t -> seg_h ga gb (tb - ta) (t - tb) = seg_h ga (current ta ga tb gb tm) (tm - ta) (t - tm) + seg_h (current ta ga tb gb tm) gb (tb - tm) (t - tb).
Proof. intros H1 H2 H3. rewrite !seg_h_val by lra. unfold current. field. lra. Qed.
(** ** Sums over pieces *)
Lemma seg_sum_cons term ta tb tv ga gb g t : seg_sum term (ta :: tb :: tv) (ga :: gb :: g) t = term ga gb (tb - ta) (t - tb) + seg_sum term (tb :: tv) (gb :: g) t.
Proof. reflexivity. Qed.
Lemma sum_memory t : forall tv g, length tv = length g -> tv <> [] -> increasing tv -> after tv t -> memory t tv g (seg_sum seg_h tv g t).
Proof.
  induction tv as [|ta tv IH]; intros g L NE I A; [congruence|]. destruct g as [|ga g]; [discriminate|]. destruct tv as [|tb tv], g as [|gb g]; try discriminate; [constructor|]. rewrite seg_sum_cons. destruct I as [I1 I2]. apply Forall_inv_tail in A. constructor; [apply seg_integral; [exact I1|exact (Forall_inv A)]|]. apply IH; [cbn in *; lia|discriminate|exact I2|exact A].
Qed.
Lemma sum_deriv t : forall tv g, length tv = length g -> tv <> [] -> increasing tv -> after tv t ->
  derivable_pt_lim (seg_sum seg_h tv g) t (seg_sum seg_dh tv g t - 2 * (last g 0 / (t - last tv 0) - hd 0 g / (t - hd 0 tv))).
Proof.
  induction tv as [|ta tv IH]; intros g L NE I A; [congruence|]. destruct g as [|ga g]; [discriminate|]. destruct tv as [|tb tv], g as [|gb g]; try discriminate.
  - cbn [last hd]. apply (dpl_ext (fun _ => 0)); [intros; reflexivity|]. eapply dpl_eq; [|apply dpl_const]. cbn [seg_sum]. ring.
  - destruct I as [I1 I2]. pose proof (Forall_inv_tail A) as A'. specialize (IH (gb :: g) ltac:(cbn in *; lia) ltac:(discriminate) I2 A'). rewrite seg_sum_cons. apply (dpl_ext (fun s => seg_h ga gb (tb - ta) (s - tb) + seg_sum seg_h (tb :: tv) (gb :: g) s)); [intros s; symmetry; apply seg_sum_cons|].
    eapply dpl_eq; [|apply dpl_plus; [apply seg_deriv; [exact I1|exact (Forall_inv A')]|exact IH]]. change (last (ta :: tb :: tv) 0) with (last (tb :: tv) 0). change (last (ga :: gb :: g) 0) with (last (gb :: g) 0). cbn [hd]. ring.
Qed.
