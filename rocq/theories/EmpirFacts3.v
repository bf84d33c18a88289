From Verif Require Import Py Vec VecDeriv PropsM PropsFacts ParamFacts SpecMass MassFacts2 Empir SpecEmpir EmpirFacts EmpirFacts2.
From Coq Require Import Lra.
Local Open Scope R_scope.

(** ** van Genuchten's conductivity, one cell *)
Section TE.
  Variables (w n : R).
  Hypothesis (Hw : 0 < w) (Hn : 1 < n).
  Let X := 1 + w.
  Let T := 1 / Rpower X (1 - 1 / n).
  Lemma m_range : 0 < 1 - 1 / n < 1.
  Proof. unfold Rdiv. rewrite Rmult_1_l. pose proof (Rinv_0_lt_compat n ltac:(lra)). assert (/ n < / 1) by (apply Rinv_lt_contravar; lra). rewrite Rinv_1 in *. lra. Qed.
  Lemma te_pos : 0 < T.
  Proof. unfold T. apply Rdiv_lt_0_compat; [lra|apply rp_pos]. Qed.
  Lemma te_rp : T = Rpower X (- (1 - 1 / n)).
  Proof. unfold T. rewrite Rpower_Ropp. unfold Rdiv. ring. Qed.
  Lemma te_1 : Rpower (w + 1) (-1 + 1 / n) = T.
  Proof. rewrite te_rp. unfold X. f_equal; ring. Qed.
  Lemma te_2 : Rpower (w + 1) (1 / n - 1) = T.
  Proof. rewrite te_rp. unfold X. f_equal; ring. Qed.
  Lemma te_3 : Rpower T (1 / (1 - 1 / n)) = / X.
  Proof.
    pose proof m_range. rewrite te_rp, Rpower_mult. replace (- (1 - 1 / n) * (1 / (1 - 1 / n))) with (- (1)) by (field; lra).
    rewrite Rpower_Ropp, Rpower_1 by (unfold X; lra). reflexivity.
  Qed.
  Lemma te_4 : Rpower T (1 / (1 / n - 1)) = X.
  Proof.
    pose proof m_range. rewrite te_rp, Rpower_mult. replace (- (1 - 1 / n) * (1 / (1 / n - 1))) with 1 by (field; lra).
    rewrite Rpower_1 by (unfold X; lra). reflexivity.
  Qed.
  Lemma te_5 : Rpower T (1 / (1 / n - 1) + 1) = X * T.
  Proof. rewrite Rpower_plus, te_4, Rpower_1 by exact te_pos. reflexivity. Qed.
  Lemma te_6 : Rpower (w + 1) (1 / n - 2) = T / X.
  Proof. rewrite (rp_minus1 (w + 1) (1 / n - 2) (1 / n - 1)) by (lra || ring). rewrite te_2. unfold X. f_equal. ring. Qed.
  Lemma te_7 : ln T = - (1 - 1 / n) * ln X.
  Proof. rewrite te_rp. unfold Rpower. rewrite ln_exp. reflexivity. Qed.
  Lemma te_8 : Rpower (w + 1) (1 - 1 / n) = / T.
  Proof. unfold T, X. rewrite (Rplus_comm w 1). field. pose proof (rp_pos (1 + w) (1 - 1 / n)). lra. Qed.
  Lemma te_q : 0 < 1 - / X.
  Proof. assert (/ X < / 1) by (apply Rinv_lt_contravar; unfold X; lra). rewrite Rinv_1 in *. lra. Qed.
End TE.
Lemma rp_comp1 x y : 0 < x -> Rpower x y = x / Rpower x (1 - y).
Proof.
  intros H. pose proof (rp_pos x (1 - y)). apply (Rmult_eq_reg_r (Rpower x (1 - y))); [|lra].
  rewrite <- Rpower_plus. replace (y + (1 - y)) with 1 by ring. rewrite Rpower_1 by exact H. field. lra.
Qed.
Lemma vk_cell_M u0 k a i n k' a' i' n' u t0 : u_int u0 = false ->
  derivable_pt_lim k t0 k' -> derivable_pt_lim a t0 a' -> derivable_pt_lim i t0 i' -> derivable_pt_lim n t0 n' ->
  (u < 0 -> 0 < a t0 /\ 1 < n t0) ->
  derivable_pt_lim (fun t => vk_cell u0 (k t) (a t) (i t) (n t) u) t0
    ((proj_p u 1 * k' + proj_n u 1 * (vk_dk (k t0) (a t0) (i t0) (n t0) u * k'))
     + vk_di (k t0) (a t0) (i t0) (n t0) u * i' + vk_dn (k t0) (a t0) (i t0) (n t0) u * n' + vk_da (k t0) (a t0) (i t0) (n t0) u * a').
Proof.
  intros E Hk Ha Hi Hn Hp. destruct (Rlt_dec u 0) as [N|N].
  - apply (dpl_ext (fun t => k t * Rpower (1 / (Rpower (1 + Rpower (Rabs (a t * u)) (n t)) (1 - 1 / n t))) (i t)
        * (1 - Rpower (1 - Rpower (1 / (Rpower (1 + Rpower (Rabs (a t * u)) (n t)) (1 - 1 / n t))) (1 / (1 - 1 / n t))) (1 - 1 / n t)) ^ 2)).
    { intros t. unfold vk_cell, proj_p, proj_n, theta_e, vk_m. rewrite !over_neg by exact N. rewrite Rplus_0_l. reflexivity. }
    destruct (Hp N) as [Pa Pn]. pose proof (neg_au _ _ Pa N) as NU.
    assert (PA : 0 < Rabs (a t0 * u)) by (apply Rabs_pos_lt; lra). pose proof (rp_pos (Rabs (a t0 * u)) (n t0)) as PW.
    assert (PX : 0 < 1 + Rpower (Rabs (a t0 * u)) (n t0)) by lra.
    pose proof (m_range (n t0) Pn) as MR.
    pose proof (te_pos (Rpower (Rabs (a t0 * u)) (n t0)) (n t0)) as PT.
    pose proof (rp_pos (1 + Rpower (Rabs (a t0 * u)) (n t0)) (1 - 1 / n t0)) as PY.
    assert (PQ : 0 < 1 - Rpower (1 / Rpower (1 + Rpower (Rabs (a t0 * u)) (n t0)) (1 - 1 / n t0)) (1 / (1 - 1 / n t0))).
    { rewrite te_3 by assumption. apply te_q; assumption. }
    eapply dpl_eq; [|dr]; try assumption; try lra. cbv beta.
    unfold vk_dk, vk_di, vk_dn, vk_da, vk_slope, proj_p, proj_n, theta_e, vk_m. rewrite !(over_neg u) by exact N. cbv zeta. rewrite (sgn_neg _ NU).
    rewrite !(te_1 (Rpower (Rabs (a t0 * u)) (n t0))), !(te_2 (Rpower (Rabs (a t0 * u)) (n t0))), !(te_6 (Rpower (Rabs (a t0 * u)) (n t0))), !(te_8 (Rpower (Rabs (a t0 * u)) (n t0))) by assumption.
    rewrite !Rmult_1_l.
    rewrite !te_3, !te_4, !te_5, !te_7 by assumption.
    rewrite (rp_minus1 (Rabs (a t0 * u)) (n t0 - 1) (n t0)) by (assumption || reflexivity).
    rewrite (rp_minus1 _ (i t0 - 1) (i t0)) by (assumption || reflexivity).
    rewrite (Rplus_comm (Rpower (Rabs (a t0 * u)) (n t0)) 1).
    replace (- / (1 + Rpower (Rabs (a t0 * u)) (n t0)) + 1) with (1 - / (1 + Rpower (Rabs (a t0 * u)) (n t0))) by ring.
    replace (1 - 1 / (1 + Rpower (Rabs (a t0 * u)) (n t0))) with (1 - / (1 + Rpower (Rabs (a t0 * u)) (n t0))) by (unfold Rdiv; ring).
    rewrite (rp_comp1 (1 - / (1 + Rpower (Rabs (a t0 * u)) (n t0))) (1 / n t0)) by (apply te_q; assumption).
    rewrite (Rabs_left (a t0 * u)) in * by exact NU.
    assert (PZ : 0 < 1 - / (1 + Rpower (- (a t0 * u)) (n t0))) by (apply te_q; assumption).
    set (W := Rpower (- (a t0 * u)) (n t0)) in *. set (Y := Rpower (1 + W) (1 - 1 / n t0)) in *. 
    set (PI_ := Rpower (1 / Y) (i t0)). set (Z := Rpower (1 - / (1 + W)) (1 - 1 / n t0)). assert (HZ : 0 < Z) by apply rp_pos.
    set (L := ln (- (a t0 * u))). set (LX := ln (1 + W)). set (LQ := ln (1 - / (1 + W))).
    assert (n t0 - 1 <> 0) by lra. assert (1 + W - 1 <> 0) by lra.
    field. repeat split; try lra.
  - apply (dpl_ext k).
    { intros t. unfold vk_cell, proj_p, proj_n, full_like. rewrite E, !over_nonneg by lra. ring. }
    unfold vk_dk, vk_di, vk_dn, vk_da, proj_p, proj_n. rewrite !(over_nonneg u) by lra.
    eapply dpl_eq; [|exact Hk]. ring.
Qed.
