From Verif Require Import Py Vec VecDeriv PropsM PropsFacts ParamFacts SpecMass MassFacts2 Empir SpecEmpir EmpirFacts EmpirFacts2 EmpirFacts3.
From Coq Require Import Lra.
Local Open Scope R_scope.

Lemma vk_cell_u_neg u0 k a i n u : u_int u0 = false -> u < 0 -> 0 < a -> 1 < n -> derivable_pt_lim (vk_cell u0 k a i n) u (vk_du k a i n u).
Proof.
  intros E N Ha Hn. pose proof (neg_au _ _ Ha N) as NU.
  apply (dpl_local (fun v => k * Rpower (1 / (Rpower (1 + Rpower (Rabs (a * v)) n) (1 - 1 / n))) i
        * (1 - Rpower (1 - Rpower (1 / (Rpower (1 + Rpower (Rabs (a * v)) n) (1 - 1 / n))) (1 / (1 - 1 / n))) (1 - 1 / n)) ^ 2)).
  { exists (- u). split; [lra|]. intros h Hh. unfold vk_cell, proj_p, proj_n, theta_e, vk_m. apply Rabs_def2 in Hh. rewrite !over_neg by lra. rewrite Rplus_0_l. reflexivity. }
  assert (PA : 0 < Rabs (a * u)) by (apply Rabs_pos_lt; lra). pose proof (rp_pos (Rabs (a * u)) n) as PW.
  assert (PX : 0 < 1 + Rpower (Rabs (a * u)) n) by lra. pose proof (m_range n Hn) as MR.
  pose proof (te_pos (Rpower (Rabs (a * u)) n) n) as PT. pose proof (rp_pos (1 + Rpower (Rabs (a * u)) n) (1 - 1 / n)) as PY.
  assert (PQ : 0 < 1 - Rpower (1 / Rpower (1 + Rpower (Rabs (a * u)) n) (1 - 1 / n)) (1 / (1 - 1 / n))).
  { rewrite te_3 by assumption. apply te_q; assumption. }
  eapply dpl_eq; [|dr]; try assumption; try lra. cbv beta.
  unfold vk_du, vk_slope. rewrite !(over_neg u) by exact N. rewrite (sgn_neg _ NU).
  rewrite !(te_2 (Rpower (Rabs (a * u)) n)), !(te_6 (Rpower (Rabs (a * u)) n)) by assumption.
  rewrite !te_3, !te_4, !te_5, !te_7 by assumption.
  rewrite (rp_minus1 (Rabs (a * u)) (n - 1) n) by (assumption || reflexivity).
  rewrite (rp_minus1 _ (i - 1) i) by (assumption || reflexivity).
  replace (1 - 1 / (1 + Rpower (Rabs (a * u)) n)) with (1 - / (1 + Rpower (Rabs (a * u)) n)) by (unfold Rdiv; ring).
  rewrite (rp_comp1 (1 - / (1 + Rpower (Rabs (a * u)) n)) (1 / n)) by (apply te_q; assumption).
  rewrite (Rabs_left (a * u)) in * by exact NU.
  assert (PZ : 0 < 1 - / (1 + Rpower (- (a * u)) n)) by (apply te_q; assumption).
  set (W := Rpower (- (a * u)) n) in *. set (Y := Rpower (1 + W) (1 - 1 / n)) in *.
  set (PI_ := Rpower (1 / Y) i). set (Z := Rpower (1 - / (1 + W)) (1 - 1 / n)). assert (HZ : 0 < Z) by apply rp_pos.
  set (L := ln (- (a * u))). set (LX := ln (1 + W)). set (LQ := ln (1 - / (1 + W))).
  assert (n - 1 <> 0) by lra. assert (1 + W - 1 <> 0) by lra.
  field. repeat split; try lra.
Qed.
(** The conductivity for a negative head, with [X = 1 + |a u|^n]. *)
Lemma vk_neg u0 k a i n u : u < 0 -> 0 < a -> 1 < n ->
  let w := Rpower (a * - u) n in let X := 1 + w in
  vk_cell u0 k a i n u = k * Rpower X (- (i * (1 - 1 / n))) * (1 - Rpower (w / X) (1 - 1 / n)) ^ 2.
Proof.
  intros N Ha Hn w X. pose proof (rp_pos (a * - u) n) as PW. fold w in PW. pose proof (m_range n Hn) as MR.
  unfold vk_cell, proj_p, proj_n, theta_e, vk_m. rewrite !over_neg by exact N. rewrite Rplus_0_l.
  rewrite (Rabs_left (a * u)) by (apply neg_au; assumption). replace (- (a * u)) with (a * - u) by ring. fold w.
  rewrite te_3 by assumption. rewrite (te_rp w n), Rpower_mult. fold X.
  replace (1 - / X) with (w / X) by (unfold X; field; lra).
  replace (- (1 - 1 / n) * i) with (- (i * (1 - 1 / n))) by ring. reflexivity.
Qed.
Lemma rp_le_1 x y : 0 < x <= 1 -> 0 <= y -> 0 < Rpower x y <= 1.
Proof.
  intros [H0 H1] Hy. split; [apply rp_pos|]. unfold Rpower. rewrite <- exp_0.
  assert (ln x <= 0) by (rewrite <- ln_1; destruct H1 as [H1| ->]; [left; apply ln_increasing; assumption|lra]).
  destruct (Req_dec (y * ln x) 0) as [->|]; [lra|]. left. apply exp_increasing. nra.
Qed.
Lemma rp_mono x y e : 0 < x <= y -> 0 <= e -> Rpower x e <= Rpower y e.
Proof.
  intros [H0 [H1| ->]] He; [|lra]. destruct He as [He| <-]; [left; apply Rlt_Rpower_l; lra|]. rewrite !Rpower_O by lra. lra.
Qed.
Lemma vk_cell_u u0 k a i n u : u_int u0 = false -> 0 < a -> 1 < n -> (u = 0 -> 2 < n /\ 0 <= i) -> derivable_pt_lim (vk_cell u0 k a i n) u (vk_du k a i n u).
Proof.
  intros E Ha Hn H0. destruct (Rlt_dec u 0) as [N|N]; [apply vk_cell_u_neg; assumption|]. unfold vk_du. rewrite over_nonneg by lra.
  set (f := fun v => let w := Rpower (a * - v) n in k * Rpower (1 + w) (- (i * (1 - 1 / n))) * (1 - Rpower (w / (1 + w)) (1 - 1 / n)) ^ 2).
  apply (dpl_ext (fun v => over v k (f v))).
  { intros v. destruct (Rlt_dec v 0) as [Nv|Nv].
    - rewrite over_neg by exact Nv. rewrite (vk_neg u0 k a i n v Nv Ha Hn). reflexivity.
    - rewrite over_nonneg by lra. unfold vk_cell, proj_p, proj_n, full_like. rewrite E, !over_nonneg by lra. ring. }
  destruct (Req_dec u 0) as [->|Z]; [|apply dpl_over_pos; lra]. destruct (H0 eq_refl) as [Hn2 Hi]. clear N.
  pose proof (m_range n Hn) as MR. set (m := 1 - 1 / n) in *. assert (NM : n * m = n - 1) by (unfold m; field; lra).
  pose proof (rp_pos a n) as PA. pose proof (rp_pos a (n - 1)) as PA1.
  assert (HI : 0 <= i * m) by (apply Rmult_le_pos; lra).
  set (c := i * m * Rpower a n + 2 * Rpower a (n - 1)). assert (Hc : 0 < c) by (unfold c; nra).
  apply (dpl_over_0 k f (Rabs k * c + 1) (n - 1)); [pose proof (Rabs_pos k); nra|lra|].
  intros h Hh. unfold f. cbv zeta. rewrite <- Rpower_mult_distr by lra.
  pose proof (rp_pos (- h) n) as PH. pose proof (rp_pos (- h) (n - 1)) as PH1. set (P := Rpower (- h) n) in *. set (A := Rpower a n) in *.
  assert (PW : 0 < A * P) by (apply Rmult_lt_0_compat; assumption).
  pose proof (power_drop (1 + A * P) (i * m) ltac:(lra) HI) as PD. set (S := Rpower (1 + A * P) (- (i * m))) in *.
  assert (PS : 0 < S) by apply rp_pos.
  assert (Q0 : 0 < A * P / (1 + A * P) <= 1).
  { split; [apply Rdiv_lt_0_compat; lra|]. apply (Rmult_le_reg_r (1 + A * P)); [lra|]. replace (A * P / (1 + A * P) * (1 + A * P)) with (A * P) by (field; lra). lra. }
  pose proof (rp_le_1 _ m Q0 ltac:(lra)) as QM. set (q := Rpower (A * P / (1 + A * P)) m) in *.
  assert (QB : q <= Rpower a (n - 1) * Rpower (- h) (n - 1)).
  { rewrite Rpower_mult_distr by lra. rewrite <- NM, <- Rpower_mult. unfold A, P in *. rewrite <- Rpower_mult_distr by lra.
    apply rp_mono; [|lra]. split; [apply Rdiv_lt_0_compat; lra|].
    apply (Rmult_le_reg_r (1 + Rpower a n * Rpower (- h) n)); [lra|]. replace (Rpower a n * Rpower (- h) n / (1 + Rpower a n * Rpower (- h) n) * (1 + Rpower a n * Rpower (- h) n)) with (Rpower a n * Rpower (- h) n) by (field; lra). nra. }
  assert (PB : P <= Rpower (- h) (n - 1)).
  { unfold P. rewrite (rp_minus1 (- h) (n - 1) n) by (lra || reflexivity). fold P. apply (Rmult_le_reg_r (- h)); [lra|]. replace (P / - h * - h) with P by (field; lra). nra. }
  replace (k * S * (1 - q) ^ 2 - k) with (- (k * (1 - S * (1 - q) ^ 2))) by ring. rewrite Rabs_Ropp, Rabs_mult.
  assert (B0 : 0 <= 1 - S * (1 - q) ^ 2) by nra.
  assert (B1 : 1 - S * (1 - q) ^ 2 <= (1 - S) + 2 * q) by nra.
  rewrite (Rabs_pos_eq (1 - _)) by exact B0. pose proof (Rabs_pos k) as Pk.
  set (P1 := Rpower (- h) (n - 1)) in *. set (A1 := Rpower a (n - 1)) in *.
  assert (B2 : 1 - S * (1 - q) ^ 2 <= c * P1).
  { unfold c. replace (1 + A * P - 1) with (A * P) in PD by ring. apply Rle_trans with (i * m * (A * P) + 2 * (A1 * P1)); [lra|].
    assert (i * m * (A * P) <= i * m * (A * P1)) by (apply Rmult_le_compat_l; [assumption|]; apply Rmult_le_compat_l; lra). lra. }
  apply Rle_trans with (Rabs k * (c * P1)); [apply Rmult_le_compat_l; assumption|]. nra.
Qed.
