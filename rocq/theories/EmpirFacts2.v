From Verif Require Import Py Vec VecDeriv PropsM PropsFacts ParamFacts SpecMass MassFacts2 Empir SpecEmpir EmpirFacts.
From Coq Require Import Lra.
Local Open Scope R_scope.

(** ** van Genuchten, one cell *)
Lemma rp_opp x y z : y = - z -> Rpower x y = / Rpower x z.
Proof. intros ->. apply Rpower_Ropp. Qed.
Lemma rp_minus1 x y z : 0 < x -> y = z - 1 -> Rpower x y = Rpower x z / x.
Proof. intros H ->. replace (z - 1) with (z + - (1)) by ring. rewrite Rpower_plus, Rpower_Ropp, Rpower_1 by exact H. reflexivity. Qed.
Lemma neg_au a u : 0 < a -> u < 0 -> a * u < 0.
Proof. intros Ha Hu. nra. Qed.
Lemma vt_cell_M r s a n r' s' a' n' u t0 : derivable_pt_lim r t0 r' -> derivable_pt_lim s t0 s' -> derivable_pt_lim a t0 a' -> derivable_pt_lim n t0 n' ->
  (u < 0 -> 0 < a t0 /\ n t0 <> 0) ->
  derivable_pt_lim (fun t => vt_cell (r t) (s t) (a t) (n t) u) t0
    (vt_dr (r t0) (s t0) (a t0) (n t0) u * r' + (proj_p u 1 * s' + proj_n u 1 * (vt_ds (r t0) (s t0) (a t0) (n t0) u * s'))
     + vt_dn (r t0) (s t0) (a t0) (n t0) u * n' + vt_da (r t0) (s t0) (a t0) (n t0) u * a').
Proof.
  intros Hr Hs Ha Hn Hp. unfold vt_dr, vt_ds, vt_da, vt_dn, proj_p, proj_n. destruct (Rlt_dec u 0) as [N|N].
  - rewrite !(over_neg u) by exact N. apply (dpl_ext (fun t => (s t - r t) / (Rpower (1 + Rpower (Rabs (a t * u)) (n t)) (1 - 1 / n t)) + r t)).
    { intros t. unfold vt_cell. rewrite over_neg by exact N. reflexivity. }
    destruct (Hp N) as [Pa Pn]. pose proof (neg_au _ _ Pa N) as NU. rewrite (sgn_neg _ NU).
    assert (PA : 0 < Rabs (a t0 * u)) by (apply Rabs_pos_lt; lra). pose proof (rp_pos (Rabs (a t0 * u)) (n t0)) as PW.
    rewrite (Rplus_comm (Rpower _ (n t0)) 1).
    assert (PX : 0 < 1 + Rpower (Rabs (a t0 * u)) (n t0)) by lra.
    pose proof (rp_pos (1 + Rpower (Rabs (a t0 * u)) (n t0)) (1 - 1 / n t0)) as PT.
    eapply dpl_eq; [|dr]; [|assumption|assumption|assumption|assumption|lra]. cbv beta.
    rewrite (rp_opp (1 + Rpower (Rabs (a t0 * u)) (n t0)) (-1 + 1 / n t0) (1 - 1 / n t0)) by ring.
    rewrite (Rabs_left (a t0 * u)) in * by exact NU.
    set (W := Rpower (- (a t0 * u)) (n t0)) in *. set (T := Rpower (1 + W) (1 - 1 / n t0)) in *. set (L := ln (- (a t0 * u))). set (LX := ln (1 + W)).
    field. repeat split; lra.
  - rewrite !(over_nonneg u) by lra. apply (dpl_ext s).
    { intros t. unfold vt_cell. rewrite over_nonneg by lra. reflexivity. }
    eapply dpl_eq; [|exact Hs]. ring.
Qed.
Lemma vt_cell_u_neg r s a n u : u < 0 -> 0 < a -> n <> 0 -> derivable_pt_lim (vt_cell r s a n) u (vt_du r s a n u).
Proof.
  intros N Ha Hn. unfold vt_du. rewrite over_neg by exact N. pose proof (neg_au _ _ Ha N) as NU. rewrite sgn_neg by exact NU.
  apply (dpl_local (fun v => (s - r) / (Rpower (1 + Rpower (Rabs (a * v)) n) (1 - 1 / n)) + r)).
  { exists (- u). split; [lra|]. intros h Hh. unfold vt_cell. rewrite over_neg; [reflexivity|]. apply Rabs_def2 in Hh. lra. }
  assert (PA : 0 < Rabs (a * u)) by (apply Rabs_pos_lt; lra). pose proof (rp_pos (Rabs (a * u)) n) as PW.
  rewrite (Rplus_comm (Rpower _ n) 1). assert (PX : 0 < 1 + Rpower (Rabs (a * u)) n) by lra.
  pose proof (rp_pos (1 + Rpower (Rabs (a * u)) n) (1 - 1 / n)) as PT.
  eapply dpl_eq; [|dr]; [|assumption|assumption|assumption|lra]. cbv beta.
  rewrite (rp_minus1 (1 + Rpower (Rabs (a * u)) n) (1 / n - 2) (1 / n - 1)) by (assumption || ring).
  rewrite (rp_opp (1 + Rpower (Rabs (a * u)) n) (1 / n - 1) (1 - 1 / n)) by ring.
  rewrite (rp_minus1 (Rabs (a * u)) (n - 1) n) by (assumption || reflexivity).
  rewrite (Rabs_left (a * u)) in * by exact NU.
  set (W := Rpower (- (a * u)) n) in *. set (T := Rpower (1 + W) (1 - 1 / n)) in *. set (L := ln (- (a * u))). set (LX := ln (1 + W)).
  field. repeat split; lra.
Qed.
Lemma ln_le_sub x : 0 < x -> ln x <= x - 1.
Proof.
  intros H. pose proof (exp_ineq1_le (ln x)) as E. rewrite exp_ln in E by exact H. lra.
Qed.
(** 1 - X^-m <= m (X - 1) *)
Lemma power_drop X m : 1 <= X -> 0 <= m -> 0 <= 1 - Rpower X (- m) <= m * (X - 1).
Proof.
  intros HX Hm. assert (0 <= ln X) by (rewrite <- ln_1; destruct HX as [HX| <-]; [left; apply ln_increasing; lra|lra]).
  pose proof (ln_le_sub X ltac:(lra)). unfold Rpower. pose proof (exp_ineq1_le (- m * ln X)).
  assert (exp (- m * ln X) <= 1). { rewrite <- exp_0. destruct (Req_dec (- m * ln X) 0) as [->|]; [lra|]. left. apply exp_increasing. nra. }
  split; [lra|]. nra.
Qed.
Lemma vt_cell_u r s a n u : 0 < a -> n <> 0 -> (u = 0 -> 1 < n) -> derivable_pt_lim (vt_cell r s a n) u (vt_du r s a n u).
Proof.
  intros Ha Hn Hb. destruct (Rlt_dec u 0) as [N|N]; [apply vt_cell_u_neg; assumption|]. unfold vt_du. rewrite over_nonneg by lra.
  destruct (Req_dec u 0) as [->|Z]; [|apply (dpl_over_pos s (fun u => (s - r) / (Rpower (1 + Rpower (Rabs (a * u)) n) (1 - 1 / n)) + r)); lra].
  specialize (Hb eq_refl). pose proof (Rabs_pos (s - r)) as Hs. pose proof (rp_pos a n) as Pa.
  assert (Hm : 0 <= 1 - 1 / n <= 1).
  { unfold Rdiv. rewrite Rmult_1_l. pose proof (Rinv_0_lt_compat n ltac:(lra)). assert (/ n < / 1) by (apply Rinv_lt_contravar; lra). rewrite Rinv_1 in *. lra. }
  apply (dpl_over_0 s (fun u => (s - r) / (Rpower (1 + Rpower (Rabs (a * u)) n) (1 - 1 / n)) + r) (Rabs (s - r) * Rpower a n + 1) n); [|exact Hb|].
  - assert (0 <= Rabs (s - r) * Rpower a n) by (apply Rmult_le_pos; lra). lra.
  - intros h Hh. rewrite (Rabs_left (a * h)) by (apply neg_au; lra). replace (- (a * h)) with (a * - h) by ring. rewrite <- Rpower_mult_distr by lra.
    pose proof (rp_pos (- h) n) as Hp. set (A := Rpower a n) in *. set (P := Rpower (- h) n) in *. assert (0 < A * P) by (apply Rmult_lt_0_compat; assumption).
    pose proof (power_drop (1 + A * P) (1 - 1 / n) ltac:(lra) ltac:(lra)) as PD.
    rewrite Rpower_Ropp in PD. set (T := Rpower (1 + A * P) (1 - 1 / n)) in *. assert (0 < T) by apply rp_pos.
    replace ((s - r) / T + r - s) with (- ((s - r) * (1 - / T))) by (field; lra). rewrite Rabs_Ropp, Rabs_mult, (Rabs_pos_eq (1 - / T)) by lra.
    apply Rle_trans with (Rabs (s - r) * (A * P)); [|nra]. apply Rmult_le_compat_l; [assumption|]. nra.
Qed.
