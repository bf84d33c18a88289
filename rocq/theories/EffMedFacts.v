From Verif Require Import Py Vec VecDeriv SensW Scaling EffMed SpecEffMed.
From Coq Require Import Lra Ranalysis5.
Local Open Scope R_scope.

Lemma dpl_eq' f x a b : derivable_pt_lim f x a -> a = b -> derivable_pt_lim f x b.
Proof. intros H <-. exact H. Qed.
(** ** Bounds *)
Section Bounds.
  Context (c : emt) (phi : R) (P0 : 0 < sig0 c) (P1 : 0 < sig1 c) (HF : fraction phi).
  Notation s0 := (sig0 c). Notation s1 := (sig1 c).
  Notation tilde := ((1 - phi) * s1 + phi * s0).
  Lemma tilde_range : low c <= tilde <= high c.
  Proof. unfold low, high, fraction in *. pose proof (Rmin_l s0 s1). pose proof (Rmin_r s0 s1). pose proof (Rmax_l s0 s1). pose proof (Rmax_r s0 s1). split; nra. Qed.
  Lemma low_pos : 0 < low c. Proof. apply Rmin_glb_lt; assumption. Qed.
  Lemma tilde_pos : 0 < tilde. Proof. pose proof tilde_range. pose proof low_pos. lra. Qed.
  Lemma wiener_lo : fst (wiener_bounds c phi) = s0 * s1 / tilde.
  Proof.
    pose proof tilde_pos as T. unfold wiener_bounds. cbn [fst]. assert (E : (1 - phi) / s0 + phi / s1 = tilde / (s0 * s1)) by (field; lra). rewrite E. field. split; [lra|split; lra].
  Qed.
  Lemma wiener_gap : snd (wiener_bounds c phi) - (1 - phi) * phi * (s0 - s1) ^ 2 / tilde = fst (wiener_bounds c phi).
  Proof. rewrite wiener_lo. pose proof tilde_pos. unfold wiener_bounds. cbn [snd]. field. lra. Qed.
  Lemma gap_pos : 0 <= (1 - phi) * phi * (s0 - s1) ^ 2.
  Proof. unfold fraction in HF. pose proof (pow2_ge_0 (s0 - s1)). apply Rmult_le_pos; [nra|assumption]. Qed.
  Lemma c49_wiener : low c <= fst (wiener_bounds c phi) /\ fst (wiener_bounds c phi) <= snd (wiener_bounds c phi) /\ snd (wiener_bounds c phi) <= high c.
  Proof.
    pose proof tilde_range as TR. pose proof tilde_pos as T. pose proof low_pos as LP. split; [|split].
    - rewrite wiener_lo. apply (Rmult_le_reg_r tilde); [assumption|]. unfold Rdiv. rewrite Rmult_assoc, Rinv_l, Rmult_1_r by lra.
      assert (E : s0 * s1 = low c * high c). { unfold low, high, Rmin, Rmax. destruct (Rle_dec s0 s1); ring. } rewrite E. apply Rmult_le_compat_l; lra.
    - rewrite <- wiener_gap. pose proof gap_pos. pose proof (Rinv_0_lt_compat _ T). unfold Rdiv. nra.
    - unfold wiener_bounds, high. cbn [snd]. unfold fraction in HF. pose proof (Rmax_l s0 s1). pose proof (Rmax_r s0 s1). nra.
  Qed.
  Lemma shrink g a b : 0 <= g -> 0 < a -> a <= b -> g / b <= g / a.
  Proof. intros G A B. unfold Rdiv. apply Rmult_le_compat_l; [assumption|]. apply Rinv_le_contravar; assumption. Qed.
  (** The two numbers in the order in which they are returned. *)
  Lemma c49_hs : fst (wiener_bounds c phi) <= snd (hashin_shtrikman_bounds c phi) /\ snd (hashin_shtrikman_bounds c phi) <= fst (hashin_shtrikman_bounds c phi) /\
    fst (hashin_shtrikman_bounds c phi) <= snd (wiener_bounds c phi).
  Proof.
    unfold hashin_shtrikman_bounds. cbn [fst snd]. rewrite <- wiener_gap. pose proof tilde_pos as T. pose proof gap_pos as G. pose proof low_pos as LP. unfold low in LP.
    assert (LH : Rmin s0 s1 <= Rmax s0 s1) by (pose proof (Rmin_l s0 s1); pose proof (Rmax_l s0 s1); lra).
    pose proof (shrink _ tilde (tilde + 2 * Rmin s0 s1) G T ltac:(lra)). pose proof (shrink _ (tilde + 2 * Rmin s0 s1) (tilde + 2 * Rmax s0 s1) G ltac:(lra) ltac:(lra)).
    split; [lra|]. split; [lra|]. assert (0 <= (1 - phi) * phi * (s0 - s1) ^ 2 / (tilde + 2 * Rmax s0 s1)); [|lra]. apply Rmult_le_pos; [assumption|]. left. apply Rinv_0_lt_compat. lra.
  Qed.
  Lemma c49_swapped : 0 < phi < 1 -> s0 <> s1 -> snd (hashin_shtrikman_bounds c phi) < fst (hashin_shtrikman_bounds c phi).
  Proof.
    intros HP HN. unfold hashin_shtrikman_bounds. cbn [fst snd]. pose proof tilde_pos as T. pose proof low_pos as LP. unfold low in LP.
    assert (LH : Rmin s0 s1 < Rmax s0 s1) by (unfold Rmin, Rmax; destruct (Rle_dec s0 s1); lra).
    assert (G : 0 < (1 - phi) * phi * (s0 - s1) ^ 2). { apply Rmult_lt_0_compat; [nra|]. assert (D : s0 - s1 <> 0) by lra. pose proof (Rsqr_pos_lt _ D). unfold Rsqr in *. lra. }
    assert ((1 - phi) * phi * (s0 - s1) ^ 2 / (tilde + 2 * Rmax s0 s1) < (1 - phi) * phi * (s0 - s1) ^ 2 / (tilde + 2 * Rmin s0 s1)); [|lra].
    unfold Rdiv. apply Rmult_lt_compat_l; [assumption|]. apply Rinv_lt_contravar; [apply Rmult_lt_0_compat; lra|lra].
  Qed.
End Bounds.

(** ** Depolarization factors *)
Lemma atan_bounds x : 0 < x -> x / (1 + x ^ 2) < atan x < x.
Proof.
  intros Hx. destruct (MVT_cor2 atan (fun y => / (1 + y ^ 2)) 0 x Hx) as (y & E & Hy).
  - intros y _. apply derivable_pt_lim_atan.
  - rewrite atan_0, !Rminus_0_r in E. rewrite E. pose proof (pow2_ge_0 y). assert (Y : 0 < y ^ 2 < x ^ 2) by (cbn [pow]; nra).
    assert (I1 : / (1 + x ^ 2) < / (1 + y ^ 2)) by (apply Rinv_lt_contravar; [apply Rmult_lt_0_compat; lra|lra]). assert (I2 : / (1 + y ^ 2) < 1) by (rewrite <- Rinv_1; apply Rinv_lt_contravar; lra). unfold Rdiv. split; nra.
Qed.
Lemma atanh_bounds x : 0 < x < 1 -> x < 1 / 2 * ln ((1 + x) / (1 - x)) < x / (1 - x ^ 2).
Proof.
  intros [H0 H1]. assert (EL : ln ((1 + x) / (1 - x)) = ln (1 + x) - ln (1 - x)) by (unfold Rdiv; rewrite ln_mult, ln_Rinv by (try apply Rinv_0_lt_compat; lra); ring). rewrite EL.
  destruct (MVT_cor2 (fun y => 1 / 2 * (ln (1 + y) - ln (1 - y))) (fun y => / (1 - y ^ 2)) 0 x H0) as (y & E & Hy).
  - intros y [Y0 Y1]. eapply dpl_eq'.
    + apply derivable_pt_lim_scal. apply (derivable_pt_lim_minus (fun y => ln (1 + y)) (fun y => ln (1 - y))).
      * apply (derivable_pt_lim_comp (fun y => 1 + y) ln); [apply (derivable_pt_lim_plus (fun _ => 1) id); [apply derivable_pt_lim_const|apply derivable_pt_lim_id]|apply derivable_pt_lim_ln; lra].
      * apply (derivable_pt_lim_comp (fun y => 1 - y) ln); [apply (derivable_pt_lim_minus (fun _ => 1) id); [apply derivable_pt_lim_const|apply derivable_pt_lim_id]|apply derivable_pt_lim_ln; lra].
    + cbn beta. field. repeat split; try lra. nra.
  - cbn beta in E. rewrite Rplus_0_r, !Rminus_0_r in E. assert (E' : 1 / 2 * (ln (1 + x) - ln (1 - x)) = / (1 - y ^ 2) * x) by lra. rewrite E'. assert (Y : 0 < y ^ 2 < x ^ 2) by (cbn [pow]; nra). assert (X : x ^ 2 < 1) by (cbn [pow]; nra).
    assert (I1 : / (1 - y ^ 2) < / (1 - x ^ 2)) by (apply Rinv_lt_contravar; [apply Rmult_lt_0_compat; lra|lra]). assert (I2 : 1 < / (1 - y ^ 2)) by (rewrite <- Rinv_1; apply Rinv_lt_contravar; lra). unfold Rdiv. split; nra.
Qed.
Lemma getQ_range alpha : 0 < alpha -> 0 < getQ alpha < 1 / 2.
Proof.
  intros HA. unfold getQ. destruct (Rlt_dec alpha 1) as [L|NL]; [|destruct (Rlt_dec 1 alpha) as [G|NG]; [|lra]].
  - set (chi := sqrt (1 / alpha ^ 2 - 1)). cbv zeta. assert (A2 : 0 < alpha ^ 2 < 1) by (cbn [pow]; nra).
    assert (PI1 : 1 < / alpha ^ 2) by (rewrite <- Rinv_1; apply Rinv_lt_contravar; lra).
    assert (CP : 0 < chi) by (apply sqrt_lt_R0; unfold Rdiv; lra). assert (C2 : chi ^ 2 = 1 / alpha ^ 2 - 1) by (unfold chi; apply pow2_sqrt; unfold Rdiv; lra).
    destruct (atan_bounds chi CP) as [B1 B2]. assert (EA : alpha ^ 2 = / (1 + chi ^ 2)) by (rewrite C2; field; lra).
    assert (E : 1 / (alpha ^ 2 - 1) * (1 - atan chi / chi) = - ((1 + chi ^ 2) * (chi - atan chi) / chi ^ 3)) by (rewrite EA; field; split; [lra|]; cbn [pow]; nra).
    rewrite E. assert (C3 : 0 < chi ^ 3) by (apply pow_lt; assumption). assert (U : 0 < (1 + chi ^ 2) * (chi - atan chi) / chi ^ 3) by (apply Rdiv_lt_0_compat; [apply Rmult_lt_0_compat; [pose proof (pow2_ge_0 chi); lra|lra]|assumption]).
    assert (V : (1 + chi ^ 2) * (chi - atan chi) / chi ^ 3 < 1); [|lra]. apply (Rmult_lt_reg_r (chi ^ 3)); [assumption|]. unfold Rdiv. rewrite Rmult_assoc, Rinv_l, Rmult_1_r, Rmult_1_l by lra.
    apply (Rmult_lt_compat_l (1 + chi ^ 2)) in B1; [|pose proof (pow2_ge_0 chi); lra]. replace ((1 + chi ^ 2) * (chi / (1 + chi ^ 2))) with chi in B1 by (field; pose proof (pow2_ge_0 chi); lra). cbn [pow] in *. nra.
  - set (chi := sqrt (1 - 1 / alpha ^ 2)). cbv zeta. assert (A2 : 1 < alpha ^ 2) by (cbn [pow]; nra).
    assert (PI1 : 0 < / alpha ^ 2 < 1) by (split; [apply Rinv_0_lt_compat; lra|rewrite <- Rinv_1; apply Rinv_lt_contravar; lra]).
    assert (CP : 0 < chi) by (apply sqrt_lt_R0; unfold Rdiv; lra). assert (C2 : chi ^ 2 = 1 - 1 / alpha ^ 2) by (unfold chi; apply pow2_sqrt; unfold Rdiv; lra).
    assert (C1 : chi < 1) by (assert (X : chi ^ 2 < 1) by (unfold Rdiv in C2; lra); clear -X CP; cbn [pow] in X; nra).
    destruct (atanh_bounds chi (conj CP C1)) as [B1 B2]. set (l := ln ((1 + chi) / (1 - chi))) in *. assert (D : 0 < 1 - chi ^ 2) by (unfold Rdiv in C2; lra).
    assert (EA : alpha ^ 2 = / (1 - chi ^ 2)) by (rewrite C2; field; lra).
    assert (E : 1 / (alpha ^ 2 - 1) * (1 - 1 / (2 * chi) * l) = - ((1 - chi ^ 2) * (1 / 2 * l - chi) / chi ^ 3)) by (rewrite EA; field; repeat split; try lra; cbn [pow] in *; nra).
    rewrite E. assert (C3 : 0 < chi ^ 3) by (apply pow_lt; assumption). assert (U : 0 < (1 - chi ^ 2) * (1 / 2 * l - chi) / chi ^ 3) by (apply Rdiv_lt_0_compat; [apply Rmult_lt_0_compat; lra|assumption]).
    assert (V : (1 - chi ^ 2) * (1 / 2 * l - chi) / chi ^ 3 < 1); [|lra]. apply (Rmult_lt_reg_r (chi ^ 3)); [assumption|]. unfold Rdiv at 1. rewrite Rmult_assoc, Rinv_l, Rmult_1_r, Rmult_1_l by lra.
    apply (Rmult_lt_compat_l (1 - chi ^ 2)) in B2; [|lra]. replace ((1 - chi ^ 2) * (chi / (1 - chi ^ 2))) with chi in B2 by (field; lra). cbn [pow] in *. nra.
Qed.
Lemma getQ_1 : getQ 1 = 1 / 3.
Proof. unfold getQ. destruct (Rlt_dec 1 1); [lra|]. reflexivity. Qed.

(** ** The field factors *)
Definition dA (Q sj s : R) : R := (1 - Q) * s + Q * sj.
Definition dB (Q sj s : R) : R := 2 * Q * s + (1 - 2 * Q) * sj.
Lemma dAB_pos Q sj s : 0 < Q < 1 / 2 -> 0 < sj -> 0 < s -> 0 < dA Q sj s /\ 0 < dB Q sj s.
Proof. intros H1 H2 H3. unfold dA, dB. split; nra. Qed.
Lemma getR_eq sj s alpha : 0 < alpha -> 0 < sj -> 0 < s -> getR sj s alpha = s / 3 * (2 / dA (getQ alpha) sj s + 1 / dB (getQ alpha) sj s).
Proof.
  intros HA HJ HS. pose proof (getQ_range alpha HA) as HQ. destruct (dAB_pos (getQ alpha) sj s HQ HJ HS) as [PA PB]. unfold getR. destruct (Req_EM_T alpha 1) as [->|N].
  - rewrite getQ_1 in *. unfold dA, dB in *. field. repeat split; lra.
  - cbv zeta. unfold dA, dB in *. f_equal. f_equal; f_equal; ring.
Qed.
Lemma getR_pos sj s alpha : 0 < alpha -> 0 < sj -> 0 < s -> 0 < getR sj s alpha.
Proof.
  intros HA HJ HS. rewrite getR_eq by assumption. destruct (dAB_pos (getQ alpha) sj s (getQ_range alpha HA) HJ HS) as [PA PB]. apply Rmult_lt_0_compat; [lra|].
  pose proof (Rdiv_lt_0_compat 2 _ ltac:(lra) PA). pose proof (Rdiv_lt_0_compat 1 _ ltac:(lra) PB). lra.
Qed.
(** The contribution of a phase, divided by s. *)
Definition hh (sj alpha s : R) : R := (s - sj) * (2 / dA (getQ alpha) sj s + 1 / dB (getQ alpha) sj s) / 3.
(** Its divided difference. *)
Definition dd (sj alpha s t : R) : R := sj * (2 / (dA (getQ alpha) sj s * dA (getQ alpha) sj t) + 1 / (dB (getQ alpha) sj s * dB (getQ alpha) sj t)) / 3.
Lemma hh_R sj alpha s : 0 < alpha -> 0 < sj -> 0 < s -> (s - sj) * getR sj s alpha = s * hh sj alpha s.
Proof. intros HA HJ HS. rewrite getR_eq by assumption. unfold hh. field. destruct (dAB_pos (getQ alpha) sj s (getQ_range alpha HA) HJ HS). split; lra. Qed.
Lemma hh_diff sj alpha s t : 0 < alpha -> 0 < sj -> 0 < s -> 0 < t -> hh sj alpha t - hh sj alpha s = (t - s) * dd sj alpha s t.
Proof.
  intros HA HJ HS HT. destruct (dAB_pos (getQ alpha) sj s (getQ_range alpha HA) HJ HS) as [A1 B1]. destruct (dAB_pos (getQ alpha) sj t (getQ_range alpha HA) HJ HT) as [A2 B2].
  unfold hh, dd. set (Q := getQ alpha) in *. unfold dA, dB in *. field. repeat split; lra.
Qed.
Lemma dd_pos sj alpha s t : 0 < alpha -> 0 < sj -> 0 < s -> 0 < t -> 0 < dd sj alpha s t.
Proof.
  intros HA HJ HS HT. destruct (dAB_pos (getQ alpha) sj s (getQ_range alpha HA) HJ HS) as [A1 B1]. destruct (dAB_pos (getQ alpha) sj t (getQ_range alpha HA) HJ HT) as [A2 B2]. unfold dd.
  pose proof (Rdiv_lt_0_compat 2 _ ltac:(lra) (Rmult_lt_0_compat _ _ A1 A2)). pose proof (Rdiv_lt_0_compat 1 _ ltac:(lra) (Rmult_lt_0_compat _ _ B1 B2)). unfold Rdiv at 1. apply Rmult_lt_0_compat; [|lra]. apply Rmult_lt_0_compat; lra.
Qed.
(** getdR is the derivative of getR. *)
Lemma dpl_inv_affine a b s : a * s + b <> 0 -> derivable_pt_lim (fun x => / (a * x + b)) s (- a / (a * s + b) ^ 2).
Proof.
  intros H. eapply dpl_eq'.
  - apply dpl_ext with (fun x => 1 / (a * x + b)); [intros y; unfold Rdiv; ring|]. apply (derivable_pt_lim_div (fun _ => 1) (fun x => a * x + b) s 0 (a * 1 + 0)); [apply derivable_pt_lim_const| |assumption].
    apply (derivable_pt_lim_plus (fun x => a * x) (fun _ => b)); [apply (derivable_pt_lim_scal id), derivable_pt_lim_id|apply derivable_pt_lim_const].
  - unfold Rsqr. field. assumption.
Qed.
Lemma c56_dR sj s alpha : 0 < alpha -> 0 < sj -> 0 < s -> derivable_pt_lim (fun x => getR sj x alpha) s (getdR sj s alpha).
Proof.
  intros HA HJ HS. pose proof (getQ_range alpha HA) as HQ. destruct (dAB_pos (getQ alpha) sj s HQ HJ HS) as [PA PB]. set (Q := getQ alpha) in *.
  pose proof (dpl_inv_affine (1 - Q) (Q * sj) s ltac:(unfold dA in PA; lra)) as DA. pose proof (dpl_inv_affine (2 * Q) ((1 - 2 * Q) * sj) s ltac:(unfold dB in PB; lra)) as DB.
  unfold getR, getdR. destruct (Req_EM_T alpha 1) as [->|N].
  - pose proof (dpl_inv_affine 2 sj s ltac:(lra)) as D. eapply dpl_eq'.
    + apply dpl_ext with (fun x => (3 * x) * / (2 * x + sj)); [reflexivity|]. apply (derivable_pt_lim_mult (fun x => 3 * x) (fun x => / (2 * x + sj))); [apply (derivable_pt_lim_scal id), derivable_pt_lim_id|exact D].
    + cbn beta. field. lra.
  - cbv zeta. fold Q. eapply dpl_eq'.
    + apply dpl_ext with (fun x => (/ 3 * x) * (2 * / ((1 - Q) * x + Q * sj) + / (2 * Q * x + (1 - 2 * Q) * sj))).
      * intros y. unfold Rdiv. f_equal; [ring|]. rewrite Rmult_1_l. f_equal; [f_equal|]; f_equal; ring.
      * apply (derivable_pt_lim_mult (fun x => / 3 * x)); [apply (derivable_pt_lim_scal id), derivable_pt_lim_id|].
        apply (derivable_pt_lim_plus (fun x => 2 * / ((1 - Q) * x + Q * sj))); [apply (derivable_pt_lim_scal (fun x => / ((1 - Q) * x + Q * sj))); exact DA|exact DB].
    + cbn beta. unfold dA, dB in *. replace (s + Q * (sj - s)) with ((1 - Q) * s + Q * sj) by ring. replace (sj - 2 * Q * (sj - s)) with (2 * Q * s + (1 - 2 * Q) * sj) by ring. field. split; lra.
Qed.
(** ** Self-consistency *)
Section Solve.
  Context (c : emt) (HC : sensible_emt c).
  Notation s0 := (sig0 c). Notation s1 := (sig1 c).
  Notation h0 := (hh s0 (alpha0 c)). Notation h1 := (hh s1 (alpha1 c)).
  Definition GG (phi s : R) : R := (1 - phi) * h0 s + phi * h1 s.
  Lemma defect_G phi s : 0 < s -> defect c phi s = s * GG phi s.
  Proof.
    intros HS. destruct HC as (P0 & P1 & A0 & A1 & _). unfold defect, GG. rewrite !Rmult_assoc, hh_R, hh_R by assumption. ring.
  Qed.
  Lemma exact_G phi s : 0 < s -> (exact c phi s <-> GG phi s = 0).
  Proof. intros HS. unfold exact. rewrite defect_G by assumption. split; [intros [_ E]; destruct (Rmult_integral _ _ E); [lra|assumption]|intros ->; split; [assumption|ring]]. Qed.
  Definition DD (phi s t : R) : R := (1 - phi) * dd s0 (alpha0 c) s t + phi * dd s1 (alpha1 c) s t.
  Lemma GG_diff phi s t : 0 < s -> 0 < t -> GG phi t - GG phi s = (t - s) * DD phi s t.
  Proof.
    intros HS HT. destruct HC as (P0 & P1 & A0 & A1 & _). unfold GG, DD. pose proof (hh_diff s0 (alpha0 c) s t A0 P0 HS HT) as E0. pose proof (hh_diff s1 (alpha1 c) s t A1 P1 HS HT) as E1.
    replace (h0 t) with (h0 s + (t - s) * dd s0 (alpha0 c) s t) by lra. replace (h1 t) with (h1 s + (t - s) * dd s1 (alpha1 c) s t) by lra. ring.
  Qed.
  Lemma DD_pos phi s t : fraction phi -> 0 < s -> 0 < t -> 0 < DD phi s t.
  Proof.
    intros [F0 F1] HS HT. destruct HC as (P0 & P1 & A0 & A1 & _). unfold DD. pose proof (dd_pos s0 (alpha0 c) s t A0 P0 HS HT). pose proof (dd_pos s1 (alpha1 c) s t A1 P1 HS HT).
    destruct (Req_dec phi 1) as [->|]; [lra|]. assert (0 < (1 - phi) * dd s0 (alpha0 c) s t) by (apply Rmult_lt_0_compat; lra). assert (0 <= phi * dd s1 (alpha1 c) s t) by (apply Rmult_le_pos; lra). lra.
  Qed.
  Lemma GG_mono phi s t : fraction phi -> 0 < s -> s < t -> GG phi s < GG phi t.
  Proof. intros HF HS HT. pose proof (GG_diff phi s t HS ltac:(lra)). pose proof (DD_pos phi s t HF HS ltac:(lra)). nra. Qed.
  Lemma c56_unique phi s t : fraction phi -> exact c phi s -> exact c phi t -> s = t.
  Proof.
    intros HF ES ET. pose proof (proj1 ES) as HS. pose proof (proj1 ET) as HT. apply exact_G in ES; [|assumption]. apply exact_G in ET; [|assumption].
    destruct (Rtotal_order s t) as [L|[E|G]]; [|assumption|]; [pose proof (GG_mono phi s t HF HS L)|pose proof (GG_mono phi t s HF HT G)]; lra.
  Qed.
  Lemma hh_sign sj alpha s : 0 < alpha -> 0 < sj -> 0 < s -> (s <= sj -> hh sj alpha s <= 0) /\ (sj <= s -> 0 <= hh sj alpha s).
  Proof.
    intros HA HJ HS. destruct (dAB_pos (getQ alpha) sj s (getQ_range alpha HA) HJ HS) as [A1 B1]. unfold hh. pose proof (Rdiv_lt_0_compat 2 _ ltac:(lra) A1). pose proof (Rdiv_lt_0_compat 1 _ ltac:(lra) B1).
    set (w := 2 / dA (getQ alpha) sj s + 1 / dB (getQ alpha) sj s) in *. assert (0 < w) by (unfold w; lra). split; intros; unfold Rdiv; nra.
  Qed.
  Lemma low_high : 0 < low c /\ low c <= s0 <= high c /\ low c <= s1 <= high c.
  Proof. destruct HC as (P0 & P1 & _). unfold low, high. split; [apply Rmin_glb_lt; assumption|]. split; split; auto using Rmin_l, Rmin_r, Rmax_l, Rmax_r. Qed.
  Lemma GG_ends phi : fraction phi -> GG phi (low c) <= 0 <= GG phi (high c).
  Proof.
    intros [F0 F1]. destruct HC as (P0 & P1 & A0 & A1 & _). destruct low_high as (LP & [L0 H0] & [L1 H1]). unfold GG.
    pose proof (proj1 (hh_sign s0 (alpha0 c) (low c) A0 P0 LP) L0). pose proof (proj1 (hh_sign s1 (alpha1 c) (low c) A1 P1 LP) L1).
    pose proof (proj2 (hh_sign s0 (alpha0 c) (high c) A0 P0 ltac:(lra)) H0). pose proof (proj2 (hh_sign s1 (alpha1 c) (high c) A1 P1 ltac:(lra)) H1). split; nra.
  Qed.
  Lemma hh_cont sj alpha s : 0 < alpha -> 0 < sj -> 0 < s -> continuity_pt (hh sj alpha) s.
  Proof.
    intros HA HJ HS. pose proof (getQ_range alpha HA) as HQ. destruct (dAB_pos (getQ alpha) sj s HQ HJ HS) as [PA PB]. unfold hh, dA, dB in *. set (Q := getQ alpha) in *. reg; lra.
  Qed.
  Lemma GG_cont phi s : 0 < s -> continuity_pt (GG phi) s.
  Proof.
    intros HS. destruct HC as (P0 & P1 & A0 & A1 & _). unfold GG. apply (continuity_pt_plus (fun s => (1 - phi) * h0 s) (fun s => phi * h1 s)); apply continuity_pt_scal; apply hh_cont; assumption.
  Qed.
  Lemma c56_exists phi : fraction phi -> exists s, exact c phi s /\ low c <= s <= high c.
  Proof.
    intros HF. destruct (GG_ends phi HF) as [E0 E1]. destruct low_high as (LP & [L0 H0] & _). 
    destruct (Req_dec (GG phi (low c)) 0) as [Z0|N0]; [exists (low c); split; [apply exact_G; assumption|lra]|].
    destruct (Req_dec (GG phi (high c)) 0) as [Z1|N1]; [exists (high c); split; [apply exact_G; [lra|assumption]|lra]|].
    assert (LT : low c < high c). { destruct (Req_dec (low c) (high c)) as [E|]; [|lra]. rewrite E in *. lra. }
    destruct (IVT_interv (GG phi) (low c) (high c)) as (z & Hz & Ez); [intros a Ha; apply GG_cont; lra|assumption|lra|lra|]. exists z. split; [apply exact_G; [lra|assumption]|lra].
  Qed.
  (** One step. *)
  Lemma step_den phi s : fraction phi -> 0 < s -> 0 < (1 - phi) * getR s0 s (alpha0 c) + phi * getR s1 s (alpha1 c).
  Proof.
    intros [F0 F1] HS. destruct HC as (P0 & P1 & A0 & A1 & _). pose proof (getR_pos s0 s (alpha0 c) A0 P0 HS). pose proof (getR_pos s1 s (alpha1 c) A1 P1 HS).
    destruct (Req_dec phi 1) as [->|]; [lra|]. assert (0 < (1 - phi) * getR s0 s (alpha0 c)) by (apply Rmult_lt_0_compat; lra). assert (0 <= phi * getR s1 s (alpha1 c)) by (apply Rmult_le_pos; lra). lra.
  Qed.
  Lemma step_range phi s : fraction phi -> 0 < s -> low c <= sc_step c phi s <= high c.
  Proof.
    intros HF HS. pose proof (step_den phi s HF HS) as PD. destruct HF as [F0 F1]. destruct low_high as (LP & [L0 H0] & [L1 H1]). destruct HC as (P0 & P1 & A0 & A1 & _). unfold sc_step. cbv zeta.
    pose proof (getR_pos s0 s (alpha0 c) A0 P0 HS). pose proof (getR_pos s1 s (alpha1 c) A1 P1 HS). set (r0 := getR s0 s (alpha0 c)) in *. set (r1 := getR s1 s (alpha1 c)) in *.
    assert (W0 : 0 <= (1 - phi) * r0) by (apply Rmult_le_pos; lra). assert (W1 : 0 <= phi * r1) by (apply Rmult_le_pos; lra).
    set (w0 := (1 - phi) * r0) in *. set (w1 := phi * r1) in *. replace ((1 - phi) * s0 * r0) with (s0 * w0) by (unfold w0; ring). replace (phi * s1 * r1) with (s1 * w1) by (unfold w1; ring).
    split; apply (Rmult_le_reg_r (w0 + w1)); try assumption; unfold Rdiv; rewrite Rmult_assoc, Rinv_l, Rmult_1_r by lra; nra.
  Qed.
  Lemma step_fixed phi s : fraction phi -> 0 < s -> (sc_step c phi s = s <-> defect c phi s = 0).
  Proof.
    intros HF HS. pose proof (step_den phi s HF HS) as PD. unfold sc_step, defect. cbv zeta. set (r0 := getR s0 s (alpha0 c)) in *. set (r1 := getR s1 s (alpha1 c)) in *. split; intros E.
    - apply (f_equal (fun x => x * ((1 - phi) * r0 + phi * r1))) in E. unfold Rdiv in E. rewrite Rmult_assoc, Rinv_l, Rmult_1_r in E by lra. lra.
    - apply (Rmult_eq_reg_r ((1 - phi) * r0 + phi * r1)); [|lra]. unfold Rdiv. rewrite Rmult_assoc, Rinv_l, Rmult_1_r by lra. lra.
  Qed.
  Lemma step_ends s : 0 < s -> sc_step c 0 s = s0 /\ sc_step c 1 s = s1.
  Proof.
    intros HS. destruct HC as (P0 & P1 & A0 & A1 & _). unfold sc_step. cbv zeta. pose proof (getR_pos s0 s (alpha0 c) A0 P0 HS). pose proof (getR_pos s1 s (alpha1 c) A1 P1 HS). split; field; lra.
  Qed.
  Lemma c56_inverse phi s : fraction phi -> s0 <> s1 -> exact c phi s -> sc_inverse c s = phi.
  Proof.
    intros HF HN [HS ED]. destruct HC as (P0 & P1 & A0 & A1 & _). pose proof (getR_pos s0 s (alpha0 c) A0 P0 HS) as R0. pose proof (getR_pos s1 s (alpha1 c) A1 P1 HS) as R1. unfold sc_inverse. cbv zeta. unfold defect in ED.
    set (r0 := getR s0 s (alpha0 c)) in *. set (r1 := getR s1 s (alpha1 c)) in *.
    assert (ND : (s1 - s) * r1 - (s0 - s) * r0 <> 0).
    { intros E. assert (E2 : (s0 - s) * r0 = 0) by (assert (X : (s1 - s) * r1 = (s0 - s) * r0) by lra; assert (Y : (s - s0) * r0 = 0) by (replace ((1 - phi) * (s - s0) * r0 + phi * (s - s1) * r1) with ((1 - phi) * ((s - s0) * r0) - phi * ((s1 - s) * r1)) in ED by ring; rewrite X in ED; lra); lra).
      assert (E1 : (s1 - s) * r1 = 0) by lra. apply Rmult_integral in E2. apply Rmult_integral in E1. destruct E2; [|lra]. destruct E1; [|lra]. lra. }
    apply (Rmult_eq_reg_r ((s1 - s) * r1 - (s0 - s) * r0)); [|assumption]. unfold Rdiv. rewrite Rmult_assoc, Rinv_l, Rmult_1_r by assumption. lra.
  Qed.
  Lemma c56_inverse_exact s : low c < s < high c -> 0 < sc_inverse c s < 1 /\ exact c (sc_inverse c s) s.
  Proof.
    intros [HL HH]. destruct low_high as (LP & _). assert (HS : 0 < s) by lra. destruct HC as (P0 & P1 & A0 & A1 & _). pose proof (getR_pos s0 s (alpha0 c) A0 P0 HS) as R0. pose proof (getR_pos s1 s (alpha1 c) A1 P1 HS) as R1.
    unfold exact, defect, sc_inverse, low, high, Rmin, Rmax in *. cbv zeta. set (r0 := getR s0 s (alpha0 c)) in *. set (r1 := getR s1 s (alpha1 c)) in *.
    assert (X : (0 < (s - s0) * r0 /\ 0 < (s1 - s) * r1) \/ (0 < (s0 - s) * r0 /\ 0 < (s - s1) * r1)). { destruct (Rle_dec s0 s1); [left|right]; split; apply Rmult_lt_0_compat; lra. }
    set (x := (s - s0) * r0) in *. set (y := (s1 - s) * r1) in *. replace (- (s0 - s) * r0) with x by (unfold x; ring). replace (y - (s0 - s) * r0) with (x + y) by (unfold x; ring).
    replace ((s0 - s) * r0) with (- x) in X by (unfold x; ring). replace ((s - s1) * r1) with (- y) in X by (unfold y; ring).
    assert (ND : x + y <> 0) by (destruct X; lra). split.
    - destruct X as [[X Y]|[X Y]].
      + split; [apply Rdiv_lt_0_compat; lra|]. apply (Rmult_lt_reg_r (x + y)); [lra|]. unfold Rdiv. rewrite Rmult_assoc, Rinv_l by assumption. lra.
      + replace (x / (x + y)) with (- x / (- x + - y)) by (field; split; lra). split; [apply Rdiv_lt_0_compat; lra|]. apply (Rmult_lt_reg_r (- x + - y)); [lra|]. unfold Rdiv. rewrite Rmult_assoc, Rinv_l by lra. lra.
    - split; [assumption|]. replace ((1 - x / (x + y)) * (s - s0) * r0 + x / (x + y) * (s - s1) * r1) with ((1 - x / (x + y)) * x - x / (x + y) * y) by (unfold x, y; ring). field. assumption.
  Qed.
End Solve.
