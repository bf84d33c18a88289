From Verif Require Import Py Vec VecDeriv PropsM PropsFacts ParamFacts SpecMass MassFacts2 Empir SpecEmpir EmpirFacts EmpirFacts2 EmpirFacts3 EmpirFacts4.
From Coq Require Import Lra.
Local Open Scope R_scope.

(** For n <= 2 the conductivity has no derivative 0 at saturation. *)
Lemma vk_kink u0 k a i n : u_int u0 = false -> 0 < k -> 0 < a -> 0 <= i -> 1 < n <= 2 -> ~ derivable_pt_lim (vk_cell u0 k a i n) 0 (vk_du k a i n 0).
Proof.
  intros E Hk Ha Hi Hn D. pose proof (m_range n ltac:(lra)) as MR. set (m := 1 - 1 / n) in *. assert (NM : n * m = n - 1) by (unfold m; field; lra).
  unfold vk_du in D. rewrite over_nonneg in D by lra.
  pose proof (rp_pos a (n - 1)) as PA. pose proof (rp_pos (/ 2) m) as P2.
  assert (Hc : 0 < k * (Rpower (/ 2) m * Rpower a (n - 1))) by (apply Rmult_lt_0_compat; [assumption|apply Rmult_lt_0_compat; assumption]).
  destruct (D _ Hc) as [[d Hd] B]. cbn [pos] in B. pose proof (Rinv_0_lt_compat a Ha) as Pia.
  set (h := Rmin (d / 2) (Rmin 1 (/ a))).
  assert (h0 : 0 < h) by (unfold h; repeat apply Rmin_glb_lt; lra).
  assert (h1 : h <= d / 2) by apply Rmin_l. assert (h2 : h <= 1) by (unfold h; eapply Rle_trans; [apply Rmin_r|apply Rmin_l]).
  assert (h3 : h <= / a) by (unfold h; eapply Rle_trans; [apply Rmin_r|apply Rmin_r]).
  specialize (B (- h) ltac:(lra)). rewrite Rabs_Ropp, Rabs_pos_eq in B by lra. specialize (B ltac:(lra)). rewrite Rplus_0_l in B.
  rewrite (vk_neg u0 k a i n (- h) ltac:(lra) Ha ltac:(lra)) in B. rewrite Ropp_involutive in B. fold m in B.
  replace (vk_cell u0 k a i n 0) with k in B by (unfold vk_cell, proj_p, proj_n, full_like; rewrite E, !over_nonneg by lra; ring).
  assert (AH : 0 < a * h <= 1).
  { split; [apply Rmult_lt_0_compat; assumption|]. apply (Rmult_le_compat_l a) in h3; [|lra]. rewrite Rinv_r in h3 by lra. exact h3. }
  pose proof (rp_le_1 _ n AH ltac:(lra)) as PW. set (w := Rpower (a * h) n) in *.
  pose proof (power_drop (1 + w) (i * m) ltac:(lra) ltac:(apply Rmult_le_pos; lra)) as PD. pose proof (rp_pos (1 + w) (- (i * m))) as PS.
  set (S := Rpower (1 + w) (- (i * m))) in *.
  assert (Q0 : 0 < w / (1 + w) <= 1).
  { split; [apply Rdiv_lt_0_compat; lra|]. apply (Rmult_le_reg_r (1 + w)); [lra|]. replace (w / (1 + w) * (1 + w)) with w by (field; lra). lra. }
  pose proof (rp_le_1 _ m Q0 ltac:(lra)) as QM.
  assert (QB : Rpower (/ 2) m * Rpower a (n - 1) * h <= Rpower (w / (1 + w)) m).
  { apply Rle_trans with (Rpower (/ 2 * w) m).
    - rewrite <- Rpower_mult_distr by lra. unfold w. rewrite Rpower_mult, NM, <- Rpower_mult_distr by lra. rewrite Rmult_assoc.
      apply Rmult_le_compat_l; [lra|]. apply Rmult_le_compat_l; [lra|].
      assert (1 <= Rpower h (n - 2)).
      { replace (n - 2) with (- (2 - n)) by ring. rewrite Rpower_Ropp. pose proof (rp_le_1 h (2 - n) ltac:(lra) ltac:(lra)) as K.
        rewrite <- Rinv_1 at 1. apply Rinv_le_contravar; lra. }
      replace (n - 1) with (n - 2 + 1) by ring. rewrite Rpower_plus, Rpower_1 by lra. nra.
    - apply rp_mono; [|lra]. split; [lra|]. apply (Rmult_le_reg_r (1 + w)); [lra|]. replace (w / (1 + w) * (1 + w)) with w by (field; lra). nra. }
  set (q := Rpower (w / (1 + w)) m) in *.
  assert (F : k * (Rpower (/ 2) m * Rpower a (n - 1)) <= (k * S * (1 - q) ^ 2 - k) / - h).
  { replace ((k * S * (1 - q) ^ 2 - k) / - h) with (k * (1 - S * (1 - q) ^ 2) / h) by (field; lra).
    apply (Rmult_le_reg_r h); [lra|]. replace (k * (1 - S * (1 - q) ^ 2) / h * h) with (k * (1 - S * (1 - q) ^ 2)) by (field; lra).
    rewrite (Rmult_assoc k). apply Rmult_le_compat_l; [lra|]. apply Rle_trans with q; [exact QB|]. 
    assert (K : S * (1 - q) ^ 2 <= 1 * (1 - q) ^ 2) by (apply Rmult_le_compat_r; [nra|lra]). nra. }
  rewrite Rminus_0_r in B. pose proof (Rle_abs ((k * S * (1 - q) ^ 2 - k) / - h)). lra.
Qed.

(** ** Bounds and monotonicity *)
Lemma frac_range a p : 0 < a -> 0 < p -> 0 < a / (a + p) <= 1.
Proof. intros Ha Hp. split; [apply Rdiv_lt_0_compat; lra|]. apply (Rmult_le_reg_r (a + p)); [lra|]. replace (a / (a + p) * (a + p)) with a by (field; lra). lra. Qed.
Lemma ht_bounds r s a b u : r <= s -> 0 < a -> r <= ht_cell r s a b u <= s.
Proof.
  intros H Ha. unfold ht_cell, over. destruct (Rle_dec 0 u); [lra|]. pose proof (frac_range a (Rpower (Rabs u) b) Ha (rp_pos _ _)) as F.
  replace (a * (s - r) / (a + Rpower (Rabs u) b)) with ((s - r) * (a / (a + Rpower (Rabs u) b))) by (pose proof (rp_pos (Rabs u) b); field; lra). nra.
Qed.
Lemma ht_mono r s a b u v : r <= s -> 0 < a -> 0 <= b -> u <= v -> ht_cell r s a b u <= ht_cell r s a b v.
Proof.
  intros H Ha Hb L. pose proof (ht_bounds r s a b u H Ha) as B. unfold ht_cell in *. destruct (Rlt_dec v 0) as [N|N]; [|rewrite (over_nonneg v) by lra; lra].
  rewrite !over_neg by lra. clear B. rewrite !Rabs_left by lra. pose proof (rp_pos (- v) b). pose proof (rp_mono (- v) (- u) b ltac:(lra) Hb).
  apply Rplus_le_compat_r. apply Rmult_le_compat_l; [nra|]. apply Rinv_le_contravar; lra.
Qed.
Lemma vt_neg r s a n u : u < 0 -> 0 < a -> vt_cell r s a n u = r + (s - r) * Rpower (1 + Rpower (a * - u) n) (- (1 - 1 / n)).
Proof.
  intros N Ha. unfold vt_cell. rewrite over_neg by exact N. rewrite Rabs_left by (apply neg_au; assumption). replace (- (a * u)) with (a * - u) by ring.
  rewrite Rpower_Ropp. unfold Rdiv. ring.
Qed.
Lemma pdrop_range X m : 1 <= X -> 0 <= m -> 0 < Rpower X (- m) <= 1.
Proof. intros HX Hm. pose proof (power_drop X m HX Hm). split; [apply rp_pos|lra]. Qed.
Lemma pdrop_mono X Y m : 0 < X <= Y -> 0 <= m -> Rpower Y (- m) <= Rpower X (- m).
Proof. intros HX Hm. rewrite !Rpower_Ropp. apply Rinv_le_contravar; [apply rp_pos|]. apply rp_mono; assumption. Qed.
Lemma vt_bounds r s a n u : r <= s -> 0 < a -> 1 <= n -> r <= vt_cell r s a n u <= s.
Proof.
  intros H Ha Hn. destruct (Rlt_dec u 0) as [N|N]; [|unfold vt_cell; rewrite over_nonneg by lra; lra]. rewrite vt_neg by assumption.
  assert (0 <= 1 - 1 / n) by (unfold Rdiv; rewrite Rmult_1_l; assert (/ n <= / 1) by (apply Rinv_le_contravar; lra); rewrite Rinv_1 in *; lra).
  pose proof (pdrop_range (1 + Rpower (a * - u) n) (1 - 1 / n) ltac:(pose proof (rp_pos (a * - u) n); lra) ltac:(lra)). nra.
Qed.
Lemma vt_mono r s a n u v : r <= s -> 0 < a -> 1 <= n -> u <= v -> vt_cell r s a n u <= vt_cell r s a n v.
Proof.
  intros H Ha Hn L. pose proof (vt_bounds r s a n u H Ha Hn) as B. destruct (Rlt_dec v 0) as [N|N]; [|unfold vt_cell at 2; rewrite (over_nonneg v) by lra; lra].
  rewrite !vt_neg by lra. clear B.
  assert (0 <= 1 - 1 / n) by (unfold Rdiv; rewrite Rmult_1_l; assert (/ n <= / 1) by (apply Rinv_le_contravar; lra); rewrite Rinv_1 in *; lra).
  pose proof (rp_mono (a * - v) (a * - u) n ltac:(split; nra) ltac:(lra)). pose proof (rp_pos (a * - v) n).
  apply Rplus_le_compat_l. apply Rmult_le_compat_l; [lra|]. apply pdrop_mono; lra.
Qed.
Lemma vk_parts a n u : u < 0 -> 0 < a -> 1 < n -> let w := Rpower (a * - u) n in 0 < w /\ 0 < w / (1 + w) <= 1 /\ 0 < Rpower (w / (1 + w)) (1 - 1 / n) <= 1.
Proof.
  intros N Ha Hn w. assert (PW : 0 < w) by apply rp_pos. pose proof (m_range n Hn).
  assert (Q0 : 0 < w / (1 + w) <= 1).
  { split; [apply Rdiv_lt_0_compat; lra|]. apply (Rmult_le_reg_r (1 + w)); [lra|]. replace (w / (1 + w) * (1 + w)) with w by (field; lra). lra. }
  split; [exact PW|]. split; [exact Q0|]. apply rp_le_1; [exact Q0|lra].
Qed.
Lemma vk_bounds u0 k a i n u : u_int u0 = false -> 0 <= k -> 0 < a -> 0 <= i -> 1 < n -> 0 <= vk_cell u0 k a i n u <= k.
Proof.
  intros E Hk Ha Hi Hn. pose proof (m_range n Hn). destruct (Rlt_dec u 0) as [N|N].
  - rewrite vk_neg by assumption. cbv zeta. destruct (vk_parts a n u N Ha Hn) as (PW & _ & Q). cbv zeta in *. set (w := Rpower (a * - u) n) in *. set (q := Rpower (w / (1 + w)) (1 - 1 / n)) in *.
    pose proof (pdrop_range (1 + w) (i * (1 - 1 / n)) ltac:(lra) ltac:(apply Rmult_le_pos; lra)) as S. set (S' := Rpower (1 + w) (- (i * (1 - 1 / n)))) in *.
    assert (0 <= (1 - q) ^ 2 <= 1) by (split; nra). assert (0 <= k * S' <= k) by (split; nra). split; [apply Rmult_le_pos; lra|nra].
  - unfold vk_cell, proj_p, proj_n, full_like. rewrite E, !over_nonneg by lra. lra.
Qed.
Lemma vk_mono u0 k a i n u v : u_int u0 = false -> 0 <= k -> 0 < a -> 0 <= i -> 1 < n -> u <= v -> vk_cell u0 k a i n u <= vk_cell u0 k a i n v.
Proof.
  intros E Hk Ha Hi Hn L. pose proof (vk_bounds u0 k a i n u E Hk Ha Hi Hn) as B. pose proof (m_range n Hn).
  destruct (Rlt_dec v 0) as [N|N]; [|unfold vk_cell at 2, proj_p, proj_n, full_like; rewrite E, !(over_nonneg v) by lra; lra].
  clear B. assert (N' : u < 0) by lra. rewrite (vk_neg u0 k a i n u), (vk_neg u0 k a i n v) by assumption. cbv zeta.
  destruct (vk_parts a n u N' Ha Hn) as (PU & QU & RU). destruct (vk_parts a n v N Ha Hn) as (PV & QV & RV). cbv zeta in *.
  pose proof (rp_mono (a * - v) (a * - u) n ltac:(split; nra) ltac:(lra)) as M.
  set (wu := Rpower (a * - u) n) in *. set (wv := Rpower (a * - v) n) in *.
  pose proof (pdrop_mono (1 + wv) (1 + wu) (i * (1 - 1 / n)) ltac:(lra) ltac:(apply Rmult_le_pos; lra)) as S.
  assert (Q : wv / (1 + wv) <= wu / (1 + wu)).
  { replace (wv / (1 + wv)) with (1 - / (1 + wv)) by (field; lra). replace (wu / (1 + wu)) with (1 - / (1 + wu)) by (field; lra).
    assert (/ (1 + wu) <= / (1 + wv)) by (apply Rinv_le_contravar; lra). lra. }
  pose proof (rp_mono _ _ (1 - 1 / n) (conj (proj1 QV) Q) ltac:(lra)) as R1.
  set (qu := Rpower (wu / (1 + wu)) (1 - 1 / n)) in *. set (qv := Rpower (wv / (1 + wv)) (1 - 1 / n)) in *.
  pose proof (rp_pos (1 + wu) (- (i * (1 - 1 / n)))). set (su := Rpower (1 + wu) (- (i * (1 - 1 / n)))) in *. set (sv := Rpower (1 + wv) (- (i * (1 - 1 / n)))) in *.
  apply Rmult_le_compat; [nra|nra|nra|nra].
Qed.
Lemma hk_bounds u0 k a g u : u_int u0 = false -> 0 <= k -> 0 < a -> 0 <= hk_cell u0 k a g u <= k.
Proof. intros E Hk Ha. rewrite hk_is_ht by exact E. apply ht_bounds; assumption. Qed.
Lemma hk_mono u0 k a g u v : u_int u0 = false -> 0 <= k -> 0 < a -> 0 <= g -> u <= v -> hk_cell u0 k a g u <= hk_cell u0 k a g v.
Proof. intros E Hk Ha Hg L. rewrite !hk_is_ht by exact E. apply ht_mono; assumption. Qed.
(** As in the literature. *)
Lemma lit_ht r s a b h : 0 < h -> ht_cell r s a b (- h) = haverkamp_theta_lit r s a b h.
Proof. intros H. unfold ht_cell, haverkamp_theta_lit. rewrite over_neg by lra. rewrite Rabs_Ropp, Rabs_pos_eq by lra. ring. Qed.
Lemma lit_hk u0 k a g h : 0 < h -> hk_cell u0 k a g (- h) = haverkamp_k_lit k a g h.
Proof. intros H. unfold hk_cell, haverkamp_k_lit, proj_p, proj_n. rewrite !over_neg by lra. rewrite Rabs_Ropp, Rabs_pos_eq by lra. ring. Qed.
Lemma lit_vt r s a n h : 0 < h -> 0 < a -> vt_cell r s a n (- h) = van_genuchten_theta_lit r s a n h.
Proof. intros H Ha. rewrite vt_neg by lra. rewrite Ropp_involutive. reflexivity. Qed.
Lemma lit_vk u0 k a i n h : 0 < h -> 0 < a -> vk_cell u0 k a i n (- h) = mualem_k_lit k a i n h.
Proof.
  intros H Ha. unfold vk_cell, mualem_k_lit, effective_saturation, proj_p, proj_n, theta_e, vk_m. rewrite !over_neg by lra.
  rewrite (Rabs_left (a * - h)) by nra. replace (- (a * - h)) with (a * h) by ring. rewrite Rpower_Ropp. unfold Rdiv. rewrite !Rmult_1_l, Rplus_0_l. reflexivity.
Qed.
Lemma saturated u0 u r s a b n k i g : u_int u0 = false -> 0 <= u -> ht_cell r s a b u = s /\ vt_cell r s a n u = s /\ hk_cell u0 k a g u = k /\ vk_cell u0 k a i n u = k.
Proof.
  intros E H. unfold ht_cell, vt_cell, hk_cell, vk_cell, proj_p, proj_n, full_like. rewrite E, !over_nonneg by exact H. repeat split; ring.
Qed.
