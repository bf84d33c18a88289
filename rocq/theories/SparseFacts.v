(** Proofs about sparse regularization. *)
From Verif Require Import Py Vec SensW SpecSensW SensWFacts Sparse SpecSparse.
Local Open Scope R_scope.

Lemma sq_pos eps f : 0 < eps -> 0 < f ^ 2 + eps ^ 2.
Proof. intros H. nra. Qed.
Lemma den_pos eps p f : 0 < lp_den eps p f.
Proof. apply exp_pos. Qed.
Lemma zip_length {A B} (a : list A) (b : list B) : length a = length b -> length (zip a b) = length a.
Proof. revert b; induction a as [|x a IH]; intros [|y b]; cbn; intros; try lia. rewrite IH; lia. Qed.
Lemma zip_nth {A B} (a : list A) (b : list B) i x y : length a = length b -> nth i (zip a b) (x, y) = (nth i a x, nth i b y).
Proof. revert b i; induction a as [|u a IH]; intros [|v b] [|i]; cbn; intros; try lia; try reflexivity. apply IH. lia. Qed.
Lemma weights_ok scaled eps norm f : length norm = length f -> f <> [] ->
  exists w, get_lp_weights scaled eps norm f = Ok w /\ length w = length f /\
    forall i, (i < length f)%nat -> nth i w 0 = lp_weight scaled (vmax (map Rabs f)) eps (nth i norm 0) (nth i f 0).
Proof.
  intros L Hne. unfold get_lp_weights. rewrite L, Nat.eqb_refl. cbn [negb].
  rewrite length_ne by assumption. rewrite andb_false_r. eexists. split; [reflexivity|].
  split; [rewrite map_length, zip_length; congruence|]. intros i Hi.
  set (g := fun pf : R * R => _).
  rewrite (nth_indep _ 0 (g (0, 0))) by (rewrite map_length, zip_length by assumption; lia).
  rewrite (map_nth g), zip_nth by assumption. reflexivity.
Qed.
Lemma amp f M : f <> [] -> amplitude f M -> vmax (map Rabs f) = M.
Proof.
  intros Hne [H1 H2]. destruct (vmax_greatest (map Rabs f)) as [H3 H4]; [apply map_nonempty; assumption|].
  apply Rle_antisym; auto.
Qed.
Lemma amp_nth f M i : amplitude f M -> (i < length f)%nat -> Rabs (nth i f 0) <= M.
Proof. intros [_ H] Hi. apply H. apply in_map, nth_In. assumption. Qed.
Lemma lp_value_pos eps p x : 0 < x -> 0 < x / lp_den eps p x.
Proof. intros H. apply Rdiv_lt_0_compat; [assumption|apply den_pos]. Qed.
Lemma scale_pos scaled M eps p : 0 < eps -> 0 <= M -> (scaled = true -> p < 1 -> 0 < M) -> 0 < lp_scale scaled M eps p.
Proof.
  intros He HM H. unfold lp_scale. destruct scaled; [|lra]. destruct (Rlt_dec p 1) as [Hp|Hp].
  - assert (0 < eps / sqrt (1 - p)) by (apply Rdiv_lt_0_compat; [assumption|apply sqrt_lt_R0; lra]).
    destruct (Req_EM_T _ 0); [lra|]. apply Rdiv_lt_0_compat; [auto|apply lp_value_pos; assumption].
  - destruct (Req_EM_T _ 0) as [E|E]; [lra|]. destruct (Req_dec M 0) as [->|N]; [exfalso; apply E; unfold Rdiv; ring|].
    apply Rdiv_lt_0_compat; [lra|apply lp_value_pos; lra].
Qed.
Lemma c40_positive scaled eps norm f : 0 < eps -> length norm = length f -> f <> [] ->
  exists w, get_lp_weights scaled eps norm f = Ok w /\ length w = length f /\
    forall i, (i < length f)%nat -> (scaled = false \/ 1 <= nth i norm 0 \/ exists x, In x f /\ x <> 0) -> 0 < nth i w 0.
Proof.
  intros He L Hne. destruct (weights_ok scaled eps norm f L Hne) as (w & E & Lw & Hw). exists w. split; [assumption|]. split; [assumption|].
  intros i Hi H. rewrite Hw by assumption. apply Rdiv_lt_0_compat; [|apply den_pos].
  destruct (vmax_greatest (map Rabs f)) as [H3 H4]; [apply map_nonempty; assumption|].
  apply scale_pos; [assumption|apply in_map_iff in H3 as (x & <- & _); apply Rabs_pos|].
  intros -> Hp. destruct H as [H|[H|(x & Hx & Nx)]]; [discriminate|lra|].
  apply Rlt_le_trans with (Rabs x); [apply Rabs_pos_lt; assumption|apply H4, in_map; assumption].
Qed.
Lemma c40_positive_refuted : ~ forall eps norm f w i, 0 < eps -> length norm = length f -> norms_ok norm ->
  get_lp_weights true eps norm f = Ok w -> (i < length f)%nat -> 0 < nth i w 0.
Proof.
  intros H. destruct (weights_ok true 1 [0] [0] eq_refl) as (w & E & Lw & Hw); [discriminate|].
  specialize (H 1 [0] [0] w 0%nat ltac:(lra) eq_refl). specialize (Hw 0%nat ltac:(cbn; lia)).
  assert (0 < nth 0 w 0) as HH; [apply H; [intros [|i] Hi; cbn in *; [lra|lia]|exact E|cbn; lia]|].
  rewrite Hw in HH. cbn in HH. rewrite Rabs_R0 in HH. unfold lp_weight, lp_scale in HH.
  destruct (Rlt_dec 0 1); [|lra]. destruct (Req_EM_T _ 0) as [E0|N0].
  - assert (0 < 1 / sqrt (1 - 0)) as P by (apply Rdiv_lt_0_compat; [lra|apply sqrt_lt_R0; lra]).
    pose proof (lp_value_pos 1 0 _ P). lra.
  - unfold Rdiv in HH. rewrite !Rmult_0_l in HH. lra.
Qed.
Lemma den_two eps f : 0 < eps -> lp_den eps 2 f = 1.
Proof. intros H. unfold lp_den. replace (1 - 2 / 2) with 0 by field. apply Rpower_O. apply sq_pos. assumption. Qed.
Lemma c40_two scaled eps norm f w i : 0 < eps -> get_lp_weights scaled eps norm f = Ok w -> (i < length f)%nat -> nth i norm 0 = 2 -> nth i w 0 = 1.
Proof.
  intros He E Hi Hp. unfold get_lp_weights in E. destruct (Nat.eqb (length norm) (length f)) eqn:EL; [|discriminate]. apply Nat.eqb_eq in EL.
  assert (Hne : f <> []) by (intros ->; cbn in Hi; lia).
  destruct (weights_ok scaled eps norm f EL Hne) as (w' & E' & _ & Hw). unfold get_lp_weights in E'. rewrite EL, Nat.eqb_refl in E'. rewrite E in E'. injection E' as <-.
  rewrite Hw, Hp by assumption. unfold lp_weight. rewrite den_two by assumption. unfold lp_scale. destruct scaled; [|field].
  destruct (Rlt_dec 2 1); [lra|]. rewrite den_two by assumption. unfold Rdiv. rewrite Rinv_1, !Rmult_1_r.
  destruct (Req_EM_T _ 0); [reflexivity|]. apply Rinv_r. assumption.
Qed.
Lemma den_incr eps p x y : 0 < eps -> p < 2 -> Rabs x < Rabs y -> lp_den eps p x < lp_den eps p y.
Proof.
  intros He Hp H. unfold lp_den. apply Rlt_Rpower_l; [lra|]. split; [apply sq_pos; assumption|].
  rewrite <- (pow2_abs x), <- (pow2_abs y). pose proof (Rabs_pos x). nra.
Qed.
Lemma weights_inv scaled eps norm f w : get_lp_weights scaled eps norm f = Ok w ->
  length norm = length f /\ length w = length f /\
  forall i, (i < length f)%nat -> nth i w 0 = lp_weight scaled (vmax (map Rabs f)) eps (nth i norm 0) (nth i f 0).
Proof.
  intros E. pose proof E as E0. unfold get_lp_weights in E. destruct (Nat.eqb (length norm) (length f)) eqn:EL; [|discriminate]. apply Nat.eqb_eq in EL.
  split; [assumption|]. destruct f as [|x f].
  - destruct norm; cbn in EL; [|lia]. cbn in E. destruct scaled; cbn in E; [discriminate|]. injection E as <-. split; [reflexivity|]. intros i Hi; cbn in Hi; lia.
  - destruct (weights_ok scaled eps norm (x :: f) EL ltac:(discriminate)) as (w' & E' & K). rewrite E0 in E'. injection E' as <-. exact K.
Qed.
Lemma c40_decreasing scaled eps norm f w i j : 0 < eps -> get_lp_weights scaled eps norm f = Ok w -> (i < length f)%nat -> (j < length f)%nat ->
  nth i norm 0 = nth j norm 0 -> nth j norm 0 < 2 -> Rabs (nth i f 0) < Rabs (nth j f 0) -> nth j w 0 < nth i w 0.
Proof.
  intros He E Hi Hj Ep Hp Ha. destruct (weights_inv _ _ _ _ _ E) as (L & Lw & Hw).
  rewrite !Hw, Ep by assumption. unfold lp_weight. unfold Rdiv. apply Rmult_lt_compat_l.
  - assert (P : 0 < vmax (map Rabs f)).
    { destruct (vmax_greatest (map Rabs f)) as [_ H4]; [apply map_nonempty; intros ->; cbn in Hi; lia|].
      pose proof (Rabs_pos (nth i f 0)). apply Rlt_le_trans with (Rabs (nth j f 0)); [lra|]. apply H4, in_map, nth_In. assumption. }
    apply scale_pos; [assumption|lra|auto].
  - apply Rinv_lt_contravar; [apply Rmult_lt_0_compat; apply den_pos|]. apply den_incr; assumption.
Qed.
Lemma c40_unscaled eps norm f w i : get_lp_weights false eps norm f = Ok w -> (i < length f)%nat ->
  (nth i f 0) ^ 2 * nth i w 0 = lp_term eps (nth i norm 0) (nth i f 0).
Proof.
  intros E Hi. destruct (weights_inv _ _ _ _ _ E) as (L & Lw & Hw). rewrite Hw by assumption.
  unfold lp_weight, lp_scale, lp_term, lp_den. unfold Rdiv. ring.
Qed.
Lemma cont_inv_rpower a c : 0 < a -> continuity_pt (fun t => Rpower (a + t) c) 0.
Proof.
  intros Ha. unfold Rpower. apply derivable_continuous_pt.
  assert (D : derivable_pt (fun t => exp (c * ln (a + t))) 0); [|exact D].
  exists (exp (c * ln (a + 0)) * (c * (/ (a + 0) * 1))).
  apply (derivable_pt_lim_comp (fun t => c * ln (a + t)) exp); [|apply derivable_pt_lim_exp].
  apply (derivable_pt_lim_scal (fun t => ln (a + t))).
  apply (derivable_pt_lim_comp (fun t => a + t) ln); [|apply derivable_pt_lim_ln; lra].
  replace 1 with (0 + 1) by ring. apply (derivable_pt_lim_plus (fun _ => a) id); [apply derivable_pt_lim_const|apply derivable_pt_lim_id].
Qed.
Lemma rpower_abs m p : m <> 0 -> m ^ 2 / Rpower (m ^ 2 + 0) (1 - p / 2) = Rpower (Rabs m) p.
Proof.
  intros Hm. rewrite Rplus_0_r. rewrite <- (pow2_abs m). pose proof (Rabs_pos_lt m Hm) as P. set (x := Rabs m) in *.
  unfold Rpower. replace (ln (x ^ 2)) with (2 * ln x) by (replace (x ^ 2) with (x * x) by ring; rewrite ln_mult by assumption; ring).
  replace (x ^ 2) with (exp (2 * ln x)).
  - unfold Rdiv. rewrite <- exp_Ropp, <- exp_plus. f_equal. field.
  - replace (2 * ln x) with (ln x + ln x) by ring. rewrite exp_plus, exp_ln by assumption. ring.
Qed.
Lemma c40_limit p m d : m <> 0 -> 0 < d -> exists e0, 0 < e0 /\ forall eps, 0 < eps < e0 -> Rabs (lp_term eps p m - Rpower (Rabs m) p) < d.
Proof.
  intros Hm Hd. assert (Hm2 : 0 < m ^ 2) by nra.
  assert (C : continuity_pt (fun t => m ^ 2 / Rpower (m ^ 2 + t) (1 - p / 2)) 0).
  { apply (continuity_pt_div (fun _ => m ^ 2) (fun t => Rpower (m ^ 2 + t) (1 - p / 2))).
    - apply continuity_pt_const. intros x y. reflexivity.
    - apply cont_inv_rpower. assumption.
    - pose proof (exp_pos ((1 - p / 2) * ln (m ^ 2 + 0))). unfold Rpower. lra. }
  destruct (C d Hd) as (a & Ha & H). cbn in H. unfold R_dist in H.
  exists (Rmin 1 a). split; [apply Rmin_pos; [lra|assumption]|]. intros eps [He1 He2].
  assert (eps < 1) by (apply Rlt_le_trans with (Rmin 1 a); [assumption|apply Rmin_l]).
  assert (eps < a) by (apply Rlt_le_trans with (Rmin 1 a); [assumption|apply Rmin_r]).
  unfold lp_term. rewrite <- (rpower_abs m p Hm). apply (H (eps ^ 2)). split; [split; [exact I|]|].
  - assert (0 < eps ^ 2) by nra. lra.
  - rewrite Rminus_0_r, Rabs_pos_eq by nra. nra.
Qed.
(** The scaled weights keep the gradient below its l2 size. *)
Lemma ln_le_sub x : 0 < x -> ln x <= x - 1.
Proof. intros H. destruct (Req_dec x 1) as [->|N]; [rewrite ln_1; lra|]. pose proof (exp_ineq1 (ln x)) as K. rewrite exp_ln in K by assumption.
  assert (ln x <> 0) by (intros Z; apply N; apply ln_inv; [assumption|lra|rewrite ln_1; assumption]). specialize (K H0). lra. Qed.
Lemma bernoulli a s : 1 <= a -> 0 < s -> 0 < 1 + a * (s - 1) -> ln (1 + a * (s - 1)) <= a * ln s.
Proof.
  intros Ha Hs Hu. set (u := 1 + a * (s - 1)) in *.
  assert (I1 : ln (u / s) <= u / s - 1) by (apply ln_le_sub, Rdiv_lt_0_compat; assumption).
  assert (I2 : ln (1 / s) <= 1 / s - 1) by (apply ln_le_sub, Rdiv_lt_0_compat; lra).
  assert (E1 : ln (u / s) = ln u - ln s) by (unfold Rdiv; rewrite ln_mult, ln_Rinv by (try apply Rinv_0_lt_compat; assumption); ring).
  assert (E2 : ln (1 / s) = - ln s) by (unfold Rdiv; rewrite Rmult_1_l; apply ln_Rinv; assumption).
  rewrite E1 in I1. rewrite E2 in I2.
  assert (E : (u / s - 1) + (a - 1) * (1 / s - 1) = 0) by (unfold u; field; lra). nra.
Qed.
(** x / (x^2+eps^2)^(1-p/2) grows for p >= 1 and peaks at eps/sqrt(1-p) otherwise. *)
Lemma peak_big eps p x y : 0 < eps -> 1 <= p <= 2 -> 0 <= x <= y -> x / lp_den eps p x <= y / lp_den eps p y.
Proof.
  intros He Hp [Hx Hxy]. destruct (Req_dec x 0) as [->|Nx].
  - unfold Rdiv at 1. rewrite Rmult_0_l. apply Rmult_le_pos; [lra|left; apply Rinv_0_lt_compat, den_pos].
  - assert (Px : 0 < x) by lra. assert (Py : 0 < y) by lra.
    apply (Rmult_le_reg_r (lp_den eps p x * lp_den eps p y)); [apply Rmult_lt_0_compat; apply den_pos|].
    pose proof (den_pos eps p x) as D1. pose proof (den_pos eps p y) as D2.
    replace (x / lp_den eps p x * (lp_den eps p x * lp_den eps p y)) with (x * lp_den eps p y) by (field; lra).
    replace (y / lp_den eps p y * (lp_den eps p x * lp_den eps p y)) with (y * lp_den eps p x) by (field; lra).
    rewrite <- (exp_ln x Px) at 1. rewrite <- (exp_ln y Py) at 2. unfold lp_den, Rpower. rewrite <- !exp_plus.
    assert (M : ln x + (1 - p / 2) * ln (y ^ 2 + eps ^ 2) <= ln y + (1 - p / 2) * ln (x ^ 2 + eps ^ 2)).
    { set (X := x ^ 2 + eps ^ 2). set (Y := y ^ 2 + eps ^ 2).
      assert (PX : 0 < X) by (apply sq_pos; assumption). assert (PY : 0 < Y) by (apply sq_pos; assumption).
      assert (XY : X <= Y) by (unfold X, Y; nra).
      assert (L0 : ln X <= ln Y) by (destruct XY as [XY|XY]; [left; apply ln_increasing; assumption|rewrite XY; lra]).
      (* Y/X <= (y/x)^2 *)
      assert (L1 : ln Y - ln X <= 2 * (ln y - ln x)).
      { assert (Q : Y * x ^ 2 <= X * y ^ 2).
        { assert (x ^ 2 <= y ^ 2) by (unfold X, Y in XY; lra). assert (0 <= eps ^ 2) by nra.
          assert (eps ^ 2 * x ^ 2 <= eps ^ 2 * y ^ 2) by (apply Rmult_le_compat_l; assumption). unfold X, Y. lra. }
        assert (ln (Y * x ^ 2) <= ln (X * y ^ 2)).
        { destruct Q as [Q|Q]; [left; apply ln_increasing; [apply Rmult_lt_0_compat; nra|assumption]|rewrite Q; lra]. }
        assert (S : forall z, 0 < z -> ln (z ^ 2) = 2 * ln z) by (intros z Hz; replace (z ^ 2) with (z * z) by ring; rewrite ln_mult by assumption; ring).
        rewrite !ln_mult, !S in H by nra. lra. }
      assert (0 <= ln Y - ln X) by lra. assert ((1 - p / 2) * (ln Y - ln X) <= / 2 * (ln Y - ln X)) by (apply Rmult_le_compat_r; lra). lra. }
    destruct M as [M|M]; [left; apply exp_increasing; assumption|rewrite M; lra].
Qed.
Lemma peak_small eps p x : 0 < eps -> 0 <= p < 1 -> 0 <= x ->
  let s := eps / sqrt (1 - p) in x / lp_den eps p x <= s / lp_den eps p s.
Proof.
  intros He Hp Hx s. assert (Ps : 0 < s) by (apply Rdiv_lt_0_compat; [assumption|apply sqrt_lt_R0; lra]).
  destruct (Req_dec x 0) as [->|Nx].
  - unfold Rdiv at 1. rewrite Rmult_0_l. apply Rmult_le_pos; [lra|left; apply Rinv_0_lt_compat, den_pos].
  - assert (Px : 0 < x) by lra.
    apply (Rmult_le_reg_r (lp_den eps p x * lp_den eps p s)); [apply Rmult_lt_0_compat; apply den_pos|].
    pose proof (den_pos eps p x) as D1. pose proof (den_pos eps p s) as D2.
    replace (x / lp_den eps p x * (lp_den eps p x * lp_den eps p s)) with (x * lp_den eps p s) by (field; lra).
    replace (s / lp_den eps p s * (lp_den eps p x * lp_den eps p s)) with (s * lp_den eps p x) by (field; lra).
    rewrite <- (exp_ln x Px) at 1. rewrite <- (exp_ln s Ps) at 2. unfold lp_den, Rpower. rewrite <- !exp_plus.
    assert (S : forall z, 0 < z -> ln (z ^ 2) = 2 * ln z) by (intros z Hz; replace (z ^ 2) with (z * z) by ring; rewrite ln_mult by assumption; ring).
    assert (Es : s ^ 2 * (1 - p) = eps ^ 2).
    { unfold s, Rdiv. rewrite Rpow_mult_distr. replace ((/ sqrt (1 - p)) ^ 2) with (/ (1 - p)).
      - field. lra.
      - rewrite pow_inv. rewrite pow2_sqrt by lra. reflexivity. }
    assert (M : ln x + (1 - p / 2) * ln (s ^ 2 + eps ^ 2) <= ln s + (1 - p / 2) * ln (x ^ 2 + eps ^ 2)).
    { set (X := x ^ 2 + eps ^ 2). set (Y := s ^ 2 + eps ^ 2).
      assert (PX : 0 < X) by (apply sq_pos; assumption). assert (PY : 0 < Y) by (apply sq_pos; assumption).
      assert (PR : 0 < X / Y) by (apply Rdiv_lt_0_compat; assumption).
      assert (EY : Y = s ^ 2 * (2 - p)) by (unfold Y; rewrite <- Es; ring).
      assert (Ps2 : 0 < s ^ 2) by nra.
      assert (EU : 1 + (2 - p) * (X / Y - 1) = x ^ 2 / s ^ 2).
      { rewrite EY. unfold X. rewrite <- Es. field. split; [lra|nra]. }
      pose proof (bernoulli (2 - p) (X / Y)) as B. rewrite EU in B.
      assert (ln (x ^ 2 / s ^ 2) <= (2 - p) * ln (X / Y)) as B' by (apply B; [lra|assumption|apply Rdiv_lt_0_compat; nra]).
      assert (LD : forall a b, 0 < a -> 0 < b -> ln (a / b) = ln a - ln b).
      { intros a b Ha Hb. unfold Rdiv. rewrite ln_mult, ln_Rinv by (try apply Rinv_0_lt_compat; assumption). ring. }
      rewrite !LD, !S in B' by (try assumption; nra). nra. }
    destruct M as [M|M]; [left; apply exp_increasing; assumption|rewrite M; lra].
Qed.
Lemma c40_gradient eps norm f w M i : 0 < eps -> norms_ok norm -> amplitude f M -> get_lp_weights true eps norm f = Ok w -> (i < length f)%nat ->
  Rabs (nth i w 0 * nth i f 0) <= M /\ (1 <= nth i norm 0 -> Rabs (nth i f 0) = M -> Rabs (nth i w 0 * nth i f 0) = M).
Proof.
  intros He Hn HM E Hi. destruct (weights_inv _ _ _ _ _ E) as (L & Lw & Hw).
  assert (Hne : f <> []) by (intros ->; cbn in Hi; lia).
  rewrite Hw, (amp f M Hne HM) by assumption. pose proof (amp_nth f M i HM Hi) as Hf. pose proof (Hn i ltac:(lia)) as Hp.
  set (p := nth i norm 0) in *. set (x := nth i f 0) in *. clearbody p x. pose proof (Rabs_pos x) as Hx0.
  assert (ED : lp_den eps p x = lp_den eps p (Rabs x)) by (unfold lp_den; rewrite pow2_abs; reflexivity).
  unfold lp_weight. rewrite ED, Rabs_mult. pose proof (den_pos eps p (Rabs x)) as D.
  destruct (Req_dec M 0) as [ZM|NM].
  { assert (Rabs x = 0) as Z by lra. rewrite Z, Rmult_0_r. split; [lra|intros _ _; lra]. }
  assert (PM : 0 < M) by lra. assert (Sc : 0 < lp_scale true M eps p) by (apply scale_pos; auto; lra).
  rewrite (Rabs_pos_eq (_ / _)) by (left; apply Rdiv_lt_0_compat; assumption).
  unfold lp_scale in *. destruct (Rlt_dec p 1) as [H1|H1].
  - set (s := eps / sqrt (1 - p)) in *. assert (Ps : 0 < s) by (apply Rdiv_lt_0_compat; [assumption|apply sqrt_lt_R0; lra]).
    pose proof (lp_value_pos eps p s Ps) as V. destruct (Req_EM_T _ 0) as [Z|_]; [lra|].
    split; [|intros; lra]. pose proof (peak_small eps p (Rabs x) He ltac:(lra) Hx0) as K. cbv zeta in K. fold s in K.
    set (v := s / lp_den eps p s) in *. set (d := lp_den eps p (Rabs x)) in *.
    replace (M / v / d * Rabs x) with (M * (Rabs x / d) * / v) by (field; lra).
    apply (Rmult_le_reg_r v); [assumption|]. rewrite Rmult_assoc, Rinv_l by lra. rewrite Rmult_1_r. apply Rmult_le_compat_l; lra.
  - pose proof (lp_value_pos eps p M PM) as V. destruct (Req_EM_T _ 0) as [Z|_]; [lra|].
    pose proof (peak_big eps p (Rabs x) M He ltac:(lra) ltac:(lra)) as K.
    split.
    + set (v := M / lp_den eps p M) in *. set (d := lp_den eps p (Rabs x)) in *.
      replace (M / v / d * Rabs x) with (M * (Rabs x / d) * / v) by (field; lra).
      apply (Rmult_le_reg_r v); [assumption|]. rewrite Rmult_assoc, Rinv_l by lra. rewrite Rmult_1_r. apply Rmult_le_compat_l; lra.
    + intros _ EM. rewrite EM in *. field. lra.
Qed.

(** The norms of the combination *)
Lemma outside_iff x : outside x = false <-> 0 <= x <= 2.
Proof. unfold outside. destruct (Rlt_dec x 0); [split; [discriminate|lra]|]. destruct (Rlt_dec 2 x); split; try discriminate; try reflexivity; lra. Qed.
Lemma existsb_false {A} (f : A -> bool) l : existsb f l = false <-> Forall (fun x => f x = false) l.
Proof.
  induction l as [|x l IH]; cbn; [split; constructor|]. rewrite orb_false_iff, IH. split; [intros []; constructor; assumption|inversion 1; auto].
Qed.
Lemma vconst_check n r : (0 < n)%nat -> (existsb outside (vconst n r) = false <-> 0 <= r <= 2).
Proof.
  intros Hn. rewrite existsb_false, <- outside_iff. unfold vconst. split.
  - intros H. rewrite Forall_forall in H. apply H. destruct n; [lia|left; reflexivity].
  - intros H. apply Forall_forall. intros x Hx. apply repeat_spec in Hx. congruence.
Qed.
Lemma set_norm_spec n v : (0 < n)%nat -> (legal n v -> set_norm n v = Ok (meaning n v)) /\ (~ legal n v -> exists e, set_norm n v = Err e).
Proof.
  intros Hn. unfold set_norm. destruct v as [|r|a|]; cbn [legal meaning bind].
  - assert (existsb outside (vconst n 2) = false) as -> by (apply vconst_check; [assumption|lra]). split; [reflexivity|intros H; exfalso; auto].
  - destruct (existsb outside (vconst n r)) eqn:E.
    + split; [intros H; apply (vconst_check n r Hn) in H; congruence|eauto].
    + split; [reflexivity|]. intros H. apply (vconst_check n r Hn) in E. contradiction.
  - assert (HF : forall b : vec, existsb outside b = false <-> Forall (fun x => 0 <= x <= 2) b).
    { intros b. rewrite existsb_false. split; apply Forall_impl; intros; apply outside_iff; assumption. }
    destruct (Nat.eqb (length a) n) eqn:EL; cbn [bind].
    + apply Nat.eqb_eq in EL. destruct (existsb outside a) eqn:E.
      * split; [intros [_ H]; apply HF in H; congruence|eauto].
      * split; [reflexivity|]. intros H. exfalso. apply H. split; [auto|]. apply HF. assumption.
    + apply Nat.eqb_neq in EL. destruct a as [|r [|r' a]]; cbn [bind].
      * split; [intros [[H|H] _]; cbn in *; [congruence|lia]|eauto].
      * cbn [nth]. destruct (existsb outside (vconst n r)) eqn:E.
        -- split; [intros [_ H]; inversion H; subst; assert (0 <= r <= 2) as K by assumption; apply (vconst_check n r Hn) in K; congruence|eauto].
        -- split; [reflexivity|]. intros H. exfalso. apply H. split; [right; reflexivity|]. constructor; [apply (vconst_check n r Hn); assumption|constructor].
      * split; [intros [[H|H] _]; cbn in *; [congruence|lia]|eauto].
  - split; [contradiction|eauto].
Qed.
Lemma legal_dec n v : legal n v \/ ~ legal n v.
Proof. apply Classical_Prop.classic. Qed.
Lemma set_loop_ok : forall vals sz old, Forall (lt 0) sz -> length old = length sz -> Forall2 legal sz vals ->
  set_loop vals sz old = (map (fun nv => meaning (fst nv) (snd nv)) (zip sz vals), None).
Proof.
  intros vals sz old Hp L H. revert old L. induction H as [|n v sz vals Hl H IH]; intros [|o old] L; cbn in L; try lia; [reflexivity|].
  inversion Hp; subst. cbn [set_loop]. destruct (set_norm_spec n v) as [E _]; [assumption|]. rewrite (E Hl).
  rewrite (IH ltac:(assumption) old ltac:(lia)). reflexivity.
Qed.
Lemma set_loop_bad : forall vals sz old, Forall (lt 0) sz -> length old = length sz -> length vals = length sz -> ~ Forall2 legal sz vals ->
  exists t e, set_loop vals sz old = (t, Some e) /\ length t = length sz.
Proof.
  intros vals sz. revert vals. induction sz as [|n sz IH]; intros [|v vals] [|o old] Hp L Lv HN; cbn in L, Lv; try lia.
  - exfalso. apply HN. constructor.
  - inversion Hp; subst. cbn [set_loop]. destruct (set_norm_spec n v) as [E1 E2]; [assumption|].
    destruct (legal_dec n v) as [Hl|Hl].
    + rewrite (E1 Hl). destruct (IH vals old) as (t & e & E & Lt); [assumption|lia|lia|intros K; apply HN; constructor; assumption|].
      rewrite E. eexists _, _. split; [reflexivity|]. cbn. lia.
    + destruct (E2 Hl) as [e E]. rewrite E. eexists _, _. split; [reflexivity|]. cbn. lia.
Qed.
Lemma F2_map {A B C} (f : A * B -> C) (a : list A) (b : list B) : Forall2 (fun p c => f p = c) (zip a b) (map f (zip a b)).
Proof. induction (zip a b); cbn; constructor; auto. Qed.
Lemma F2_len {A B} (P : A -> B -> Prop) a b : Forall2 P a b -> length a = length b.
Proof. induction 1; cbn; congruence. Qed.
Lemma F2_zip_len {A B C} (P : A * B -> C -> Prop) a b c : length b = length a -> Forall2 P (zip a b) c -> length c = length a.
Proof. intros L H. apply F2_len in H. rewrite zip_length in H by congruence. congruence. Qed.
(** The invariant when only [norms] is assigned *)
Definition inv (s : sparse) : Prop :=
  Forall (lt 0) (sizes s) /\ have s (given s (s_norms s)) /\ accepted s (s_norms s).
Lemma given_none_legal s : Forall2 legal (sizes s) (repeat NNone (length (sizes s))).
Proof. induction (sizes s); cbn; constructor; auto; exact I. Qed.
Lemma set_norms_ok s v : inv s -> accepted s v -> fst (set_norms s v) = mkSp (sizes s) (map (fun nv => meaning (fst nv) (snd nv)) (zip (sizes s) (given s v))) (Some (given s v))
  /\ snd (set_norms s v) = None.
Proof.
  intros (Hp & [HH HL] & HA) Hv. unfold set_norms. fold (given s v). pose proof (F2_len _ _ _ Hv) as L. rewrite <- L, Nat.eqb_refl. cbn [negb].
  rewrite set_loop_ok; [split; reflexivity|assumption| |assumption]. apply F2_zip_len in HH; assumption.
Qed.
Lemma set_norms_bad s v : inv s -> ~ accepted s v -> fst (set_norms s v) = s /\ snd (set_norms s v) <> None.
Proof.
  intros (Hp & [HH HL] & HA) Hv. unfold set_norms. fold (given s v). fold (given s (s_norms s)).
  destruct (Nat.eqb (length (given s v)) (length (sizes s))) eqn:EL; cbn [negb]; [|split; [reflexivity|discriminate]].
  apply Nat.eqb_eq in EL. pose proof (F2_zip_len _ _ _ _ HL HH) as LT.
  destruct (set_loop_bad (given s v) (sizes s) (term_norms s)) as (t & e & E & Lt); [assumption|assumption|assumption|exact Hv|].
  rewrite E. rewrite (set_loop_ok _ _ _ Hp Lt HA). split; [|discriminate]. cbn [fst]. destruct s as [sz tn sn]. cbn in *. f_equal.
  clear -HH. induction HH; cbn; congruence.
Qed.
Lemma inv_step s v : inv s -> inv (fst (set_norms s v)) /\ sizes (fst (set_norms s v)) = sizes s.
Proof.
  intros HI. destruct (Classical_Prop.classic (accepted s v)) as [Hv|Hv].
  - destruct (set_norms_ok s v HI Hv) as [-> _]. cbn [sizes]. split; [|reflexivity]. destruct HI as (Hp & _ & _).
    split; [assumption|]. cbn [sizes s_norms term_norms given]. split; [|exact Hv]. split; [apply (F2_map (fun nv => meaning (fst nv) (snd nv)))|]. symmetry. apply (F2_len _ _ _ Hv).
  - destruct (set_norms_bad s v HI Hv) as [-> _]. auto.
Qed.
Lemma fresh_inv sz : Forall (lt 0) sz -> inv (mkSp sz (map (fun n => vconst n 2) sz) None).
Proof.
  intros Hp. split; [assumption|]. split; [|apply given_none_legal]. split; [|cbn; apply repeat_length].
  cbn. clear Hp. induction sz; cbn; constructor; [reflexivity|assumption].
Qed.
Lemma run_inv s l : inv s -> inv (assign_all s l) /\ sizes (assign_all s l) = sizes s.
Proof.
  unfold assign_all. revert s. induction l as [|v l IH]; intros s HI; [auto|]. cbn [fold_left]. destruct (inv_step s v HI) as [H1 H2].
  destruct (IH _ H1) as [H3 H4]. split; [assumption|]. congruence.
Qed.
Lemma accepted_sizes s s' v : sizes s' = sizes s -> (accepted s' v <-> accepted s v) /\ given s' v = given s v.
Proof. intros E. unfold accepted, given. rewrite E. split; reflexivity. Qed.
Lemma c53_history sz l vals : Forall (lt 0) sz ->
  let s0 := mkSp sz (map (fun n => vconst n 2) sz) None in
  last_accepted s0 (repeat NNone (length sz)) l vals -> have (assign_all s0 l) vals.
Proof.
  intros Hp s0 H. pose proof (fresh_inv sz Hp) as HI. fold s0 in HI. induction H as [|l v Hv|l v r Hv H IH].
  - destruct HI as (_ & H & _). exact H.
  - unfold assign_all. rewrite fold_left_app. cbn [fold_left]. fold (assign_all s0 l).
    destruct (run_inv s0 l HI) as [HI' HS]. destruct (accepted_sizes s0 (assign_all s0 l) v HS) as [HA HG]. apply HA in Hv.
    destruct (set_norms_ok _ v HI' Hv) as [-> _]. rewrite <- HG. split; [cbn [sizes term_norms]; apply (F2_map (fun nv => meaning (fst nv) (snd nv)))|]. cbn [sizes]. symmetry. apply (F2_len _ _ _ Hv).
  - unfold assign_all. rewrite fold_left_app. cbn [fold_left]. fold (assign_all s0 l).
    destruct (run_inv s0 l HI) as [HI' HS]. destruct (accepted_sizes s0 (assign_all s0 l) v HS) as [HA HG].
    destruct (set_norms_bad _ v HI') as [-> _]; [intros K; apply Hv, HA; assumption|assumption].
Qed.
Lemma c53_raises sz l v : Forall (lt 0) sz ->
  let s := assign_all (mkSp sz (map (fun n => vconst n 2) sz) None) l in
  (accepted s v <-> snd (set_norms s v) = None) /\ (~ accepted s v -> fst (set_norms s v) = s).
Proof.
  intros Hp s. destruct (run_inv _ l (fresh_inv sz Hp)) as [HI _]. fold s in HI. split; [split|].
  - intros H. apply set_norms_ok; assumption.
  - intros H. destruct (Classical_Prop.classic (accepted s v)) as [Hv|Hv]; [assumption|]. destruct (set_norms_bad s v HI Hv) as [_ K]. contradiction.
  - intros H. apply set_norms_bad; assumption.
Qed.
Lemma c53_refuted : ~ forall sz norms k v values, Forall (lt 0) sz ->
  let s := fst (set_term (fst (sparse_new sz norms)) k v) in
  snd (set_term (fst (sparse_new sz norms)) k v) = None -> ~ accepted s values -> term_norms (fst (set_norms s values)) = term_norms s.
Proof.
  intros H. specialize (H [1%nat] None 0%nat (NScalar 0) (Some [NBad]) ltac:(repeat constructor)). cbv zeta in H.
  assert (F : forall r, 0 <= r <= 2 -> existsb outside (vconst 1 r) = false) by (intros r Hr; apply vconst_check; [lia|assumption]).
  assert (E1 : fst (sparse_new [1%nat] None) = mkSp [1%nat] [[2]] (Some [NNone])).
  { unfold sparse_new, set_norms. cbn [sizes length repeat Nat.eqb negb s_norms term_norms map set_loop set_norm bind]. rewrite F by lra. reflexivity. }
  rewrite E1 in H.
  assert (E2 : set_term (mkSp [1%nat] [[2]] (Some [NNone])) 0 (NScalar 0) = (mkSp [1%nat] [[0]] (Some [NNone]), None)).
  { unfold set_term. cbn [sizes length Nat.ltb Nat.leb nth set_norm bind]. rewrite F by lra. reflexivity. }
  rewrite E2 in H. specialize (H eq_refl). cbn [fst] in H.
  assert (E3 : term_norms (fst (set_norms (mkSp [1%nat] [[0]] (Some [NNone])) (Some [NBad]))) = [[2]]).
  { unfold set_norms. cbn [sizes length Nat.eqb negb s_norms term_norms set_loop set_norm bind]. rewrite F by lra. reflexivity. }
  rewrite E3 in H. cbn in H. assert ([[2]] = [[0]]) as K; [apply H; intros K; inversion K; subst; cbn in *; assumption|]. injection K as K. lra.
Qed.
