From Verif Require Import Vec VecDeriv Joint SpecJoint JointFacts.
Local Open Scope R_scope.

Lemma half1 n (h : vec) : length h = (2 * n)%nat -> length (firstn n h) = n.
Proof. intros; rewrite firstn_length; lia. Qed.
Lemma half2 n (h : vec) : length h = (2 * n)%nat -> length (skipn n h) = n.
Proof. intros; rewrite skipn_length; lia. Qed.
Lemma vderiv_first n m h : length m = (2 * n)%nat -> length h = (2 * n)%nat ->
  vderiv n (fun t => firstn n (vadd m (vscale t h))) 0 (firstn n h).
Proof.
  intros Lm Lh. eapply vderiv_ext; [intros t; symmetry; apply firstn_line|]. apply vderiv_line; apply half1; assumption.
Qed.
Lemma vderiv_second n m h : length m = (2 * n)%nat -> length h = (2 * n)%nat ->
  vderiv n (fun t => skipn n (vadd m (vscale t h))) 0 (skipn n h).
Proof.
  intros Lm Lh. eapply vderiv_ext; [intros t; symmetry; apply skipn_line; congruence|]. apply vderiv_line; apply half2; assumption.
Qed.

(** Weighted Cauchy-Schwarz with three vectors. *)
Lemma amgm x y c : 0 <= x -> 0 <= y -> c * c <= x * y -> 2 * c <= x + y.
Proof. intros Hx Hy H. destruct (Rle_dec (2 * c) (x + y)) as [|N]; [assumption|]. exfalso.
  assert ((x + y) * (x + y) < 2 * c * (2 * c)) by (apply Rmult_le_0_lt_compat; lra). pose proof (Rle_0_sqr (x - y)) as Q. unfold Rsqr in Q. nra. Qed.
Lemma cs_step a b p q P Q : 0 <= p -> 0 <= q -> 0 <= P -> 0 <= Q -> a * a <= p * q -> b * b <= P * Q ->
  (a + b) * (a + b) <= (p + P) * (q + Q).
Proof.
  intros Hp Hq HP HQ Ha Hb. assert (K : 2 * (a * b) <= p * Q + P * q).
  { apply amgm; [nra|nra|]. pose proof (Rmult_le_compat (a * a) (p * q) (b * b) (P * Q)) as M.
    assert (0 <= a * a) by nra. assert (0 <= b * b) by nra. specialize (M ltac:(assumption) ltac:(assumption) Ha Hb).
    replace (a * b * (a * b)) with (a * a * (b * b)) by ring. replace (p * Q * (P * q)) with (p * q * (P * Q)) by ring. exact M. }
  nra.
Qed.
Lemma dot_nonneg w p : nonneg_vec w -> nonneg_vec p -> 0 <= dot w p.
Proof.
  intros Hw; revert p; induction Hw as [|x w Hx Hw IH]; intros [|y p] Hp; cbn; try lra.
  inversion Hp; subst. specialize (IH p ltac:(assumption)). nra.
Qed.
Lemma weighted_cs w p q r : nonneg_vec w -> nonneg_vec p -> nonneg_vec q ->
  length p = length w -> length q = length w -> length r = length w ->
  (forall i, (i < length w)%nat -> nth i r 0 * nth i r 0 <= nth i p 0 * nth i q 0) ->
  dot w r * dot w r <= dot w p * dot w q.
Proof.
  intros Hw; revert p q r; induction Hw as [|x w Hx Hw IH]; intros [|a p] [|b q] [|c r] Hp Hq L1 L2 L3 H; cbn in *; try lia; try lra.
  inversion Hp; inversion Hq; subst. apply cs_step.
  - nra.
  - nra.
  - apply dot_nonneg; assumption.
  - apply dot_nonneg; assumption.
  - specialize (H O ltac:(lia)). cbn in H. replace (x * c * (x * c)) with (x * x * (c * c)) by ring. replace (x * a * (x * b)) with (x * x * (a * b)) by ring.
    apply Rmult_le_compat_l; [nra|assumption].
  - apply IH; try assumption; try lia. intros i Hi. specialize (H (S i) ltac:(lia)). exact H.
Qed.
Lemma sq_nonneg v : nonneg_vec (vmul v v).
Proof. induction v as [|x v IH]; cbn; [constructor|]. constructor; [nra|exact IH]. Qed.
Lemma nonneg_nth v i : nonneg_vec v -> 0 <= nth i v 0.
Proof. intros H; revert i; induction H; intros [|i]; cbn; auto; lra. Qed.
Lemma nonneg_by_nth v : (forall i, (i < length v)%nat -> 0 <= nth i v 0) -> nonneg_vec v.
Proof. intros H. apply Forall_forall. intros x Hx. destruct (In_nth _ _ 0 Hx) as (i & Li & <-). apply H; assumption. Qed.
Lemma mv_nonneg A v : nonneg_mat A -> nonneg_vec v -> nonneg_vec (mv A v).
Proof. intros HA Hv. induction HA; cbn; constructor; [apply dot_nonneg; assumption|assumption]. Qed.
Lemma mtv_nonneg nf A v : nonneg_mat A -> nonneg_vec v -> nonneg_vec (mtv nf A v).
Proof.
  intros HA; revert v; induction HA as [|r A Hr HA IH]; intros v Hv; cbn; [|destruct v as [|x v]].
  - apply Forall_forall. intros x Hx. apply repeat_spec in Hx. lra.
  - apply Forall_forall. intros x Hx. apply repeat_spec in Hx. lra.
  - inversion Hv; subst. specialize (IH v ltac:(assumption)).
    assert (Q : forall a b, nonneg_vec a -> nonneg_vec b -> nonneg_vec (vadd a b)).
    { intros a b Ha; revert b; induction Ha; intros [|y b] Hb; cbn; constructor; inversion Hb; subst; [lra|]. apply IHHa; assumption. }
    apply Q; [|assumption]. clear - Hr H1. induction Hr; cbn; constructor; [nra|assumption].
Qed.

Section CG.
  Context (n nf nc : nat) (G A : mat) (HG : is_mat nf n G) (HA : is_mat nc nf A).
  Local Notation AA x := (mtv nf A (mv A x)).

  Lemma len_mvG v : length (mv G v) = nf.
  Proof. rewrite mv_length. apply (proj1 HG). Qed.
  Lemma len_mvA v : length (mv A v) = nc.
  Proof. rewrite mv_length. apply (proj1 HA). Qed.
  Lemma len_mtvG v : length (mtv n G v) = n.
  Proof. apply (mtv_length nf n G v HG). Qed.
  Lemma len_AA v : length (mtv nf A v) = nf.
  Proof. apply (mtv_length nc nf A v HA). Qed.
  Ltac lenc := repeat first
    [ rewrite vadd_length | rewrite vsub_length | rewrite vmul_length | rewrite vscale_length
    | rewrite vopp_length | rewrite len_mvG | rewrite len_mvA | rewrite len_mtvG | rewrite len_AA | rewrite app_length | rewrite map_length ]; try lia.

  Lemma adjG w v : length w = nf -> length v = n -> dot (mtv n G w) v = dot w (mv G v).
  Proof. intros; symmetry; apply (mv_mtv_adjoint nf n G w v HG); assumption. Qed.
  Lemma adjA w v : length w = nc -> length v = nf -> dot (mtv nf A w) v = dot w (mv A v).
  Proof. intros; symmetry; apply (mv_mtv_adjoint nc nf A w v HA); assumption. Qed.
  Lemma piece y g v : length y = nc -> length g = nf -> length v = n ->
    dot (mtv n G (vmul (mtv nf A y) g)) v = dot y (mv A (vmul g (mv G v))).
  Proof. intros. rewrite adjG by lenc. rewrite dot_vmul_l, adjA by lenc. reflexivity. Qed.

  Lemma cg_value_dots m : cg_value n G A m =
    dot (mv A (vmul (mv G (firstn n m)) (mv G (firstn n m)))) (mv A (vmul (mv G (skipn n m)) (mv G (skipn n m))))
    - dot (mv A (vmul (mv G (firstn n m)) (mv G (skipn n m)))) (mv A (vmul (mv G (firstn n m)) (mv G (skipn n m)))).
  Proof. unfold cg_value. rewrite vsum_vsub by lenc. rewrite !vsum_vmul. reflexivity. Qed.

  Section Line.
    Context (m h : vec) (Lm : length m = (2 * n)%nat) (Lh : length h = (2 * n)%nat).
    Let g1 t := mv G (firstn n (vadd m (vscale t h))).
    Let g2 t := mv G (skipn n (vadd m (vscale t h))).
    Lemma vg1 : vderiv nf g1 0 (mv G (firstn n h)).
    Proof. apply (vderiv_mv nf n G _ _ _ HG). apply vderiv_first; assumption. Qed.
    Lemma vg2 : vderiv nf g2 0 (mv G (skipn n h)).
    Proof. apply (vderiv_mv nf n G _ _ _ HG). apply vderiv_second; assumption. Qed.
    Lemma g1_0 : g1 0 = mv G (firstn n m).
    Proof. unfold g1. rewrite line0 by congruence. reflexivity. Qed.
    Lemma g2_0 : g2 0 = mv G (skipn n m).
    Proof. unfold g2. rewrite line0 by congruence. reflexivity. Qed.
  End Line.

  Lemma cg_gradient m : length m = (2 * n)%nat -> has_gradient (2 * n) (cg_value n G A) m (cg_deriv n nf G A m).
  Proof.
    intros Lm. split; [unfold cg_deriv; lenc|]. intros h Lh.
    apply (dpl_ext _ _ _ _ (fun t => eq_sym (cg_value_dots (vadd m (vscale t h))))).
    pose proof (vg1 m h Lm Lh) as V1. pose proof (vg2 m h Lm Lh) as V2. cbv beta in V1, V2.
    pose proof (half1 n h Lh). pose proof (half2 n h Lh).
    assert (VA : forall f f', vderiv nf f 0 f' -> vderiv nc (fun t => mv A (f t)) 0 (mv A f')) by (intros; apply (vderiv_mv nc nf A _ _ _ HA); assumption).
    eapply dpl_eq; [|apply dpl_minus; (eapply (deriv_dot nc); eapply VA; eapply vderiv_mul; eassumption)].
    cbv beta. rewrite !line0 by congruence. unfold cg_deriv.
    set (g1 := mv G (firstn n m)). set (g2 := mv G (skipn n m)). set (h1 := mv G (firstn n h)). set (h2 := mv G (skipn n h)).
    rewrite dot_vscale_l, (dot_app n) by lenc. rewrite !dot_vsub_l by lenc.
    assert (L1 : length g1 = nf) by apply len_mvG. assert (L2 : length g2 = nf) by apply len_mvG.
    assert (L3 : length h1 = nf) by apply len_mvG. assert (L4 : length h2 = nf) by apply len_mvG.
    rewrite !piece by lenc. fold h1 h2.
    rewrite !mv_vadd by lenc. rewrite !dot_vadd_l, !dot_vadd_r by lenc.
    rewrite (vmul_comm h1 g1), (vmul_comm h2 g2), (vmul_comm h1 g2).
    rewrite (dot_comm (mv A (vmul g1 h1)) (mv A (vmul g2 g2))), (dot_comm (mv A (vmul g2 h1)) (mv A (vmul g1 g2))), (dot_comm (mv A (vmul g1 h2)) (mv A (vmul g1 g2))). ring.
  Qed.

  (** linearity of AA *)
  Lemma AA_add x y : length x = nf -> length y = nf -> AA (vadd x y) = vadd (AA x) (AA y).
  Proof. intros. rewrite mv_vadd by lia. apply (mtv_vadd nc nf A _ _ HA); apply len_mvA. Qed.
  Lemma nth_dbl (x : vec) i : nth i (vadd x x) 0 = 2 * nth i x 0.
  Proof. revert i; induction x as [|a x IH]; intros [|i]; cbn; try ring. apply IH. Qed.

  Lemma cg_hessian_full m : length m = (2 * n)%nat ->
    has_jacobian (2 * n) (2 * n) (cg_deriv n nf G A) m (cg_deriv2v false n nf G A m).
  Proof.
    intros Lm h Lh. unfold cg_deriv.
    pose proof (vg1 m h Lm Lh) as V1. pose proof (vg2 m h Lm Lh) as V2. cbv beta in V1, V2.
    replace (2 * n)%nat with (n + n)%nat by lia.
    assert (VAA : forall f f', vderiv nf f 0 f' -> vderiv nf (fun t => AA (f t)) 0 (AA f')).
    { intros f f' V. apply (vderiv_mtv nc nf A _ _ _ HA). apply (vderiv_mv nc nf A _ _ _ HA). assumption. }
    assert (VG : forall f f', vderiv nf f 0 f' -> vderiv n (fun t => mtv n G (f t)) 0 (mtv n G f')) by (intros; apply (vderiv_mtv nf n G _ _ _ HG); assumption).
    eapply vderiv_eq; [|apply vderiv_scale, vderiv_app; apply vderiv_sub; eapply VG; (eapply vderiv_mul; [eapply VAA; eapply vderiv_mul; eassumption|eassumption])].
    cbv beta. rewrite !line0 by congruence. unfold cg_deriv2v. cbv zeta.
    set (g1 := mv G (firstn n m)). set (g2 := mv G (skipn n m)). set (h1 := mv G (firstn n h)). set (h2 := mv G (skipn n h)).
    assert (L1 : length g1 = nf) by apply len_mvG. assert (L2 : length g2 = nf) by apply len_mvG.
    assert (L3 : length h1 = nf) by apply len_mvG. assert (L4 : length h2 = nf) by apply len_mvG.
    rewrite (vmul_comm h1 g1), (vmul_comm h2 g2), (vmul_comm h1 g2).
    rewrite !AA_add by lenc.
    set (a11 := AA (vmul g1 h1)). set (a22 := AA (vmul g2 h2)). set (a21 := AA (vmul g2 h1)). set (a12 := AA (vmul g1 h2)).
    set (b11 := AA (vmul g1 g1)). set (b22 := AA (vmul g2 g2)). set (b12 := AA (vmul g1 g2)).
    assert (M1 : length a11 = nf) by apply len_AA. assert (M2 : length a22 = nf) by apply len_AA. assert (M3 : length a12 = nf) by apply len_AA. assert (M4 : length a21 = nf) by apply len_AA.
    assert (N1 : length b11 = nf) by apply len_AA. assert (N2 : length b22 = nf) by apply len_AA. assert (N3 : length b12 = nf) by apply len_AA.
    f_equal. f_equal.
    - rewrite vsub_as_add, <- (mtv_vscale nf n G) by (assumption || lenc). rewrite <- !(mtv_vadd nf n G) by (assumption || lenc).
      f_equal. apply vec_ext; [lenc|]. intros i Hi. assert (Li : (i < nf)%nat) by (revert Hi; lenc).
      repeat first [rewrite nth_vadd; lenc | rewrite nth_vsub; lenc | rewrite nth_vmul; lenc | rewrite nth_vscale | rewrite nth_vopp]. ring.
    - rewrite vsub_as_add, <- (mtv_vscale nf n G) by (assumption || lenc). rewrite <- !(mtv_vadd nf n G) by (assumption || lenc).
      f_equal. apply vec_ext; [lenc|]. intros i Hi. assert (Li : (i < nf)%nat) by (revert Hi; lenc).
      repeat first [rewrite nth_vadd; lenc | rewrite nth_vsub; lenc | rewrite nth_vmul; lenc | rewrite nth_vscale | rewrite nth_vopp]. ring.
  Qed.

  Lemma vmul_vopp_l a b : vmul (vopp a) b = vopp (vmul a b).
  Proof. revert b; induction a as [|x a IH]; intros [|y b]; cbn; auto. f_equal; [ring|apply IH]. Qed.

  Lemma cg_matrix approx m v : length m = (2 * n)%nat -> length v = (2 * n)%nat ->
    act false (cg_deriv2m approx n nf G A m) v = cg_deriv2v approx n nf G A m v.
  Proof.
    intros Lm Lv. unfold cg_deriv2m, cg_deriv2v. cbv zeta.
    set (g1 := mv G (firstn n m)). set (g2 := mv G (skipn n m)).
    assert (L1 : length g1 = nf) by apply len_mvG. assert (L2 : length g2 = nf) by apply len_mvG.
    destruct approx; cbn [act negb].
    - set (h1 := mv G (firstn n v)). set (h2 := mv G (skipn n v)).
      assert (L3 : length h1 = nf) by apply len_mvG. assert (L4 : length h2 = nf) by apply len_mvG.
      f_equal. f_equal; rewrite <- !(mtv_vadd nf n G) by (assumption || lenc); reflexivity.
    - set (h1 := mv G (firstn n v)). set (h2 := mv G (skipn n v)).
      assert (L3 : length h1 = nf) by apply len_mvG. assert (L4 : length h2 = nf) by apply len_mvG.
      f_equal. f_equal; rewrite <- !(mtv_vadd nf n G) by (assumption || lenc); f_equal;
      (apply vec_ext; [lenc|]; intros i Hi; assert (Li : (i < nf)%nat) by (revert Hi; lenc);
       repeat first [rewrite nth_vadd; lenc | rewrite nth_vsub; lenc | rewrite nth_vmul; lenc | rewrite nth_vscale | rewrite nth_vopp]).
      + ring.
      + (* transposed block *)
        assert (S2 : forall y, AA (vscale 2 y) = vscale 2 (AA y)).
        { intros. rewrite mv_vscale. apply (mtv_vscale nc nf A _ _ HA). apply len_mvA. }
        rewrite S2, nth_vscale. ring.
  Qed.

  (** symmetry *)
  Lemma cg_symmetric approx m : length m = (2 * n)%nat -> symmetric_action (2 * n) (cg_deriv2v approx n nf G A m).
  Proof.
    intros Lm u v Lu Lv. unfold cg_deriv2v. cbv zeta.
    pose proof (half1 n u Lu). pose proof (half2 n u Lu). pose proof (half1 n v Lv). pose proof (half2 n v Lv).
    rewrite (dot_comm u).
    set (g1 := mv G (firstn n m)). set (g2 := mv G (skipn n m)).
    assert (L1 : length g1 = nf) by apply len_mvG. assert (L2 : length g2 = nf) by apply len_mvG.
    set (u1 := mv G (firstn n u)). set (u2 := mv G (skipn n u)). set (v1 := mv G (firstn n v)). set (v2 := mv G (skipn n v)).
    assert (L3 : length v1 = nf) by apply len_mvG. assert (L4 : length v2 = nf) by apply len_mvG.
    assert (L5 : length u1 = nf) by apply len_mvG. assert (L6 : length u2 = nf) by apply len_mvG.
    set (d11 := AA (vmul g2 g2)). set (d12 := vopp (AA (vmul g1 g2))). set (d22 := AA (vmul g1 g1)).
    assert (N1 : length d11 = nf) by apply len_AA. assert (N2 : length d22 = nf) by apply len_AA. assert (N3 : length d12 = nf) by (unfold d12; rewrite vopp_length; apply len_AA).
    destruct approx.
    - rewrite !dot_vscale_l, !(dot_app n) by lenc. rewrite !adjG by lenc. fold u1 u2 v1 v2. rewrite !dot_vadd_l by lenc. rewrite !dot_vmul_l.
      rewrite (vmul_comm u1 v1), (vmul_comm u2 v1), (vmul_comm u1 v2), (vmul_comm u2 v2). ring.
    - rewrite !dot_vscale_l, !(dot_app n) by lenc. rewrite !dot_vadd_l by lenc. rewrite !adjG by lenc. fold u1 u2 v1 v2.
      rewrite !dot_vsub_l, !dot_vadd_l by lenc.
      assert (Q : forall g y z, length y = nf -> length z = nf -> length g = nf -> dot (vmul g (AA y)) z = dot (mv A y) (mv A (vmul g z))).
      { intros g y z Ly Lz Lg. rewrite (vmul_comm g), dot_vmul_l, adjA by lenc. reflexivity. }
      assert (Qo : forall g y z, length y = nf -> length z = nf -> length g = nf -> dot (vmul (vopp g) (AA y)) z = - dot (mv A y) (mv A (vmul g z))).
      { intros g y z Ly Lz Lg. rewrite vmul_vopp_l, dot_vopp_l, Q by assumption. reflexivity. }
      assert (Qs : forall g y z, length y = nf -> length z = nf -> length g = nf -> dot (vmul (vscale 2 g) (AA y)) z = 2 * dot (mv A y) (mv A (vmul g z))).
      { intros g y z Ly Lz Lg. replace (vmul (vscale 2 g) (AA y)) with (vscale 2 (vmul g (AA y))). - rewrite dot_vscale_l, Q by assumption. reflexivity.
        - generalize (AA y). clear. intros w. revert w. induction g as [|x a IH]; intros [|z w]; cbn; auto. f_equal; [ring|apply IH]. }
      rewrite !Qo, !Qs, !Q by lenc. rewrite !dot_vmul_l.
      rewrite (vmul_comm u1 v1), (vmul_comm u2 v1), (vmul_comm u1 v2), (vmul_comm u2 v2).
      rewrite (dot_comm (mv A (vmul g2 u1)) (mv A (vmul g2 v1))), (dot_comm (mv A (vmul g2 u2)) (mv A (vmul g1 v1))), (dot_comm (mv A (vmul g1 u2)) (mv A (vmul g2 v1))),
        (dot_comm (mv A (vmul g1 u2)) (mv A (vmul g1 v2))), (dot_comm (mv A (vmul g1 u1)) (mv A (vmul g2 v2))), (dot_comm (mv A (vmul g2 u1)) (mv A (vmul g1 v2))). ring.
  Qed.

  (** nonnegativity *)
  Context (PA : nonneg_mat A).
  Lemma cs_cell g1 g2 i : length g1 = nf -> length g2 = nf -> (i < nc)%nat ->
    nth i (mv A (vmul g1 g2)) 0 * nth i (mv A (vmul g1 g2)) 0 <= nth i (mv A (vmul g1 g1)) 0 * nth i (mv A (vmul g2 g2)) 0.
  Proof.
    intros L1 L2 Hi. assert (Hl : (i < length A)%nat) by (rewrite (proj1 HA); assumption). rewrite !nth_mv by assumption.
    assert (Lr : length (nth i A []) = nf) by (apply (proj1 (Forall_nth _ A) (proj2 HA) i [] Hl)).
    apply weighted_cs; try lenc.
    - apply (proj1 (Forall_nth _ A) PA i [] Hl).
    - apply sq_nonneg.
    - apply sq_nonneg.
    - intros j Hj. rewrite !nth_vmul by lia. right. ring.
  Qed.
  Lemma dot_le a b c d : length a = length b -> length c = length d -> length a = length c ->
    (forall i, (i < length a)%nat -> nth i a 0 * nth i b 0 <= nth i c 0 * nth i d 0) -> dot a b <= dot c d.
  Proof.
    revert b c d; induction a as [|x a IH]; intros [|y b] [|z c] [|w d]; cbn; intros L1 L2 L3 H; try lia; try lra.
    pose proof (H O ltac:(lia)) as H0. cbn in H0. specialize (IH b c d ltac:(lia) ltac:(lia) ltac:(lia) (fun i Hi => H (S i) ltac:(lia))). lra.
  Qed.
  Lemma cg_nonneg m : 0 <= cg_value n G A m.
  Proof.
    rewrite cg_value_dots. match goal with |- 0 <= ?a - ?b => enough (b <= a) by lra end.
    apply dot_le; lenc. intros i Hi. apply cs_cell; try apply len_mvG. assumption.
  Qed.

  Lemma d_cs g1 g2 i : length g1 = nf -> length g2 = nf -> (i < nf)%nat ->
    nth i (AA (vmul g1 g2)) 0 * nth i (AA (vmul g1 g2)) 0 <= nth i (AA (vmul g1 g1)) 0 * nth i (AA (vmul g2 g2)) 0.
  Proof.
    intros L1 L2 Hi. rewrite !(nth_mtv nc nf A HA) by (assumption || lenc).
    apply weighted_cs; lenc.
    - apply Forall_forall. intros x Hx. apply in_map_iff in Hx. destruct Hx as (r & <- & Hr). apply nonneg_nth. apply (proj1 (Forall_forall _ _) PA). assumption.
    - apply mv_nonneg; [assumption|apply sq_nonneg].
    - apply mv_nonneg; [assumption|apply sq_nonneg].
    - rewrite (proj1 HA). reflexivity.
    - rewrite (proj1 HA). reflexivity.
    - rewrite (proj1 HA). reflexivity.
    - intros j Hj. apply cs_cell; try assumption. rewrite (proj1 HA) in Hj. exact Hj.
  Qed.
  Lemma quad_nonneg a b c x y : 0 <= a -> 0 <= c -> b * b <= a * c -> 0 <= a * (x * x) + 2 * (b * (x * y)) + c * (y * y).
  Proof.
    intros Ha Hc H. assert (K : 2 * (- (b * (x * y))) <= a * (x * x) + c * (y * y)); [|lra].
    apply amgm; [nra|nra|]. replace (- (b * (x * y)) * - (b * (x * y))) with ((b * b) * ((x * x) * (y * y))) by ring.
    replace (a * (x * x) * (c * (y * y))) with ((a * c) * ((x * x) * (y * y))) by ring. apply Rmult_le_compat_r; [|assumption].
    assert (0 <= x * x) by nra. assert (0 <= y * y) by nra. nra.
  Qed.
  Lemma dots_nonneg a b c x y : length a = length x -> length b = length x -> length c = length x -> length y = length x ->
    (forall i, (i < length x)%nat -> 0 <= nth i a 0 /\ 0 <= nth i c 0 /\ nth i b 0 * nth i b 0 <= nth i a 0 * nth i c 0) ->
    0 <= dot a (vmul x x) + 2 * dot b (vmul x y) + dot c (vmul y y).
  Proof.
    revert b c x y; induction a as [|p a IH]; intros [|q b] [|r c] [|z x] [|w y]; cbn; intros L1 L2 L3 L4 H; try lia; try lra.
    fold (vmul x x) (vmul x y) (vmul y y).
    pose proof (H O ltac:(lia)) as H0. cbn in H0. specialize (IH b c x y ltac:(lia) ltac:(lia) ltac:(lia) ltac:(lia) (fun i Hi => H (S i) ltac:(lia))).
    destruct H0 as (A1 & A2 & A3). pose proof (quad_nonneg p q r z w A1 A2 A3). lra.
  Qed.
  Lemma cg_approx_psd m : length m = (2 * n)%nat -> psd_action (2 * n) (cg_deriv2v true n nf G A m).
  Proof.
    intros Lm v Lv. unfold cg_deriv2v. cbv zeta. rewrite (dot_comm v). rewrite dot_vscale_l.
    pose proof (half1 n v Lv). pose proof (half2 n v Lv).
    set (g1 := mv G (firstn n m)). set (g2 := mv G (skipn n m)).
    assert (L1 : length g1 = nf) by apply len_mvG. assert (L2 : length g2 = nf) by apply len_mvG.
    set (v1 := mv G (firstn n v)). set (v2 := mv G (skipn n v)).
    assert (L3 : length v1 = nf) by apply len_mvG. assert (L4 : length v2 = nf) by apply len_mvG.
    set (d11 := AA (vmul g2 g2)). set (d12 := AA (vmul g1 g2)). set (d22 := AA (vmul g1 g1)).
    assert (N1 : length d11 = nf) by apply len_AA. assert (N2 : length d22 = nf) by apply len_AA. assert (N3 : length d12 = nf) by apply len_AA.
    rewrite (dot_app n) by lenc. rewrite !adjG by lenc. fold v1 v2. rewrite !dot_vadd_l by lenc. rewrite !dot_vmul_l, (vmul_comm v2 v1).
    pose proof (dots_nonneg d11 (vopp d12) d22 v1 v2) as P. specialize (P ltac:(lenc) ltac:(lenc) ltac:(lenc) ltac:(lenc)).
    enough (0 <= dot d11 (vmul v1 v1) + 2 * dot (vopp d12) (vmul v1 v2) + dot d22 (vmul v2 v2)) by lra.
    apply P. intros i Hi. rewrite L3 in Hi. repeat split.
    - apply nonneg_nth. apply mtv_nonneg; [assumption|]. apply mv_nonneg; [assumption|apply sq_nonneg].
    - apply nonneg_nth. apply mtv_nonneg; [assumption|]. apply mv_nonneg; [assumption|apply sq_nonneg].
    - rewrite nth_vopp. pose proof (d_cs g1 g2 i L1 L2 Hi). fold d12 d22 d11 in H1. nra.
  Qed.
End CG.

Lemma map_affine a b m1 : affine_copy a b m1 = vadd (vscale a m1) (vconst (length m1) b).
Proof. induction m1 as [|x m IH]; cbn; [reflexivity|]. f_equal. exact IH. Qed.
Lemma mv_kills n G c : kills_constants n G -> mv G (vconst n c) = vzero (length G).
Proof. intros K. induction K as [|r G Hr K IH]; cbn; [reflexivity|]. f_equal; [apply Hr|exact IH]. Qed.
Lemma mv_affine n G a b m1 : length m1 = n -> kills_constants n G -> mv G (affine_copy a b m1) = vscale a (mv G m1).
Proof.
  intros L K. rewrite map_affine, mv_vadd by (rewrite vscale_length, vconst_length; reflexivity). rewrite L, mv_kills, mv_vscale by assumption.
  apply vadd_zero_r. rewrite vscale_length, mv_length. reflexivity.
Qed.
Lemma vmul_scale_r a x y : vmul x (vscale a y) = vscale a (vmul x y).
Proof. revert y; induction x as [|u x IH]; intros [|v y]; cbn; auto. f_equal; [ring|apply IH]. Qed.
Lemma cg_affine_zero n nf nc G A a b m1 : is_mat nf n G -> is_mat nc nf A -> length m1 = n -> kills_constants n G ->
  cg_value n G A (m1 ++ affine_copy a b m1) = 0.
Proof.
  intros HG HA L K. rewrite (cg_value_dots n nf nc G A HA). rewrite firstn_app_exact, skipn_app_exact by assumption.
  rewrite (mv_affine n) by assumption. rewrite vmul_scale_r, (vmul_comm (vscale a _)), vmul_scale_r. rewrite !vscale_vscale, !mv_vscale, !dot_vscale_r, !dot_vscale_l. ring.
Qed.
Lemma cg_swap n nf nc G A m1 m2 : is_mat nf n G -> is_mat nc nf A -> length m1 = n -> length m2 = n ->
  cg_value n G A (m2 ++ m1) = cg_value n G A (m1 ++ m2).
Proof.
  intros HG HA L1 L2. rewrite !(cg_value_dots n nf nc G A HA). rewrite !firstn_app_exact, !skipn_app_exact by assumption.
  rewrite (vmul_comm (mv G m2) (mv G m1)). f_equal. apply dot_comm.
Qed.
Lemma scale_rows_mat d nc nf M : length d = nc -> is_mat nc nf M -> is_mat nc nf (scale_rows d M).
Proof.
  intros Ld [HM HF]. revert d nc Ld HM; induction HF as [|r M Hr HF IH]; intros [|x d] nc Ld HM; cbn in *; try (subst; discriminate); try (split; [assumption|constructor]).
  destruct nc; try discriminate. destruct (IH d nc ltac:(lia) ltac:(lia)) as [H1 H2]. split; cbn; [lia|]. constructor; [rewrite vscale_length; assumption|assumption].
Qed.
Lemma scale_rows_nonneg d M : nonneg_vec d -> nonneg_mat M -> nonneg_mat (scale_rows d M).
Proof.
  intros Hd; revert M; induction Hd as [|x d Hx Hd IH]; intros M HM; [constructor|]. destruct HM as [|r M Hr HM]; [constructor|]. cbn. constructor; [|apply IH; assumption].
  clear - Hx Hr. induction Hr; cbn; constructor; [nra|assumption].
Qed.
Lemma sqrt_nonneg v : nonneg_vec (map sqrt v).
Proof. apply Forall_forall. intros x Hx. apply in_map_iff in Hx. destruct Hx as (y & <- & _). apply sqrt_pos. Qed.
