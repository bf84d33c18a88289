(** Proofs about Mt1d.v: signs and derivatives of the recursion. *)
From Verif Require Import Py Vec VecDeriv ParamFacts2 Cx Mt1d.
From Coq Require Import Lra.
Local Open Scope R_scope.

(** ** sin and sinh *)
Lemma exp_sum_ge2 c : 2 <= exp c + exp (- c).
Proof.
  rewrite exp_Ropp. pose proof (exp_pos c) as E. set (a := exp c) in *.
  assert (a + / a - 2 = (a - 1) * (a - 1) / a) as H by (field; lra).
  assert (0 <= (a - 1) * (a - 1) / a) by (apply Rmult_le_pos; [apply Rle_0_sqr|left; apply Rinv_0_lt_compat; lra]). lra.
Qed.
Lemma sinh_ge y : 0 <= y -> 2 * y <= exp y - exp (- y).
Proof.
  intros [Hy|<-]; [|rewrite Ropp_0; lra].
  destruct (MVT_cor2 (fun x => exp x - exp (- x)) (fun x => exp x + exp (- x)) 0 y Hy) as (c & E & Hc).
  - intros c _. eapply dpl_eq; [|apply dpl_minus; [apply derivable_pt_lim_exp|]].
    2:{ eapply (dpl_comp (fun x => - x) exp); [|apply derivable_pt_lim_exp].
        eapply dpl_ext; [|apply (dpl_scal (-1)); apply dpl_id]. cbn. intros; ring. }
    cbn. ring.
  - cbn in E. rewrite Ropp_0 in E. pose proof (exp_sum_ge2 c). nra.
Qed.
Lemma abs_sin_le y : 0 <= y -> Rabs (sin y) <= y.
Proof.
  intros [Hy|<-]; [|rewrite sin_0, Rabs_R0; lra].
  assert (U : sin y < y) by (apply sin_lt_x; exact Hy).
  pose proof (SIN_bound y) as B.
  destruct (Rle_dec 0 (sin y)) as [S|S]; [rewrite Rabs_right by lra; lra|].
  rewrite Rabs_left by lra.
  destruct (Rle_dec y PI) as [P|P].
  - exfalso. apply S. apply sin_ge_0; lra.
  - pose proof PI2_1. unfold PI2 in *. lra.
Qed.
Lemma abs_sin_sinh y : 0 <= y -> 2 * Rabs (sin y) <= exp y - exp (- y).
Proof. intros H. pose proof (abs_sin_le y H). pose proof (sinh_ge y H). lra. Qed.

(** ** tanh on the diagonal *)
Lemma expI_neq x : 0 < x -> cexp (xscale 2 (x, x)) +x x1 <> x0.
Proof.
  intros H E. unfold cexp, xscale, xadd, x1, x0, Re, Im in E. cbn in E. injection E as E1 E2.
  assert (1 < exp (2 * x)) by (rewrite <- exp_0; apply exp_increasing; lra).
  rewrite Rplus_0_r in E2. assert (sin (2 * x) = 0) by nra.
  pose proof (sin2_cos2 (2 * x)) as P. unfold Rsqr in P. nra.
Qed.
Lemma mobius_parts e : nrm2 (e +x x1) <> 0 ->
  Re ((e -x x1) /x (e +x x1)) = (Re e * Re e + Im e * Im e - 1) / nrm2 (e +x x1) /\
  Im ((e -x x1) /x (e +x x1)) = 2 * Im e / nrm2 (e +x x1).
Proof.
  destruct e as [p q]. unfold xdiv, xinv, xmul, xsub, xadd, x1, nrm2, Re, Im. cbn. intros H.
  rewrite Rplus_0_r in *. split; field; exact H.
Qed.
Lemma tanh_diag x : 0 < x -> 0 < Re (ctanh (x, x)) /\ Rabs (Im (ctanh (x, x))) <= Re (ctanh (x, x)).
Proof.
  intros H. pose proof (nrm2_pos _ (expI_neq x H)) as N.
  set (e := cexp (xscale 2 (x, x))) in *.
  assert (Er : Re e = exp (2 * x) * cos (2 * x)) by reflexivity.
  assert (Ei : Im e = exp (2 * x) * sin (2 * x)) by reflexivity.
  assert (En : Re e * Re e + Im e * Im e = exp (2 * x) * exp (2 * x)).
  { rewrite Er, Ei. pose proof (sin2_cos2 (2 * x)) as P. unfold Rsqr in P. nra. }
  assert (G : 1 < exp (2 * x)) by (rewrite <- exp_0; apply exp_increasing; lra).
  assert (TR : Re (ctanh (x, x)) = (exp (2 * x) * exp (2 * x) - 1) / nrm2 (e +x x1)).
  { unfold ctanh. fold e. cbv zeta. rewrite (proj1 (mobius_parts e ltac:(lra))), En. reflexivity. }
  assert (TI : Im (ctanh (x, x)) = 2 * Im e / nrm2 (e +x x1)).
  { unfold ctanh. fold e. cbv zeta. apply (proj2 (mobius_parts e ltac:(lra))). }
  assert (IN : 0 < / nrm2 (e +x x1)) by (apply Rinv_0_lt_compat; exact N).
  split.
  - rewrite TR. apply Rmult_lt_0_compat; [nra|exact IN].
  - rewrite TR, TI. unfold Rdiv. rewrite Rabs_mult, (Rabs_right (/ _)) by lra.
    apply Rmult_le_compat_r; [lra|]. rewrite Ei, !Rabs_mult, (Rabs_right 2), (Rabs_right (exp _)) by lra.
    pose proof (abs_sin_sinh (2 * x) ltac:(lra)) as S. rewrite exp_Ropp in S.
    assert (exp (2 * x) * exp (2 * x) - 1 = exp (2 * x) * (exp (2 * x) - / exp (2 * x))) as -> by (field; lra).
    assert (0 < exp (2 * x)) by lra. nra.
Qed.

(** ** The sector *)
Definition sec (w : cx) : Prop := Rabs (Im w) < Re w.
Lemma sec_pos w : sec w -> 0 < Re w.
Proof. unfold sec. pose proof (Rabs_pos (Im w)). lra. Qed.
Lemma sec_scale c w : 0 < c -> sec w -> sec (xscale c w).
Proof. intros Hc H. unfold sec in *. cbn. rewrite Rabs_mult, (Rabs_right c) by lra. apply Rmult_lt_compat_l; assumption. Qed.
Lemma sec_step u T : sec u -> 0 < Re T -> Rabs (Im T) <= Re T ->
  x1 +x u *x T <> x0 /\ sec ((u +x T) /x (x1 +x u *x T)).
Proof.
  intros Hu HT1 HT2. unfold sec in Hu.
  destruct u as [p q], T as [a b]. unfold Re, Im in *. cbn in Hu, HT1, HT2.
  assert (Hp : 0 < p) by (pose proof (Rabs_pos q); lra).
  (* numerator of the quotient *)
  set (X := (1 + (a * a + b * b)) * p + (1 + (p * p + q * q)) * a).
  set (Y := (1 - (a * a + b * b)) * q + (1 - (p * p + q * q)) * b).
  assert (HX : 0 < X) by (unfold X; nra).
  assert (HY : Rabs Y < X).
  { unfold Y, X. eapply Rle_lt_trans; [apply Rabs_triang|]. rewrite !Rabs_mult.
    assert (A1 : Rabs (1 - (a * a + b * b)) <= 1 + (a * a + b * b)).
    { apply Rabs_le. split; nra. }
    assert (A2 : Rabs (1 - (p * p + q * q)) <= 1 + (p * p + q * q)).
    { apply Rabs_le. split; nra. }
    apply Rplus_lt_le_compat.
    - apply Rle_lt_trans with ((1 + (a * a + b * b)) * Rabs q).
      + apply Rmult_le_compat_r; [apply Rabs_pos|exact A1].
      + apply Rmult_lt_compat_l; [nra|exact Hu].
    - apply Rmult_le_compat; auto using Rabs_pos. }
  set (D := x1 +x (p, q) *x (a, b)).
  assert (EX : Re (((p, q) +x (a, b))) * Re D + Im ((p, q) +x (a, b)) * Im D = X).
  { unfold D, X. cbn. ring. }
  assert (EY : Im (((p, q) +x (a, b))) * Re D - Re ((p, q) +x (a, b)) * Im D = Y).
  { unfold D, Y. cbn. ring. }
  assert (HD : D <> x0).
  { intros E. rewrite E in EX. cbn in EX. lra. }
  split; [exact HD|]. pose proof (nrm2_pos _ HD) as N.
  assert (IN : 0 < / nrm2 D) by (apply Rinv_0_lt_compat; exact N).
  fold D. unfold sec.
  assert (ER : Re (((p, q) +x (a, b)) /x D) = X * / nrm2 D).
  { rewrite <- EX. unfold xdiv, xinv, xmul, Re, Im. cbn -[nrm2]. unfold Rdiv. ring. }
  assert (EI : Im (((p, q) +x (a, b)) /x D) = Y * / nrm2 D).
  { rewrite <- EY. unfold xdiv, xinv, xmul, Re, Im. cbn -[nrm2]. unfold Rdiv. ring. }
  rewrite ER, EI, Rabs_mult, (Rabs_right (/ _)) by lra. apply Rmult_lt_compat_r; assumption.
Qed.

(** ** The recursion stays well defined *)
Section Z.
  Variables (w mu : R).
  Hypothesis (Hw : 0 < w) (Hmu : 0 < mu).

  Definition oneI : cx := (1, 1).
  Definition coef (s : R) : R := sqrt (w * mu * s / 2) / s.
  Lemma coef_pos s : 0 < s -> 0 < coef s.
  Proof.
    intros H. unfold coef. apply Rmult_lt_0_compat; [|now apply Rinv_0_lt_compat].
    apply sqrt_lt_R0. assert (0 < w * mu) by nra. nra.
  Qed.
  Lemma ratio_coef s : ratio w mu s = xscale (coef s) oneI.
  Proof. unfold ratio, alpha, csqrtI, coef, oneI, xdivr, xscale, Re, Im. cbn. f_equal; ring. Qed.
  Lemma alpha_pos s : 0 < s -> exists a, 0 < a /\ alpha w mu s = (a, a).
  Proof.
    intros H. exists (sqrt (w * mu * s / 2)). split; [|reflexivity].
    apply sqrt_lt_R0. assert (0 < w * mu) by nra. nra.
  Qed.
  Lemma alpha_neq s : 0 < s -> alpha w mu s <> x0.
  Proof. intros H. destruct (alpha_pos s H) as (a & Ha & ->). apply Re_neq. cbn. lra. Qed.
  Lemma ratio_neq s : 0 < s -> ratio w mu s <> x0.
  Proof. intros H. rewrite ratio_coef. apply Re_neq. cbn. pose proof (coef_pos s H). lra. Qed.
  Lemma tnh_ok s t : 0 < s -> 0 < t -> 0 < Re (tnh w mu s t) /\ Rabs (Im (tnh w mu s t)) <= Re (tnh w mu s t).
  Proof.
    intros Hs Ht. unfold tnh. destruct (alpha_pos s Hs) as (a & Ha & ->). unfold xscale. cbn [Re Im fst snd].
    apply tanh_diag. nra.
  Qed.
  Lemma tnh_arg s t : 0 < s -> 0 < t -> cexp (xscale 2 (xscale t (alpha w mu s))) +x x1 <> x0.
  Proof.
    intros Hs Ht. destruct (alpha_pos s Hs) as (a & Ha & ->).
    change (xscale t (a, a)) with (t * a, t * a). apply expI_neq. nra.
  Qed.

  Definition good (Z : cx) : Prop := exists v, sec v /\ Z = xopp (oneI *x v).
  Lemma good_quadrant Z : good Z -> Re Z < 0 /\ Im Z < 0.
  Proof.
    intros (v & H & ->). unfold sec in H. destruct v as [p q]. unfold oneI, xmul, xopp, Re, Im in *. cbn in *.
    apply Rabs_def2 in H. lra.
  Qed.
  Lemma good_neq Z : good Z -> Z <> x0.
  Proof. intros H. apply good_quadrant in H. apply Re_neq. lra. Qed.
  Lemma good_bottom s : 0 < s -> good (xopp (ratio w mu s)).
  Proof.
    intros H. exists (xr (coef s)). split.
    - unfold sec. cbn. rewrite Rabs_R0. now apply coef_pos.
    - rewrite ratio_coef. apply cx_eq; unfold oneI, xopp, xscale, xmul, xr, Re, Im; cbn; ring.
  Qed.
  Lemma good_step l Zn : 0 < fst l -> 0 < snd l -> good Zn ->
    bot_ w mu l Zn <> x0 /\ good (ratio w mu (fst l) *x (top_ w mu l Zn /x bot_ w mu l Zn)).
  Proof.
    intros Hs Ht (v & Hv & ->). pose proof (coef_pos _ Hs) as Hc.
    destruct (tnh_ok _ _ Hs Ht) as [T1 T2].
    set (u := xscale (/ coef (fst l)) v).
    assert (Hu : sec u) by (apply sec_scale; [now apply Rinv_0_lt_compat|exact Hv]).
    destruct (sec_step u (tnh w mu (fst l) (snd l)) Hu T1 T2) as [S1 S2].
    assert (Eu : xopp (oneI *x v) /x ratio w mu (fst l) = xopp u).
    { rewrite ratio_coef. unfold u. rewrite !xscale_mul.
      assert (Ei : xr (/ coef (fst l)) = xinv (xr (coef (fst l)))).
      { apply cx_eq; unfold xr, xinv, nrm2, Re, Im; cbn; field; lra. }
      rewrite Ei. field. split; first [apply xr_neq; lra|apply Re_neq; cbn; lra]. }
    unfold bot_, top_. rewrite Eu.
    assert (EB : x1 -x xopp u *x tnh w mu (fst l) (snd l) = x1 +x u *x tnh w mu (fst l) (snd l)) by ring.
    rewrite EB. split; [exact S1|].
    exists (xscale (coef (fst l)) ((u +x tnh w mu (fst l) (snd l)) /x (x1 +x u *x tnh w mu (fst l) (snd l)))).
    split; [apply sec_scale; assumption|].
    rewrite ratio_coef, !xscale_mul. field. exact S1.
  Qed.

  Definition pos_layers (ls : list (R * R)) : Prop := Forall (fun l => 0 < fst l /\ 0 < snd l) ls.
  Lemma Zs_cons ls sb : exists z zs, Zs w mu ls sb = z :: zs.
  Proof. destruct ls; cbn; eauto. Qed.
  Lemma good_Z ls sb : pos_layers ls -> 0 < sb -> good (Ztop w mu ls sb).
  Proof.
    intros HL Hb. induction HL as [|l ls [H1 H2] HL IH].
    - apply good_bottom. exact Hb.
    - unfold Ztop in *. cbn [Zs hd]. apply good_step; assumption.
  Qed.
End Z.
