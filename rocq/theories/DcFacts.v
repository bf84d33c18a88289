From Verif Require Import Py Vec VecDeriv Frechet Joint Richards RichardsFacts RichardsFacts2 RichardsFacts3 SolveDeriv Dc SpecDc.
From Coq Require Import Reals Lra Lia.
Local Open Scope R_scope.

(** ** Linear maps *)
Lemma lin_mv r c M : is_mat r c M -> lin_map c r (mv M).
Proof. intros H. split; [|split]. - intros. rewrite mv_length. apply H. - intros. apply mv_vadd. congruence. - intros. apply mv_vscale. Qed.
Lemma lin_mtv r c M : is_mat r c M -> lin_map r c (mtv c M).
Proof. intros H. split; [|split]. - intros. eapply mtv_length. exact H. - intros. apply (mtv_vadd r); assumption. - intros. apply (mtv_vscale r); assumption. Qed.
Lemma lin_vmul n d : length d = n -> lin_map n n (vmul d).
Proof. intros H. split; [|split]. - intros. ln. - intros. vext n. ring. - intros. vext n. ring. Qed.
Lemma lin_comp a b c f g : lin_map a b f -> lin_map b c g -> lin_map a c (fun v => g (f v)).
Proof. intros (L & A & C) (L' & A' & C'). split; [|split]; intros. - auto. - rewrite A, A' by auto. reflexivity. - rewrite C, C' by auto. reflexivity. Qed.
Lemma lin_add n k f g : lin_map n k f -> lin_map n k g -> lin_map n k (fun v => vadd (f v) (g v)).
Proof.
  intros (L & A & C) (L' & A' & C'). split; [|split]; intros.
  - apply ln_add; auto.
  - rewrite A, A' by auto. pose proof (L a H); pose proof (L b H0); pose proof (L' a H); pose proof (L' b H0). vext k. ring.
  - rewrite C, C' by auto. pose proof (L a H); pose proof (L' a H). vext k. ring.
Qed.
Lemma lin_scale n k c f : lin_map n k f -> lin_map n k (fun v => vscale c (f v)).
Proof.
  intros (L & A & C). split; [|split]; intros.
  - apply ln_scale; auto.
  - rewrite A by auto. pose proof (L a H); pose proof (L b H0). vext k. ring.
  - rewrite C by auto. pose proof (L a H). vext k. ring.
Qed.
Lemma lin_act A : forall r c, wfm r c A -> lin_map c r (act false A) /\ lin_map r c (act true A).
Proof.
  induction A; intros r0 c0 W; cbn [wfm] in W; cbn [act].
  - destruct W as [-> W]. split; [apply lin_mv|apply lin_mtv]; exact W.
  - destruct W as [L ->]. split; apply lin_vmul; exact L.
  - destruct W as (k & W1 & W2). destruct (IHA1 _ _ W1) as [F1 T1]. destruct (IHA2 _ _ W2) as [F2 T2].
    split; [exact (lin_comp _ _ _ _ _ F2 F1)|exact (lin_comp _ _ _ _ _ T1 T2)].
  - destruct W as (W1 & W2). destruct (IHA1 _ _ W1) as [F1 T1]. destruct (IHA2 _ _ W2) as [F2 T2]. split; apply lin_add; assumption.
  - destruct W as (W1 & W2). destruct (IHA1 _ _ W1) as [F1 T1]. destruct (IHA2 _ _ W2) as [F2 T2]. split; apply lin_diff; assumption.
  - destruct (IHA _ _ W) as [F1 T1]. split; apply lin_scale; assumption.
  - destruct (IHA _ _ W) as [F1 T1]. cbn [negb]. split; assumption.
  - destruct W.
Qed.
(** Derivative through a linear map. *)
Lemma vderiv_lin n k f g g' : lin_map n k f -> vderiv n g 0 g' -> vderiv k (fun t => f (g t)) 0 (f g').
Proof.
  intros Lf D. apply vderiv_norm in D. destruct D as (L & L' & D). apply vderiv_norm. split; [intros; apply Lf; auto|]. split; [apply Lf; auto|].
  intros eps He. destruct (lin_bounded n k f Lf) as (C & HC & B). destruct (D (eps / (C + 1)) ltac:(apply Rdiv_lt_0_compat; lra)) as (d & Hd & Q).
  exists d. split; [exact Hd|]. intros h Hh. specialize (Q h Hh). pose proof (L h) as Lh. pose proof (L 0) as L0.
  rewrite <- (lin_sub n k f) by auto. rewrite <- (proj2 (proj2 Lf)) by auto. rewrite <- (lin_sub n k f) by (auto; ln). eapply Rle_trans; [apply B; ln|].
  pose proof (Rabs_pos h). apply Rle_trans with (C * (eps / (C + 1) * Rabs h)); [apply Rmult_le_compat_l; lra|].
  replace (C * (eps / (C + 1) * Rabs h)) with (eps * (C / (C + 1)) * Rabs h) by (field; lra). apply Rmult_le_compat_r; [lra|].
  assert (C / (C + 1) <= 1). { apply Rmult_le_reg_r with (C + 1); [lra|]. unfold Rdiv. rewrite Rmult_assoc, Rinv_l by lra. lra. }
  assert (eps * (C / (C + 1)) <= eps * 1) by (apply Rmult_le_compat_l; lra). lra.
Qed.
Lemma solves_lin n solve A : lin_map n n (act false A) -> (forall b, length b = n -> length (solve A b) = n) -> solves n solve A -> lin_map n n (solve A).
Proof.
  intros LA Ls S. split; [exact Ls|]. split.
  - intros a b La Lb. symmetry. apply S; [ln|apply ln_add; auto|]. rewrite (proj1 (proj2 LA)) by auto. rewrite (proj1 (S a La)), (proj1 (S b Lb)). reflexivity.
  - intros c a La. symmetry. apply S; [ln|apply ln_scale; auto|]. rewrite (proj2 (proj2 LA)) by auto. rewrite (proj1 (S a La)). reflexivity.
Qed.

(** ** The system matrix *)
Section Matrix.
  Context (s : dc) (SZ : sizes s).
  Let n := d_n s.
  Lemma HG : is_mat (d_nf s) n (d_G s). Proof. apply SZ. Qed.
  Lemma HM : is_mat (d_nf s) (d_nc s) (d_M s). Proof. apply SZ. Qed.
  Lemma first_row_wf A : wfm n n A -> wfm n n (first_row n A).
  Proof.
    unfold first_row. destruct n as [|k]; [auto|]. intros W. cbn [wfm]. split; [exists (S k); split; [|exact W]|];
    split; cbn; rewrite ?vconst_length; auto; f_equal; apply vzero_length.
  Qed.
  Lemma getA_wf m : length m = d_p s -> wfm n n (getA s m).
  Proof.
    intros Lm. destruct SZ as (G & M & D & B & P & _). destruct (P m Lm) as [Lp _]. pose proof (proj1 M) as LM.
    unfold getA. fold n. destruct (d_form s) eqn:F.
    - assert (W : wfm n n (Mmul (MT (Mx n (d_G s))) (Mmul (Mdiag (mv (d_M s) (d_prop s m))) (Mx n (d_G s))))).
      { exists (d_nf s). split; [split; [reflexivity|exact G]|]. exists (d_nf s). split; [split; [ln|reflexivity]|split; [reflexivity|exact G]]. }
      destruct (d_neumann s); [apply first_row_wf; exact W|]. split; [exact W|]. split; [rewrite mv_length; apply (B eq_refl)|reflexivity].
    - assert (W : wfm n n (Mmul (Mx (d_nf s) (d_D s)) (Mmul (Mdiag (map Rinv (mv (d_M s) (d_prop s m)))) (Mx n (d_G s))))).
      { exists (d_nf s). split; [split; [reflexivity|exact (D eq_refl)]|]. exists (d_nf s). split; [split; [ln|reflexivity]|split; [reflexivity|exact G]]. }
      destruct (d_neumann s); [apply first_row_wf; exact W|exact W].
  Qed.
  Lemma getA_lin m : length m = d_p s -> lin_map n n (act false (getA s m)).
  Proof. intros L. apply lin_act. apply getA_wf. exact L. Qed.
  (** The derivative of the product with a fixed vector. *)
  Lemma getA_deriv m v y : d_neumann s = false -> regular s m -> length v = d_p s -> length y = n ->
    vderiv n (fun t => act false (getA s (vadd m (vscale t v))) y) 0 (getADeriv s m y v).
  Proof.
    intros NN (Lm & Jp & NZ & _) Lv Ly. destruct SZ as (G & M & D & B & P & _).
    pose proof (Jp v Lv) as Dp. pose proof (vderiv_lin _ _ _ _ _ (lin_mv _ _ _ M) Dp) as DM.
    pose proof (proj1 M) as LM. pose proof (proj1 G) as LG. destruct (P m Lm) as [Lp HP].
    assert (Lg : length (mv (d_G s) y) = d_nf s) by ln.
    assert (E0 : vadd m (vscale 0 v) = m) by (rewrite vscale_0, vadd_zero_r; congruence).
    unfold getA, getADeriv, mass_deriv. rewrite NN. fold n. destruct (d_form s) eqn:F; cbn [act negb].
    - apply (vderiv_add n _ (fun t => vmul (mv (d_bc s) (d_prop s (vadd m (vscale t v)))) y)).
      + apply (vderiv_lin (d_nf s) n (mtv n (d_G s)) (fun t => vmul (mv (d_M s) (d_prop s (vadd m (vscale t v)))) (mv (d_G s) y))); [apply lin_mtv; exact G|].
        eapply vderiv_eq; [|apply (vderiv_mul (d_nf s) _ (fun _ => mv (d_G s) y)); [exact DM|apply vderiv_const; exact Lg]].
        cbv beta. rewrite E0. assert (length (mv (d_M s) (mv (d_dprop s m) v)) = d_nf s) by ln. vext (d_nf s). ring.
      + pose proof (proj1 (B eq_refl)) as LB. eapply vderiv_eq; [|apply (vderiv_mul n (fun t => mv (d_bc s) (d_prop s (vadd m (vscale t v)))) (fun _ => y)); [apply (vderiv_lin _ _ _ _ _ (lin_mv _ _ _ (B eq_refl)) Dp)|apply vderiv_const; exact Ly]].
        cbv beta. rewrite E0. fold n in LB. assert (length (mv (d_bc s) (mv (d_dprop s m) v)) = n) by ln. vext n. ring.
    - apply (vderiv_lin (d_nf s) n (mv (d_D s)) (fun t => vmul (map Rinv (mv (d_M s) (d_prop s (vadd m (vscale t v))))) (mv (d_G s) y))); [apply lin_mv; exact (D eq_refl)|].
      assert (E1 : forall i, (i < d_nf s)%nat -> nth i (mv (d_M s) (d_prop s (vadd m (vscale 0 v)))) 0 <> 0) by (rewrite E0; exact (NZ eq_refl)).
      pose proof (vderiv_inv _ _ _ DM E1) as DI. cbv beta in DI. rewrite E0 in DI.
      eapply vderiv_eq; [|apply (vderiv_mul (d_nf s) _ (fun _ => mv (d_G s) y)); [exact DI|apply vderiv_const; exact Lg]].
      cbv beta. rewrite E0. assert (length (mv (d_M s) (mv (d_dprop s m) v)) = d_nf s) by ln. assert (length (mv (d_M s) (d_prop s m)) = d_nf s) by ln.
      vext (d_nf s). unfold sq. field. apply NZ; auto.
  Qed.
  (** getADeriv with adjoint=True is the adjoint in the direction. *)
  Lemma getADeriv_adjoint m u v w : length m = d_p s -> length u = n -> length v = d_p s -> length w = n ->
    length (getADeriv s m u v) = n /\ length (getADerivT s m u w) = d_p s /\ dot w (getADeriv s m u v) = dot (getADerivT s m u w) v.
  Proof.
    intros Lm Lu Lv Lw. destruct SZ as (G & M & D & B & P & _). destruct (P m Lm) as [Lp HP]. pose proof (proj1 M) as LM. pose proof (proj1 G) as LG. pose proof (proj1 HP) as LP.
    assert (Lgu : length (mv (d_G s) u) = d_nf s) by ln. assert (Lgw : length (mv (d_G s) w) = d_nf s) by ln.
    assert (Ld : length (mv (d_dprop s m) v) = d_nc s) by ln. assert (Lmd : length (mv (d_M s) (mv (d_dprop s m) v)) = d_nf s) by ln.
    assert (LMp : length (map Rinv (mv (d_M s) (d_prop s m))) = d_nf s) by ln.
    assert (T : forall a, length a = d_nf s -> length (mtv (d_p s) (d_dprop s m) (mtv (d_nc s) (d_M s) a)) = d_p s /\
      dot a (mv (d_M s) (mv (d_dprop s m) v)) = dot (mtv (d_p s) (d_dprop s m) (mtv (d_nc s) (d_M s) a)) v).
    { intros a La. assert (length (mtv (d_nc s) (d_M s) a) = d_nc s) by (eapply mtv_length; exact M). split; [eapply mtv_length; exact HP|].
      rewrite (mv_mtv_adjoint (d_nf s) (d_nc s)) by assumption. apply (mv_mtv_adjoint (d_nc s) (d_p s)); assumption. }
    unfold getADeriv, getADerivT, mass_deriv, mass_derivT. fold n. destruct (d_form s) eqn:F.
    - assert (L1 : length (mtv n (d_G s) (vmul (mv (d_G s) u) (mv (d_M s) (mv (d_dprop s m) v)))) = n) by (eapply mtv_length; exact G).
      destruct (T (vmul (mv (d_G s) u) (mv (d_G s) w)) ltac:(ln)) as [T1 T2].
      assert (E1 : dot w (mtv n (d_G s) (vmul (mv (d_G s) u) (mv (d_M s) (mv (d_dprop s m) v)))) = dot (mtv (d_p s) (d_dprop s m) (mtv (d_nc s) (d_M s) (vmul (mv (d_G s) u) (mv (d_G s) w)))) v).
      { rewrite <- T2. rewrite dot_comm, <- (mv_mtv_adjoint (d_nf s) n) by (auto; ln). rewrite dot_vmul. apply dot_comm. }
      destruct (d_neumann s); [auto|].
      pose proof (B eq_refl) as HB. pose proof (proj1 HB) as LB. fold n in LB, HB. assert (Lbd : length (mv (d_bc s) (mv (d_dprop s m) v)) = n) by ln.
      assert (Luw : length (vmul u w) = n) by ln. assert (L2 : length (mtv (d_nc s) (d_bc s) (vmul u w)) = d_nc s) by (eapply mtv_length; exact HB).
      assert (L3 : length (mtv (d_p s) (d_dprop s m) (mtv (d_nc s) (d_bc s) (vmul u w))) = d_p s) by (eapply mtv_length; exact HP).
      split; [ln|]. split; [ln|]. rewrite dot_vadd_r by (rewrite L1; symmetry; ln). rewrite dot_vadd_l by congruence. rewrite E1. f_equal.
      rewrite <- (mv_mtv_adjoint (d_nc s) (d_p s)) by assumption. rewrite <- (mv_mtv_adjoint n (d_nc s)) by assumption. rewrite (dot_vmul u w). reflexivity.
    - pose proof (D eq_refl) as HD. pose proof (proj1 HD) as LD. fold n in HD, LD.
      assert (LDt : length (mtv (d_nf s) (d_D s) w) = d_nf s) by (eapply mtv_length; exact HD).
      set (i := map Rinv (mv (d_M s) (d_prop s m))) in *. set (c := vmul i (vmul i (vopp (mv (d_G s) u)))). assert (Lc : length c = d_nf s) by (unfold c; ln).
      destruct (T (vmul c (mtv (d_nf s) (d_D s) w)) ltac:(ln)) as [T1 T2]. split; [ln|]. split; [exact T1|]. rewrite <- T2.
      rewrite (mv_mtv_adjoint n (d_nf s)) by (auto; ln). rewrite dot_vmul. reflexivity.
  Qed.
  Lemma getADeriv_lin m u : length m = d_p s -> length u = n -> lin_map (d_p s) n (getADeriv s m u).
  Proof.
    intros Lm Lu. destruct SZ as (G & M & D & B & P & _). destruct (P m Lm) as [Lp HP]. pose proof (proj1 G) as LG.
    assert (Lgu : length (mv (d_G s) u) = d_nf s) by ln. pose proof (proj1 M) as LM.
    assert (LMD : lin_map (d_p s) (d_nf s) (fun v => mv (d_M s) (mv (d_dprop s m) v))) by (apply (lin_comp _ (d_nc s) _ (mv (d_dprop s m)) (mv (d_M s))); apply lin_mv; assumption).
    unfold getADeriv, mass_deriv. fold n. destruct (d_form s) eqn:F.
    - assert (L1 : lin_map (d_p s) n (fun v => mtv n (d_G s) (vmul (mv (d_G s) u) (mv (d_M s) (mv (d_dprop s m) v))))).
      { apply (lin_comp _ (d_nf s) _ (fun v => vmul (mv (d_G s) u) (mv (d_M s) (mv (d_dprop s m) v))) (mtv n (d_G s))); [|apply lin_mtv; exact G].
        apply (lin_comp _ (d_nf s) _ _ (vmul (mv (d_G s) u)) LMD). apply lin_vmul. exact Lgu. }
      destruct (d_neumann s); [exact L1|]. apply (lin_add _ _ _ (fun v => vmul u (mv (d_bc s) (mv (d_dprop s m) v))) L1).
      apply (lin_comp _ n _ (fun v => mv (d_bc s) (mv (d_dprop s m) v)) (vmul u)); [|apply lin_vmul; exact Lu].
      apply (lin_comp _ (d_nc s) _ (mv (d_dprop s m)) (mv (d_bc s))); apply lin_mv; [exact HP|exact (B eq_refl)].
    - apply (lin_comp _ (d_nf s) _ (fun v => vmul (vmul (map Rinv (mv (d_M s) (d_prop s m))) (vmul (map Rinv (mv (d_M s) (d_prop s m))) (vopp (mv (d_G s) u)))) (mv (d_M s) (mv (d_dprop s m) v))) (mv (d_D s))); [|apply lin_mv; exact (D eq_refl)].
      apply (lin_comp _ (d_nf s) _ _ (vmul (vmul (map Rinv (mv (d_M s) (d_prop s m))) (vmul (map Rinv (mv (d_M s) (d_prop s m))) (vopp (mv (d_G s) u))))) LMD). apply lin_vmul.
      assert (LMp : length (mv (d_M s) (d_prop s m)) = d_nf s) by ln. ln.
  Qed.
  (** The solution is differentiable. *)
  Lemma solve_jac m v q : d_neumann s = false -> regular s m -> length v = d_p s -> length q = n ->
    vderiv n (fun t => d_solve s (getA s (vadd m (vscale t v))) q) 0 (d_solve s (getA s m) (vopp (getADeriv s m (d_solve s (getA s m) q) v))).
  Proof.
    intros NN RG Lv Lq. pose proof RG as (Lm & Jp & _ & e & He & Near). destruct SZ as (_ & _ & _ & _ & P & _ & Ls).
    assert (E0 : vadd m (vscale 0 v) = m) by (rewrite vscale_0, vadd_zero_r; congruence).
    assert (Lt : forall t, length (vadd m (vscale t v)) = d_p s) by (intros; ln).
    assert (S0 : solves n (d_solve s) (getA s m)). { apply Near; [exact Lm|]. intros i Hi. rewrite Rminus_eq_0, Rabs_R0. exact He. }
    set (N := norm1 v). pose proof (norm1_nonneg v) as HN. fold N in HN.
    assert (Hd : 0 < e / (N + 1)) by (apply Rdiv_lt_0_compat; lra).
    pose proof (solve_deriv n (fun t => act false (getA s (vadd m (vscale t v)))) (fun y => getADeriv s m y v) (d_solve s (getA s m)) (fun t => d_solve s (getA s (vadd m (vscale t v))) q) q) as T.
    cbv beta in T. rewrite E0 in T. apply (T) with (e := e / (N + 1)); clear T.
    - intros t. apply getA_lin. apply Lt.
    - intros y Ly. apply getA_deriv; assumption.
    - apply solves_lin; [apply getA_lin; exact Lm|intros; apply Ls; assumption|exact S0].
    - intros y Ly. symmetry. apply S0; auto. apply getA_lin; assumption.
    - intros t. apply Ls. exact Lq.
    - exact Hd.
    - intros t Ht. refine (proj1 (Near _ (Lt t) _ q Lq)). intros i Hi. rewrite (nA (d_p s)) by (auto; ln). rewrite nth_vscale. replace (nth i m 0 + t * nth i v 0 - nth i m 0) with (t * nth i v 0) by ring.
      rewrite Rabs_mult. apply Rle_lt_trans with (Rabs t * (N + 1)); [apply Rmult_le_compat_l; [apply Rabs_pos|]; pose proof (norm1_nth v i); unfold N; lra|].
      apply (Rmult_lt_compat_r (N + 1)) in Ht; [|lra]. unfold Rdiv in Ht. rewrite Rmult_assoc, Rinv_l in Ht by lra. lra.
  Qed.
  (** Symmetry *)
  Lemma sym_solve m : length m = d_p s -> solves n (d_solve s) (getA s m) -> symmetric n (getA s m) ->
    forall a b, length a = n -> length b = n -> dot a (d_solve s (getA s m) b) = dot (d_solve s (getA s m) a) b.
  Proof.
    intros Lm S Y a b La Lb. destruct SZ as (_ & _ & _ & _ & _ & _ & Ls).
    rewrite <- (proj1 (S a La)) at 1. rewrite <- Y by (apply Ls; assumption). rewrite (proj1 (S b Lb)). reflexivity.
  Qed.
  Lemma nodal_symmetric m : d_form s = Nodal -> d_neumann s = false -> length m = d_p s -> symmetric n (getA s m).
  Proof.
    intros F NN Lm a b La Lb. destruct SZ as (G & M & D & B & P & _). destruct (P m Lm) as [Lp _]. pose proof (proj1 G) as LG. pose proof (proj1 M) as LM.
    unfold getA. rewrite F, NN. fold n. cbn [act negb]. pose proof (proj1 (B F)) as LB. fold n in LB.
    assert (Lc : length (mv (d_M s) (d_prop s m)) = d_nf s) by ln. assert (Lga : length (mv (d_G s) a) = d_nf s) by ln. assert (Lgb : length (mv (d_G s) b) = d_nf s) by ln.
    set (c := mv (d_M s) (d_prop s m)) in *. set (d := mv (d_bc s) (d_prop s m)). assert (Ld : length d = n) by (unfold d; ln).
    assert (T : forall x, length x = d_nf s -> length (mtv n (d_G s) x) = n) by (intros; eapply mtv_length; exact G).
    rewrite dot_vadd_r by (rewrite T by ln; symmetry; ln). rewrite dot_vadd_l by (rewrite T by ln; symmetry; ln). f_equal.
    - rewrite dot_comm, <- (mv_mtv_adjoint (d_nf s) n) by (auto; ln). rewrite <- (mv_mtv_adjoint (d_nf s) n) by (auto; ln). rewrite !dot_vmul. rewrite <- dot_vmul. apply dot_comm.
    - rewrite dot_vmul. reflexivity.
  Qed.
  Lemma cell_symmetric m : d_form s = Cell -> d_neumann s = false -> length m = d_p s ->
    (forall x, length x = n -> mv (d_G s) x = mtv (d_nf s) (d_D s) x) -> symmetric n (getA s m).
  Proof.
    intros F NN Lm GT a b La Lb. destruct SZ as (G & M & D & B & P & _). destruct (P m Lm) as [Lp _]. pose proof (proj1 M) as LM. pose proof (D F) as HD. fold n in HD.
    unfold getA. rewrite F, NN. cbn [act]. assert (Lc : length (map Rinv (mv (d_M s) (d_prop s m))) = d_nf s) by ln. set (c := map Rinv (mv (d_M s) (d_prop s m))) in *.
    rewrite !GT by assumption. assert (T : forall x, length x = n -> length (mtv (d_nf s) (d_D s) x) = d_nf s) by (intros; eapply mtv_length; exact HD).
    pose proof (T a La). pose proof (T b Lb).
    rewrite (mv_mtv_adjoint n (d_nf s)) by (auto; ln). rewrite (dot_comm (mv _ _)). rewrite (mv_mtv_adjoint n (d_nf s)) by (auto; ln). rewrite (dot_comm (mtv _ _ b)). rewrite <- dot_vmul. reflexivity.
  Qed.
End Matrix.
