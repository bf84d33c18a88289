(** Derivatives of regularization terms, angles, and what goes wrong. *)
From Verif Require Import Py Vec VecDeriv Frechet SensW SpecSensW SensWFacts Coords SpecCoords CoordsFacts Reg SpecReg RegFacts.
Local Open Scope R_scope.

Lemma nth_as_dot v i : (i < length v)%nat -> nth i v 0 = dot v (diag_row (length v) i 1).
Proof. intros H. rewrite dot_comm, dot_diag_row by reflexivity. apply Nat.ltb_lt in H. rewrite H. ring. Qed.
Lemma vderiv_mtv m n M f t0 f' : is_mat m n M -> vderiv m f t0 f' -> vderiv n (fun t => mtv n M (f t)) t0 (mtv n M f').
Proof.
  intros HM HF. pose proof HF as (F1 & F2 & F3). split; [intros; apply (mtv_length m); assumption|]. split; [apply (mtv_length m); assumption|].
  intros i Hi. assert (E : forall w, length w = m -> nth i (mtv n M w) 0 = dot w (mv M (diag_row n i 1))).
  { intros w Lw. pose proof (mtv_length m n M w HM) as L. rewrite nth_as_dot by lia. rewrite L. symmetry. apply (mv_mtv_adjoint m); [assumption|assumption|apply diag_row_length]. }
  rewrite E by assumption. apply (dpl_ext (fun t => dot (f t) (mv M (diag_row n i 1)))); [intros t; symmetry; apply E; auto|].
  destruct HM as [Lm HM]. eapply dpl_eq; [|apply (deriv_dot m f (fun _ => mv M (diag_row n i 1)) _ f' (vzero m) HF); apply vderiv_const; rewrite mv_length; assumption].
  cbn beta. rewrite dot_zero_r. ring.
Qed.
Lemma vderiv_wmul n w f t0 f' : length w = n -> vderiv n f t0 f' -> vderiv n (fun t => vmul w (f t)) t0 (vmul w f').
Proof.
  intros L HF. pose proof HF as (F1 & F2 & F3). split; [intros; rewrite vmul_length; rewrite ?F1; congruence|]. split; [rewrite vmul_length; congruence|].
  intros i Hi. rewrite nth_vmul by congruence. apply (dpl_ext (fun t => nth i w 0 * nth i (f t) 0)); [intros t; rewrite nth_vmul by (rewrite ?F1; congruence); reflexivity|].
  apply dpl_scal. auto.
Qed.
Lemma diff_vderiv n s M m h : mapping_ok n s M m -> length h = n -> vderiv (nC (ops s)) (fun t => diff s M (vadd m (vscale t h))) 0 (mv (dphi M m) h).
Proof.
  intros (Lm & LP & HA & HJ & HR) Lh. pose proof (HJ h Lh) as D. unfold diff.
  assert (K : forall r, length r = n -> vderiv (nC (ops s)) (fun t => vsub (phi M (vadd m (vscale t h))) (phi M r)) 0 (mv (dphi M m) h)).
  { intros r Lr. assert (E : vsub (mv (dphi M m) h) (vzero (nC (ops s))) = mv (dphi M m) h).
    { pose proof D as (_ & D2 & _). apply vec_ext; [rewrite vsub_length; [reflexivity|rewrite vzero_length; assumption]|].
      intros i Hi. rewrite vsub_length in Hi by (rewrite vzero_length; assumption). rewrite nth_vsub by (rewrite ?vzero_length; congruence || assumption). rewrite nth_zero. ring. }
    rewrite <- E. apply (vderiv_sub _ _ (fun _ => phi M r)); [exact D|]. apply vderiv_const. auto. }
  destruct (ref s) as [r|]; [|exact D]. destruct (r_kind s); [apply K; assumption| |]; (destruct (ref_in_smooth s); [apply K; assumption|exact D]).
Qed.
Lemma kernel_vderiv k o f t0 f' : wf_ops o -> vderiv (nC o) f t0 f' -> vderiv (residual_size k o) (fun t => kernel k o (f t)) t0 (kernel k o f').
Proof.
  intros (_ & HG & _) D. destruct k; cbn; [exact D|apply (vderiv_mv (nF o) (nC o)); assumption|].
  apply (vderiv_mtv (nF o)); [assumption|]. apply (vderiv_mv (nF o) (nC o)); assumption.
Qed.
Lemma fd_mv_kernel k o M m v : fd_mv k o M m v = kernel k o (mv (dphi M m) v).
Proof. destruct k; reflexivity. Qed.
Lemma fd_adjoint k o M m w v n : wf_ops o -> length m = n -> is_mat (nC o) n (dphi M m) -> length w = residual_size k o -> length v = n ->
  length (fd_mtv k o M m w) = n /\ dot (fd_mtv k o M m w) v = dot w (fd_mv k o M m v).
Proof.
  intros (_ & HG & _) Lm HA Lw Lv. unfold fd_mtv. rewrite Lm.
  assert (LA : length (mv (dphi M m) v) = nC o) by (rewrite mv_length; apply HA).
  destruct k; cbn in *; (split; [apply (mtv_length (nC o)); assumption|]).
  - symmetry. apply (mv_mtv_adjoint (nC o)); assumption.
  - rewrite <- (mv_mtv_adjoint (nC o)); [|assumption|apply (mtv_length (nF o)); assumption|assumption].
    symmetry. apply (mv_mtv_adjoint (nF o)); assumption.
  - rewrite <- (mv_mtv_adjoint (nC o)); [|assumption|apply (mtv_length (nF o)); assumption|assumption].
    assert (LG : forall x, length (mv (grad o) x) = nF o) by (intros; rewrite mv_length; apply HG).
    rewrite <- (mv_mtv_adjoint (nF o)) by (try assumption; apply LG).
    rewrite (dot_comm w), <- (mv_mtv_adjoint (nF o)) by (try assumption; apply LG). apply dot_comm.
Qed.
Lemma dot_vmul_swap a b c : dot (vmul a b) c = dot b (vmul a c).
Proof. revert b c; induction a as [|x a IH]; intros [|y b] [|z c]; cbn; try reflexivity. fold (vmul a b). fold (vmul a c). rewrite IH. ring. Qed.
Lemma diff_len n s M m y : mapping_ok n s M m -> length y = n -> length (diff s M y) = nC (ops s).
Proof.
  intros (Lm & LP & HA & HJ & HR) Ly. unfold diff. pose proof (LP y Ly) as E.
  destruct (ref s) as [r|]; [|exact E]. pose proof (LP r HR) as Er.
  assert (length (vsub (phi M y) (phi M r)) = nC (ops s)) by (rewrite vsub_length; congruence).
  destruct (r_kind s); [assumption| |]; destruct (ref_in_smooth s); assumption.
Qed.
Lemma c41_gradient n s M m : reachable s -> usable s -> radian s = false -> mapping_ok n s M m ->
  exists F g, (forall y, length y = n -> fst (call s M y) = Ok (F y)) /\ fst (deriv s M m) = Ok g /\ has_gradient n F m g.
Proof.
  intros HR HU Rd HM. destruct (usable_ok s HR HU) as (HI & WF & w & EW & Lw & Hw). pose proof HM as (Lm & _ & HA & _).
  set (K := fun y => kernel (r_kind s) (ops s) (diff s M y)).
  assert (LK : forall y, length y = n -> length (K y) = residual_size (r_kind s) (ops s)) by (intros y Ly; apply k_len; [assumption|eapply diff_len; eassumption]).
  exists (fun y => dot (vmul w (K y)) (vmul w (K y))), (vscale 2 (fd_mtv (r_kind s) (ops s) M m (vmul w (vmul w (K m))))).
  split; [|split].
  - intros y Ly. destruct (call_inv s M y HI) as [_ ->]. unfold call_pure. rewrite EW. cbn [bind].
    rewrite f_pure_ok by (try assumption; eapply diff_len; eassumption). cbn [bind]. fold (K y). rewrite Lw, LK, Nat.eqb_refl by assumption. reflexivity.
  - destruct (deriv_inv s M m HI) as [_ ->]. unfold deriv_pure. rewrite EW. cbn [bind].
    rewrite f_pure_ok by (try assumption; eapply diff_len; eassumption). cbn [bind]. fold (K m). rewrite Lw, LK, Nat.eqb_refl by assumption. reflexivity.
  - assert (LWW : length (vmul w (vmul w (K m))) = residual_size (r_kind s) (ops s)).
    { rewrite vmul_length; [assumption|]. rewrite vmul_length; [reflexivity|]. rewrite Lw. symmetry. apply LK. assumption. }
    split; [rewrite vscale_length; apply (fd_adjoint _ _ _ _ _ m); assumption|]. intros h Lh.
    pose proof (kernel_vderiv (r_kind s) (ops s) _ _ _ WF (diff_vderiv n s M m h HM Lh)) as D.
    pose proof (vderiv_wmul _ w _ _ _ Lw D) as D2. pose proof (deriv_normsq _ _ _ _ D2) as D3. cbn beta in D3.
    rewrite vscale_0 in D3. rewrite vadd_zero_r in D3 by congruence. eapply dpl_eq; [|exact D3].
    rewrite dot_vscale_l. destruct (fd_adjoint (r_kind s) (ops s) M m (vmul w (vmul w (K m))) h n WF Lm HA LWW Lh) as [_ ->].
    rewrite fd_mv_kernel, !dot_vmul_swap. reflexivity.
Qed.
Lemma deriv2_ok n s M m v : reachable s -> usable s -> mapping_ok n s M m -> length v = n ->
  exists w, compute_W s = Ok w /\ length w = residual_size (r_kind s) (ops s) /\ length (fd_mv (r_kind s) (ops s) M m v) = residual_size (r_kind s) (ops s) /\
  fst (deriv2 s M m v) = Ok (vscale 2 (fd_mtv (r_kind s) (ops s) M m (vmul w (vmul w (fd_mv (r_kind s) (ops s) M m v))))).
Proof.
  intros HR HU HM Lv. destruct (usable_ok s HR HU) as (HI & WF & w & EW & Lw & Hw). pose proof HM as (Lm & _ & HA & _). exists w.
  assert (Lf : length (fd_mv (r_kind s) (ops s) M m v) = residual_size (r_kind s) (ops s)).
  { rewrite fd_mv_kernel. apply k_len; [assumption|]. rewrite mv_length. apply HA. }
  split; [assumption|]. split; [assumption|]. split; [assumption|]. destruct (deriv2_inv s M m v HI) as [_ ->]. unfold deriv2_pure.
  rewrite EW. cbn [bind]. rewrite Lw, Lf, Nat.eqb_refl. reflexivity.
Qed.
Lemma c41_hessian n s M m u v : reachable s -> usable s -> mapping_ok n s M m -> length u = n -> length v = n ->
  exists Hu Hv, fst (deriv2 s M m u) = Ok Hu /\ fst (deriv2 s M m v) = Ok Hv /\ length Hv = n /\ dot u Hv = dot Hu v /\ 0 <= dot v Hv.
Proof.
  intros HR HU HM Lu Lv. destruct (deriv2_ok n s M m u HR HU HM Lu) as (w & EW & Lw & Lfu & Eu).
  destruct (deriv2_ok n s M m v HR HU HM Lv) as (w' & EW' & _ & Lfv & Ev). rewrite EW in EW'. injection EW' as <-.
  destruct (reachable_ok s HR) as (_ & WF & _). pose proof HM as (Lm & _ & HA & _).
  eexists _, _. split; [exact Eu|]. split; [exact Ev|].
  set (fu := fd_mv (r_kind s) (ops s) M m u) in *. set (fv := fd_mv (r_kind s) (ops s) M m v) in *.
  assert (L2 : forall x, length x = residual_size (r_kind s) (ops s) -> length (vmul w (vmul w x)) = residual_size (r_kind s) (ops s)).
  { intros x Lx. rewrite vmul_length; [assumption|]. rewrite vmul_length; congruence. }
  split; [rewrite vscale_length; apply (fd_adjoint _ _ _ _ _ v); auto|].
  rewrite (dot_comm u), (dot_comm v), !dot_vscale_l.
  destruct (fd_adjoint (r_kind s) (ops s) M m (vmul w (vmul w fv)) u n WF Lm HA (L2 _ Lfv) Lu) as [_ ->].
  destruct (fd_adjoint (r_kind s) (ops s) M m (vmul w (vmul w fu)) v n WF Lm HA (L2 _ Lfu) Lv) as [_ ->].
  destruct (fd_adjoint (r_kind s) (ops s) M m (vmul w (vmul w fv)) v n WF Lm HA (L2 _ Lfv) Lv) as [_ ->].
  fold fu fv. split.
  - f_equal. rewrite dot_comm, (dot_vmul_swap w (vmul w fu)), (dot_vmul_swap w fu). reflexivity.
  - rewrite dot_vmul_swap. pose proof (dot_self_nonneg (vmul w fv)). lra.
Qed.
Lemma linear_mapping_ok n s M A m : is_linear n s M A -> length m = n -> mapping_ok n s M m.
Proof.
  intros (HA & HL & HR) Lm. destruct (HL m Lm) as [_ ED]. split; [assumption|]. split.
  - intros y Ly. destruct (HL y Ly) as [-> _]. rewrite mv_length. apply HA.
  - rewrite ED. split; [assumption|]. split; [|assumption]. intros h Lh.
    apply (vderiv_ext _ (fun t => mv A (vadd m (vscale t h)))).
    + intros t. symmetry. apply HL. rewrite vadd_length; rewrite ?vscale_length; congruence.
    + apply (vderiv_mv (nC (ops s)) n); [assumption|]. apply vderiv_line; assumption.
Qed.
Lemma c41_newton n s M A m v : reachable s -> usable s -> radian s = false -> is_linear n s M A -> length m = n -> length v = n ->
  exists G Hv, (forall y, length y = n -> fst (deriv s M y) = Ok (G y)) /\ fst (deriv2 s M m v) = Ok Hv /\
    vderiv n (fun t => G (vadd m (vscale t v))) 0 Hv.
Proof.
  intros HR HU Rd HL Lm Lv. pose proof (linear_mapping_ok n s M A m HL Lm) as HM.
  destruct (deriv2_ok n s M m v HR HU HM Lv) as (w & EW & Lw & Lfv & Ev). destruct (reachable_ok s HR) as (HI & WF & _).
  pose proof HL as (HA & HAll & _).
  set (K := fun y => kernel (r_kind s) (ops s) (diff s M y)).
  assert (LK : forall y, length y = n -> length (K y) = residual_size (r_kind s) (ops s)).
  { intros y Ly. apply k_len; [assumption|]. eapply diff_len; [|exact Ly]. eapply linear_mapping_ok; eassumption. }
  exists (fun y => vscale 2 (fd_mtv (r_kind s) (ops s) M m (vmul w (vmul w (K y))))). eexists. split; [|split; [exact Ev|]].
  - intros y Ly. destruct (deriv_inv s M y HI) as [_ ->]. unfold deriv_pure. rewrite EW. cbn [bind].
    pose proof (linear_mapping_ok n s M A y HL Ly) as HMy.
    rewrite f_pure_ok by (try assumption; eapply diff_len; eassumption). cbn [bind]. fold (K y). rewrite Lw, LK, Nat.eqb_refl by assumption.
    unfold fd_mtv. destruct (HAll y Ly) as [_ ->]. destruct (HAll m Lm) as [_ ->]. rewrite Ly, Lm. reflexivity.
  - apply vderiv_scale. rewrite fd_mv_kernel.
    pose proof (kernel_vderiv (r_kind s) (ops s) _ _ _ WF (diff_vderiv n s M m v HM Lv)) as D.
    pose proof (vderiv_wmul _ w _ _ _ Lw (vderiv_wmul _ w _ _ _ Lw D)) as D2. fold (K m) in D2.
    destruct (HAll m Lm) as [_ EA]. unfold fd_mtv. rewrite EA in *. rewrite Lm. destruct WF as (_ & HG & _).
    destruct (r_kind s); cbn [residual_size] in D2.
    + apply (vderiv_mtv (nC (ops s))); assumption.
    + apply (vderiv_mtv (nC (ops s))); [assumption|]. apply (vderiv_mtv (nF (ops s))); assumption.
    + apply (vderiv_mtv (nC (ops s))); [assumption|]. apply (vderiv_mtv (nF (ops s))); [assumption|]. apply (vderiv_mv (nF (ops s)) (nC (ops s))); assumption.
Qed.

(** ** Angles *)
Lemma sign_int x : exists z : Z, sign x = IZR z.
Proof. unfold sign. destruct (Rlt_dec 0 x); [exists 1%Z; reflexivity|]. destruct (Rlt_dec x 0); [exists (-1)%Z; reflexivity|exists 0%Z; reflexivity]. Qed.
Lemma dot_turn r : forall d d', length r = length d -> turned d d' -> coterminal_angles (dot (map sign r) d') (dot (map sign r) d).
Proof.
  induction r as [|x r IH]; intros d d' L [L2 H]; [destruct d; [|cbn in L; lia]; cbn; exists 0%Z; cbn; ring|].
  destruct d as [|y d]; [cbn in L; lia|]. destruct d' as [|y' d']; [cbn in L2; lia|]. cbn [map dot].
  destruct (IH d d') as [k Hk]; [cbn in L; lia|split; [cbn in L2; lia|intros i Hi; exact (H (S i) ltac:(cbn; lia))]|].
  destruct (H 0%nat ltac:(cbn; lia)) as [j Hj]. cbn in Hj. destruct (sign_int x) as [z ->].
  exists (z * j + k)%Z. rewrite plus_IZR, mult_IZR.
  replace (IZR z * y' + dot (map sign r) d' - (IZR z * y + dot (map sign r) d)) with (IZR z * (y' - y) + (dot (map sign r) d' - dot (map sign r) d)) by ring.
  rewrite Hj, Hk. ring.
Qed.
Lemma coterminal_same a b : coterminal_angles a b -> coterminal a = coterminal b.
Proof.
  intros [k Hk]. destruct (c38_coterminal b) as [Hr [j Hj]]. apply c38_coterminal_unique; [assumption|].
  exists (k + j)%Z. rewrite plus_IZR. lra.
Qed.
Lemma angle_turn k n G d d' : is_mat k n G -> length d = n -> turned d d' -> angle_kernel G d' = angle_kernel G d.
Proof.
  intros [_ HG] Ld HT. unfold angle_kernel. f_equal. unfold mv. rewrite !map_map. apply map_ext_in. intros r Hr.
  apply coterminal_same, dot_turn; [|assumption]. rewrite Forall_forall in HG. rewrite (HG r Hr). congruence.
Qed.
Lemma c54_turns s M m m' : reachable s -> r_kind s = Smooth1 -> radian s = true -> length (diff s M m) = nC (ops s) ->
  turned (diff s M m) (diff s M m') -> fst (call s M m') = fst (call s M m).
Proof.
  intros HR HK Rd L HT. destruct (reachable_ok s HR) as (HI & (_ & HG & _) & _).
  destruct (call_inv s M m HI) as [_ ->]. destruct (call_inv s M m' HI) as [_ ->]. unfold call_pure.
  assert (f_pure s M m' = f_pure s M m) as ->; [|reflexivity]. unfold f_pure. rewrite HK, Rd. pose proof HT as [L' _]. rewrite L', L, Nat.eqb_refl.
  f_equal. eapply angle_turn; eassumption.
Qed.
Lemma coterminal_dpl x : coterminal x <> - PI -> derivable_pt_lim coterminal x 1.
Proof.
  intros N. destruct (c38_coterminal x) as [Hr [k Hk]]. pose proof PIp as P.
  apply (dpl_local (fun y => y - 2 * PI * IZR k)).
  - exists (Rmin (PI - coterminal x) (coterminal x + PI)). split; [apply Rmin_pos; lra|]. intros h Hh.
    assert (Rabs h < PI - coterminal x) by (eapply Rlt_le_trans; [exact Hh|apply Rmin_l]).
    assert (Rabs h < coterminal x + PI) by (eapply Rlt_le_trans; [exact Hh|apply Rmin_r]).
    apply Rabs_def2 in H, H0. symmetry. apply c38_coterminal_unique; [lra|]. exists k. ring.
  - apply (dpl_eq _ _ (1 - 0)); [ring|]. apply (dpl_minus (fun y => y) (fun _ => 2 * PI * IZR k)); [apply dpl_id|apply dpl_const].
Qed.
Lemma row_sign r u : (forall x, In x r -> x = sign x * vmax r) -> dot (map sign r) u * vmax r = dot r u.
Proof.
  generalize (vmax r) as M. intros M. revert u. induction r as [|x r IH]; intros [|y u] H; cbn; try ring.
  rewrite Rmult_plus_distr_r, IH by (intros z Hz; apply H; right; assumption). rewrite (H x) at 2 by (left; reflexivity). ring.
Qed.
Lemma angle_vderiv k n G f f' : is_mat k n G -> vderiv n f 0 f' -> difference_rows G -> off_cut G (f 0) ->
  vderiv k (fun t => angle_kernel G (f t)) 0 (mv G f').
Proof.
  intros HGm HF HD HO. pose proof HGm as [Lk HG].
  assert (LA : forall d, length (angle_kernel G d) = k).
  { intros d. unfold angle_kernel. rewrite zipw_length; rewrite !map_length, mv_length, map_length || rewrite !map_length; try assumption; rewrite ?mv_length, ?map_length; congruence. }
  split; [intros; apply LA|]. split; [rewrite mv_length; assumption|]. intros i Hi.
  assert (HN : forall d, nth i (angle_kernel G d) 0 = coterminal (dot (map sign (nth i G [])) d) * vmax (nth i G [])).
  { intros d. unfold angle_kernel. rewrite zipw_nth by (rewrite ?map_length, ?mv_length, ?map_length; congruence || lia).
    f_equal.
    - rewrite (map_nth_lt coterminal) by (rewrite mv_length, map_length; lia). rewrite nth_mv by (rewrite map_length; lia).
      f_equal. f_equal. rewrite (nth_indep _ [] (map sign [])) by (rewrite map_length; lia). apply (map_nth (map sign)).
    - rewrite (nth_indep _ 0 (rowmax [])) by (rewrite map_length; lia). rewrite (map_nth rowmax). reflexivity. }
  set (r := nth i G []) in *. assert (Hr : In r G) by (apply nth_In; lia).
  rewrite nth_mv by lia. fold r. rewrite <- (row_sign r f') by (intros x Hx; apply HD; assumption).
  apply (dpl_ext (fun t => coterminal (dot (map sign r) (f t)) * vmax r)); [intros t; symmetry; apply HN|].
  assert (Lr : length (map sign r) = n) by (rewrite map_length; rewrite Forall_forall in HG; apply HG; assumption).
  assert (D1 : derivable_pt_lim (fun t => dot (map sign r) (f t)) 0 (dot (map sign r) f')).
  { eapply dpl_eq; [|apply (deriv_dot n (fun _ => map sign r) f _ (vzero n) f'); [apply vderiv_const; assumption|exact HF]]. rewrite dot_zero_l. ring. }
  pose proof (dpl_comp (fun t => dot (map sign r) (f t)) coterminal 0 _ _ D1 (coterminal_dpl _ (HO r Hr))) as D2.
  eapply dpl_eq; [|apply (dpl_mult (fun t => coterminal (dot (map sign r) (f t))) (fun _ => vmax r) 0 _ 0 D2); apply dpl_const]. cbn beta. ring.
Qed.
Lemma angle_len G d : length (angle_kernel G d) = length G.
Proof. unfold angle_kernel. rewrite zipw_length; rewrite !map_length, ?mv_length, ?map_length; reflexivity. Qed.
Lemma c54_gradient n s M m : reachable s -> usable s -> r_kind s = Smooth1 -> radian s = true -> mapping_ok n s M m ->
  difference_rows (grad (ops s)) -> off_cut (grad (ops s)) (diff s M m) ->
  exists F g, (forall y, length y = n -> fst (call s M y) = Ok (F y)) /\ fst (deriv s M m) = Ok g /\ has_gradient n F m g.
Proof.
  intros HR HU HK Rd HM HD HO. destruct (usable_ok s HR HU) as (HI & WF & w & EW & Lw & Hw). pose proof HM as (Lm & _ & HA & _).
  rewrite HK in *. cbn [residual_size] in *. pose proof WF as (_ & HG & _).
  set (K := fun y => angle_kernel (grad (ops s)) (diff s M y)).
  assert (LK : forall y, length (K y) = nF (ops s)) by (intros y; unfold K; rewrite angle_len; apply HG).
  assert (EF : forall y, length y = n -> f_pure s M y = Ok (K y)).
  { intros y Ly. unfold f_pure. rewrite HK, Rd, (diff_len n s M m y HM Ly), Nat.eqb_refl. reflexivity. }
  exists (fun y => dot (vmul w (K y)) (vmul w (K y))), (vscale 2 (fd_mtv Smooth1 (ops s) M m (vmul w (vmul w (K m))))).
  split; [|split].
  - intros y Ly. destruct (call_inv s M y HI) as [_ ->]. unfold call_pure. rewrite EW. cbn [bind].
    rewrite EF by assumption. cbn [bind]. rewrite Lw, LK, Nat.eqb_refl. reflexivity.
  - destruct (deriv_inv s M m HI) as [_ ->]. unfold deriv_pure. rewrite EW. cbn [bind].
    rewrite EF by assumption. cbn [bind]. rewrite Lw, LK, Nat.eqb_refl, HK. reflexivity.
  - assert (LWW : length (vmul w (vmul w (K m))) = nF (ops s)).
    { rewrite vmul_length; [assumption|]. rewrite vmul_length; [reflexivity|]. rewrite Lw. symmetry. apply LK. }
    split; [rewrite vscale_length; apply (fd_adjoint _ _ _ _ _ m); assumption|]. intros h Lh.
    pose proof (diff_vderiv n s M m h HM Lh) as D0.
    assert (E0 : diff s M (vadd m (vscale 0 h)) = diff s M m) by (rewrite vscale_0, vadd_zero_r by congruence; reflexivity).
    pose proof (angle_vderiv _ _ (grad (ops s)) (fun t => diff s M (vadd m (vscale t h))) _ HG D0 HD) as D. cbn beta in D. rewrite E0 in D. specialize (D HO).
    pose proof (vderiv_wmul _ w _ _ _ Lw D) as D2. pose proof (deriv_normsq _ _ _ _ D2) as D3. cbn beta in D3. rewrite E0 in D3.
    eapply dpl_eq; [|exact D3].
    rewrite dot_vscale_l. destruct (fd_adjoint Smooth1 (ops s) M m (vmul w (vmul w (K m))) h n WF Lm HA LWW Lh) as [_ ->].
    rewrite !dot_vmul_swap. reflexivity.
Qed.
Lemma c54_second s M m x : r_kind s = Smooth2 -> radian s = true -> fst (call s M m) <> Ok x.
Proof.
  intros HK Rd. unfold call. pose proof (get_W_frame s) as (F & _). destruct (get_W s) as [[w|e] s1]; cbn [snd fst] in *; [|discriminate].
  destruct F as (FK & _ & _ & _ & _ & FR). unfold f_m. rewrite FK, HK, FR, Rd. destruct (get_G s1) as [g s2].
  destruct (Nat.eqb (length (diff s1 M m)) (nC g)); cbn; discriminate.
Qed.

(** ** What goes wrong *)
Definition small1 : reg := fst (reg_new Small two_cells (Some [true; false]) None false false).
Lemma wf_two_cells : wf_mesh two_cells.
Proof. intros [a|]; cbn; repeat split; repeat constructor. Qed.
Lemma existsb_pos l : Forall (fun x => 0 <= x) l -> existsb (fun x => if Rlt_dec x 0 then true else false) l = false.
Proof. induction 1 as [|x l H _ IH]; cbn; [reflexivity|]. destruct (Rlt_dec x 0); [lra|assumption]. Qed.
Lemma c41_half : exists mo a kvs M m, wf_mesh mo /\
  let s := rrun (fst (reg_new Small mo a None false false)) [OCall M m; OSet kvs] in
  length (diff s M m) = nC (ops s) /\ usable s /\ fst (call s M m) <> Ok (measure (effective s) (kernel Small (ops s) (diff s M m))).
Proof.
  exists two_cells, (Some [true; false]), [(1%nat, WArr [4]); (2%nat, WBad)], ident, [1]. split; [apply wf_two_cells|].
  assert (E : rrun (fst (reg_new Small two_cells (Some [true; false]) None false false)) [OCall ident [1]; OSet [(1%nat, WArr [4]); (2%nat, WBad)]]
    = mkReg Small two_cells (Some [true; false]) [(0%nat, [1]); (1%nat, [4])] (Some [sqrt 1]) None None false false).
  { unfold rrun. cbn [fold_left rstep]. unfold call, get_W. cbn [reg_new set_weights]. cbn. destruct (Rlt_dec 1 0); [lra|]. cbn. reflexivity. }
  cbv zeta. rewrite E. split; [reflexivity|]. split.
  - split; [discriminate|]. split; [discriminate|]. intros [|i] Hi; cbn in *; [lra|lia].
  - cbn. rewrite sqrt_1. intros H. injection H as H. unfold measure in H. cbn in H. lra.
Qed.
Lemma c41_none s M m x : reachable s -> weights s = [] -> fst (call s M m) <> Ok x.
Proof.
  intros HR HW. destruct (reachable_ok s HR) as (HI & _). destruct (call_inv s M m HI) as [_ ->]. unfold call_pure, compute_W. rewrite HW. destruct (r_kind s); discriminate.
Qed.
Lemma c41_late : exists mo M m0 a m, wf_mesh mo /\
  let late := rrun (fst (reg_new Smooth1 mo None None false false)) [OCall M m0; OActive a] in
  let early := rrun (fst (reg_new Smooth1 mo None None false false)) [OActive a] in
  (exists x, fst (call early M m) = Ok x) /\ fst (call late M m) = Err ValueError.
Proof.
  exists two_cells, ident, [1; 2], (Some [true; false]), [1]. split; [apply wf_two_cells|]. cbv zeta. unfold rrun. cbn [fold_left rstep]. split.
  - eexists. unfold call, get_W. cbn. reflexivity.
  - assert (E : exists W, snd (call (fst (reg_new Smooth1 two_cells None None false false)) ident [1; 2]) = mkReg Smooth1 two_cells None [(0%nat, [1; 1])] W (Some (two_cells None)) None false false).
    { unfold call, get_W. cbn. unfold compute_W. cbn. rewrite Rplus_0_r. destruct (Rlt_dec (/ 2 * 1 + / 2 * 1) 0); [lra|]. cbn. eexists. reflexivity. }
    destruct E as [W ->]. unfold call, get_W. cbn. reflexivity.
Qed.
Lemma c41_shared : exists mo a m, wf_mesh mo /\ forall M, (forall y, phi M y = y) ->
  let s := rrun (fst (reg_new Small mo None None false false)) [OMesh a] in
  length m = nC (ops s) /\ fst (call s M m) = Err ValueError.
Proof.
  exists two_cells, (Some [true; false]), [1]. split; [apply wf_two_cells|]. intros M HM. cbv zeta. split; [reflexivity|].
  unfold call, get_W. cbn. unfold compute_W. cbn. destruct (Rlt_dec 1 0); [lra|]. cbn. rewrite HM. reflexivity.
Qed.
Lemma c41_face_weights : exists mo v, wf_mesh mo /\
  let s := fst (reg_new Smooth2 mo None None false false) in
  snd (set_weights s [(1%nat, WArr v)]) = None /\ forall M m x, fst (call (fst (set_weights s [(1%nat, WArr v)])) M m) <> Ok x.
Proof. exists two_cells, [1]. split; [apply wf_two_cells|]. cbv zeta. split; [reflexivity|]. intros M m x. cbn. discriminate. Qed.
