From Verif Require Import Vec VecDeriv Joint SpecJoint.
Local Open Scope R_scope.

Lemma firstn_zipw f n a b : firstn n (zipw f a b) = zipw f (firstn n a) (firstn n b).
Proof. revert a b; induction n; intros [|x a] [|y b]; cbn; auto. f_equal; apply IHn. Qed.
Lemma skipn_zipw f n a b : length a = length b -> skipn n (zipw f a b) = zipw f (skipn n a) (skipn n b).
Proof. revert a b; induction n; intros [|x a] [|y b]; cbn; intros; try lia; auto. Qed.
Lemma firstn_line n m t h : firstn n (vadd m (vscale t h)) = vadd (firstn n m) (vscale t (firstn n h)).
Proof. unfold vadd. rewrite firstn_zipw. unfold vscale. rewrite firstn_map. reflexivity. Qed.
Lemma skipn_line n m t h : length m = length h -> skipn n (vadd m (vscale t h)) = vadd (skipn n m) (vscale t (skipn n h)).
Proof. intros L. unfold vadd. rewrite skipn_zipw by (rewrite vscale_length; assumption). unfold vscale. rewrite skipn_map. reflexivity. Qed.

Lemma dot_app n a b v : length a = n -> dot (a ++ b) v = dot a (firstn n v) + dot b (skipn n v).
Proof.
  revert a v; induction n; intros [|x a] v L; cbn in L; try discriminate.
  - cbn. ring.
  - destruct v as [|y v]; cbn; [destruct b; cbn; ring|]. rewrite IHn by lia. ring.
Qed.
Lemma dot_vmul_l a b c : dot (vmul a b) c = dot a (vmul b c).
Proof. revert b c; induction a as [|x a IH]; intros [|y b] [|z c]; cbn; auto. fold (vmul a b) (vmul b c). rewrite IH. ring. Qed.
Lemma vsum_vmul a b : vsum (vmul a b) = dot a b.
Proof. revert b; induction a as [|x a IH]; intros [|y b]; cbn; auto. fold (vmul a b). rewrite IH. reflexivity. Qed.
Lemma vsum_vsub a b : length a = length b -> vsum (vsub a b) = vsum a - vsum b.
Proof. revert b; induction a as [|x a IH]; intros [|y b]; cbn; intros; try lia; [ring|]. fold (vsub a b). rewrite IH by lia. ring. Qed.
Lemma vmul_comm a b : vmul a b = vmul b a.
Proof. revert b; induction a as [|x a IH]; intros [|y b]; cbn; auto. fold (vmul a b) (vmul b a). rewrite IH. f_equal; ring. Qed.
Lemma firstn_app_exact n (a b : vec) : length a = n -> firstn n (a ++ b) = a.
Proof. intros <-. rewrite firstn_app, Nat.sub_diag, firstn_all, firstn_O, app_nil_r. reflexivity. Qed.
Lemma skipn_app_exact n (a b : vec) : length a = n -> skipn n (a ++ b) = b.
Proof. intros <-. rewrite skipn_app, Nat.sub_diag, skipn_all, skipn_O. reflexivity. Qed.

Lemma vderiv_app p q f g t0 f' g' : vderiv p f t0 f' -> vderiv q g t0 g' ->
  vderiv (p + q) (fun t => f t ++ g t) t0 (f' ++ g').
Proof.
  intros (F1 & F2 & F3) (G1 & G2 & G3). split; [intros; rewrite app_length, F1, G1; reflexivity|].
  split; [rewrite app_length; congruence|]. intros i Hi. destruct (Nat.lt_ge_cases i p) as [L|L].
  - rewrite app_nth1 by lia. apply (dpl_ext (fun t => nth i (f t) 0)); [|apply F3; assumption].
    intros y; rewrite app_nth1; [reflexivity|rewrite F1; assumption].
  - rewrite app_nth2 by lia. rewrite F2. apply (dpl_ext (fun t => nth (i - p) (g t) 0)); [|apply G3; lia].
    intros y; rewrite app_nth2; rewrite F1; [reflexivity|assumption].
Qed.

Lemma nth_mtv m n M : is_mat m n M -> forall w i, length w = m -> (i < n)%nat -> nth i (mtv n M w) 0 = dot (map (fun r => nth i r 0) M) w.
Proof.
  intros [Hm HM]; revert m Hm; induction HM as [|r M Hr HM IH]; intros m Hm w i Lw Li; cbn in *; [apply nth_zero|].
  destruct w as [|x w]; [apply nth_zero|]. cbn in Lw.
  rewrite nth_vadd; [|rewrite vscale_length; lia|rewrite vscale_length, (mtv_length (length M) n); [assumption|split; auto]].
  rewrite nth_vscale, (IH (length M)) by (reflexivity || lia || assumption). ring.
Qed.
Lemma vderiv_mtv m n M f t0 f' : is_mat m n M -> vderiv m f t0 f' -> vderiv n (fun t => mtv n M (f t)) t0 (mtv n M f').
Proof.
  intros HM (F1 & F2 & F3). split; [intros; apply (mtv_length m n M _ HM)|]. split; [apply (mtv_length m n M _ HM)|].
  intros i Hi. rewrite (nth_mtv m n M HM) by assumption.
  apply (dpl_ext (fun t => dot (map (fun r => nth i r 0) M) (f t))); [intros y; rewrite (nth_mtv m n M HM); auto|].
  eapply dpl_eq; [|apply (deriv_dot m (fun _ => map (fun r => nth i r 0) M) f t0 (vzero m) f')].
  - rewrite dot_zero_l; ring.
  - apply vderiv_const. rewrite map_length. apply (proj1 HM).
  - split; [assumption|]. split; assumption.
Qed.
Lemma vderiv_eq n f t0 a b : a = b -> vderiv n f t0 a -> vderiv n f t0 b.
Proof. intros ->; auto. Qed.

(** Pointwise tactic support: lengths. *)
Ltac len := repeat first
  [ rewrite vadd_length | rewrite vsub_length | rewrite vmul_length | rewrite vscale_length
  | rewrite vopp_length | rewrite mv_length | rewrite app_length | rewrite map_length ]; try lia.

Lemma nth_vopp a i : nth i (vopp a) 0 = - nth i a 0.
Proof. unfold vopp. revert i; induction a; intros [|i]; cbn; auto; ring. Qed.

(** ** Linear correspondence *)
Section LC.
  Context (k1 k2 k3 : R) (n : nat).
  Let k := (k1, k2, k3).
  Lemma lc_rel_line m h t : length m = (2 * n)%nat -> length h = (2 * n)%nat ->
    lc_relation k n (vadd m (vscale t h)) = vadd (lc_relation k n m) (vscale t (vadd (vscale k1 (firstn n h)) (vscale k2 (skipn n h)))).
  Proof.
    intros Lm Lh. unfold lc_relation, k. rewrite firstn_line, skipn_line by congruence.
    assert (L1 : length (firstn n m) = n) by (rewrite firstn_length; lia). assert (L2 : length (skipn n m) = n) by (rewrite skipn_length; lia).
    assert (L3 : length (firstn n h) = n) by (rewrite firstn_length; lia). assert (L4 : length (skipn n h) = n) by (rewrite skipn_length; lia).
    apply vec_ext; [len|]. intros i Hi. rewrite map_length in Hi.
    assert (Li : (i < n)%nat) by (revert Hi; len).
    rewrite map_nth_lt by assumption. rewrite nth_vadd; len. rewrite nth_vadd; len. rewrite !nth_vscale, !nth_vadd, !nth_vscale; len.
    rewrite map_nth_lt by len. rewrite nth_vadd; len. rewrite !nth_vscale. ring.
  Qed.
  Lemma lc_rel_len m : length m = (2 * n)%nat -> length (lc_relation k n m) = n.
  Proof. intros. unfold lc_relation, k. rewrite map_length. rewrite vadd_length; rewrite !vscale_length, firstn_length; [lia|rewrite skipn_length; lia]. Qed.
  Lemma lc_rel_vderiv m h : length m = (2 * n)%nat -> length h = (2 * n)%nat ->
    vderiv n (fun t => lc_relation k n (vadd m (vscale t h))) 0 (vadd (vscale k1 (firstn n h)) (vscale k2 (skipn n h))).
  Proof.
    intros Lm Lh. eapply vderiv_ext; [intros t; symmetry; apply lc_rel_line; assumption|].
    apply vderiv_line; [apply lc_rel_len; assumption|]. rewrite vadd_length; rewrite !vscale_length, firstn_length; [lia|rewrite skipn_length; lia].
  Qed.
  Lemma line0 m h : length m = length h -> vadd m (vscale 0 h) = m.
  Proof. intros E. rewrite vscale_0. apply vadd_zero_r. assumption. Qed.
  Lemma lc_gradient m : length m = (2 * n)%nat -> has_gradient (2 * n) (lc_value k n) m (lc_deriv k n m).
  Proof.
    intros Lm. pose proof (lc_rel_len m Lm) as LR. split.
    - unfold lc_deriv, k. fold k. len.
    - intros h Lh. unfold lc_value. eapply dpl_eq; [|apply (deriv_normsq n _ 0 _ (lc_rel_vderiv m h Lm Lh))].
      rewrite line0 by congruence. unfold lc_deriv, k. fold k.
      assert (L3 : length (firstn n h) = n) by (rewrite firstn_length; lia). assert (L4 : length (skipn n h) = n) by (rewrite skipn_length; lia).
      rewrite dot_vscale_l, (dot_app n) by len. rewrite dot_vadd_r by len. rewrite !dot_vscale_l, !dot_vscale_r. ring.
  Qed.
  Lemma lc_hessian m : length m = (2 * n)%nat -> has_jacobian (2 * n) (2 * n) (lc_deriv k n) m (lc_deriv2v k n).
  Proof.
    intros Lm h Lh. unfold lc_deriv, k. fold k.
    assert (L3 : length (firstn n h) = n) by (rewrite firstn_length; lia). assert (L4 : length (skipn n h) = n) by (rewrite skipn_length; lia).
    replace (2 * n)%nat with (n + n)%nat in * by lia.
    eapply vderiv_eq; [|apply vderiv_scale, vderiv_app; apply vderiv_scale; apply lc_rel_vderiv; lia].
    unfold lc_deriv2v, k. f_equal. f_equal; rewrite vscale_vadd, !vscale_vscale; f_equal; f_equal; ring.
  Qed.
  Lemma vmul_const c v : vmul (vconst (length v) c) v = vscale c v.
  Proof. induction v as [|x v IH]; cbn; [reflexivity|]. f_equal. exact IH. Qed.
  Lemma lc_matrix v : length v = (2 * n)%nat -> act false (lc_deriv2m k n) v = lc_deriv2v k n v.
  Proof.
    intros Lv. assert (L3 : length (firstn n v) = n) by (rewrite firstn_length; lia). assert (L4 : length (skipn n v) = n) by (rewrite skipn_length; lia).
    unfold lc_deriv2m, lc_deriv2v, k. cbn [act]. f_equal.
    pose proof (fun c => vmul_const c (firstn n v)) as E1. pose proof (fun c => vmul_const c (skipn n v)) as E2. rewrite L3 in E1. rewrite L4 in E2.
    rewrite !E1, !E2. f_equal; f_equal; f_equal; ring.
  Qed.
  Lemma lc_sym : symmetric_action (2 * n) (lc_deriv2v k n).
  Proof.
    intros u v Lu Lv. unfold lc_deriv2v, k.
    assert (L3 : length (firstn n v) = n) by (rewrite firstn_length; lia). assert (L4 : length (skipn n v) = n) by (rewrite skipn_length; lia).
    assert (L1 : length (firstn n u) = n) by (rewrite firstn_length; lia). assert (L2 : length (skipn n u) = n) by (rewrite skipn_length; lia).
    rewrite (dot_comm u). rewrite !dot_vscale_l, !(dot_app n) by len. rewrite !dot_vadd_l by len. rewrite !dot_vscale_l.
    rewrite (dot_comm (firstn n v)), (dot_comm (skipn n v) (firstn n u)), (dot_comm (firstn n v)), (dot_comm (skipn n v)). ring.
  Qed.
  Lemma lc_psd : psd_action (2 * n) (lc_deriv2v k n).
  Proof.
    intros v Lv. unfold lc_deriv2v, k.
    assert (L3 : length (firstn n v) = n) by (rewrite firstn_length; lia). assert (L4 : length (skipn n v) = n) by (rewrite skipn_length; lia).
    rewrite (dot_comm v). rewrite !dot_vscale_l, !(dot_app n) by len. rewrite !dot_vadd_l by len. rewrite !dot_vscale_l.
    pose proof (dot_self_nonneg (vadd (vscale k1 (firstn n v)) (vscale k2 (skipn n v)))) as P.
    rewrite dot_vadd_l, !dot_vadd_r, !dot_vscale_l, !dot_vscale_r in P by len. rewrite (dot_comm (skipn n v) (firstn n v)) in *. lra.
  Qed.
  Lemma lc_zero m : length m = (2 * n)%nat -> (lc_value k n m = 0 <-> forall i, (i < n)%nat -> k1 * nth i m 0 + k2 * nth (n + i) m 0 + k3 = 0).
  Proof.
    intros Lm. pose proof (lc_rel_len m Lm) as LR.
    assert (N : forall i, (i < n)%nat -> nth i (lc_relation k n m) 0 = k1 * nth i m 0 + k2 * nth (n + i) m 0 + k3).
    { intros i Hi. unfold lc_relation, k. assert (L1 : length (firstn n m) = n) by (rewrite firstn_length; lia). assert (L2 : length (skipn n m) = n) by (rewrite skipn_length; lia).
      rewrite map_nth_lt by len. rewrite nth_vadd; len. rewrite !nth_vscale.
      replace (nth i (firstn n m) 0) with (nth i m 0). 2:{ rewrite <- (firstn_skipn n m) at 1. rewrite app_nth1 by lia. reflexivity. }
      replace (nth i (skipn n m) 0) with (nth (n + i) m 0). 2:{ rewrite <- (firstn_skipn n m) at 1. rewrite app_nth2 by lia. f_equal. lia. }
      reflexivity. }
    unfold lc_value. split.
    - intros E i Hi. rewrite <- N by assumption. apply dot_self_zero in E. rewrite E. apply nth_zero.
    - intros H. assert (E : lc_relation k n m = vzero n). { apply vec_ext; [rewrite LR, vzero_length; reflexivity|]. intros i Hi. rewrite nth_zero, N by lia. apply H; lia. }
      rewrite E. apply dot_zero_l.
  Qed.
End LC.
