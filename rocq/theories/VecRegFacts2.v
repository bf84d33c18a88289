(** Weighted squares of linear kernels, and the two kernels. *)
From Verif Require Import Py Vec VecDeriv Reg RegFacts RegFacts2 VecReg SpecVecReg VecRegFacts.
Local Open Scope R_scope.

Section Quad.
Variables (np N : nat) (L LT : vec -> vec) (wt : vec) (ref : option vec) (used : bool).
Hypothesis HL : forall v, length v = np -> length (L v) = N.
Hypothesis HLT : forall w, length w = N -> length (LT w) = np.
Hypothesis HA : forall w v, length w = N -> length v = np -> dot w (L v) = dot (LT w) v.
Hypothesis Hw : length wt = N.
Hypothesis Hr : ref_ok np ref.
Lemma L_line a h t : length a = np -> length h = np -> L (vadd a (vscale t h)) = vadd (L a) (vscale t (L h)).
Proof.
  intros La Lh. assert (Lv : length (vadd a (vscale t h)) = np) by (rewrite vadd_length; rewrite ?vscale_length; congruence).
  apply dot_ext; [rewrite vadd_length; rewrite ?vscale_length, !HL; congruence|]. intros w Lw. rewrite HL in Lw by exact Lv.
  rewrite (dot_comm _ w), HA by assumption. rewrite dot_vadd_r, dot_vscale_r by (rewrite vscale_length; congruence).
  rewrite (dot_comm _ w), dot_vadd_r, dot_vscale_r by (rewrite vscale_length, !HL; congruence). rewrite <- !HA by assumption. reflexivity.
Qed.
Lemma differ_len m : length m = np -> length (differ ref used m) = np.
Proof. intros Lm. unfold differ. destruct ref as [r|]; [|exact Lm]. destruct used; [|exact Lm]. cbn in Hr. rewrite vsub_length; congruence. Qed.
Lemma differ_line m h t : length m = np -> length h = np -> differ ref used (vadd m (vscale t h)) = vadd (differ ref used m) (vscale t h).
Proof.
  intros Lm Lh. unfold differ. destruct ref as [r|]; [|reflexivity]. destruct used; [|reflexivity]. cbn in Hr.
  rewrite !vsub_as_add, <- !vadd_assoc. f_equal. apply vadd_comm.
Qed.
Definition res (m : vec) : vec := L (differ ref used m).
Definition value (m : vec) : R := dot (vmul wt (res m)) (vmul wt (res m)).
Definition grad_of (m : vec) : vec := vscale 2 (LT (vmul wt (vmul wt (res m)))).
Definition hess (v : vec) : vec := vscale 2 (LT (vmul wt (vmul wt (L v)))).
Lemma res_len m : length m = np -> length (res m) = N.
Proof. intros Lm. apply HL, differ_len, Lm. Qed.
Lemma ww_len x : length x = N -> length (vmul wt (vmul wt x)) = N.
Proof. intros Lx. rewrite vmul_length; [exact Hw|]. rewrite vmul_length; congruence. Qed.
Lemma res_vderiv m h : length m = np -> length h = np -> vderiv N (fun t => res (vadd m (vscale t h))) 0 (L h).
Proof.
  intros Lm Lh. eapply vderiv_ext; [|apply (vderiv_line N (res m) (L h)); [apply res_len; exact Lm|apply HL; exact Lh]].
  intros t. unfold res. rewrite differ_line, L_line by (try apply differ_len; assumption). reflexivity.
Qed.
Lemma quad_gradient m : length m = np -> has_gradient np value m (grad_of m).
Proof.
  intros Lm. split; [unfold grad_of; rewrite vscale_length; apply HLT, ww_len, res_len, Lm|]. intros h Lh.
  pose proof (vderiv_wmul _ wt _ _ _ Hw (res_vderiv m h Lm Lh)) as D. pose proof (deriv_normsq _ _ _ _ D) as D3. cbn beta in D3.
  rewrite vscale_0 in D3. rewrite vadd_zero_r in D3 by congruence. eapply dpl_eq; [|exact D3].
  unfold grad_of. rewrite dot_vscale_l, <- HA by (try apply ww_len, res_len; assumption). rewrite !dot_vmul_swap. reflexivity.
Qed.
Lemma quad_newton m v : length m = np -> length v = np -> vderiv np (fun t => grad_of (vadd m (vscale t v))) 0 (hess v).
Proof.
  intros Lm Lv. unfold grad_of, hess. apply vderiv_scale.
  assert (LTl : forall a b t, length a = N -> length b = N -> LT (vadd a (vscale t b)) = vadd (LT a) (vscale t (LT b))).
  { intros a b t La Lb. assert (Lab : length (vadd a (vscale t b)) = N) by (rewrite vadd_length; rewrite ?vscale_length; congruence).
    apply dot_ext; [rewrite vadd_length; rewrite ?vscale_length, !HLT; congruence|]. intros x Lx. rewrite HLT in Lx by exact Lab.
    rewrite <- HA by assumption. rewrite !dot_vadd_l, !dot_vscale_l by (rewrite ?vscale_length, ?HLT; congruence). rewrite <- !HA by assumption. reflexivity. }
  eapply vderiv_ext; [|apply (vderiv_line np (LT (vmul wt (vmul wt (res m)))) (LT (vmul wt (vmul wt (L v)))))].
  - intros t. cbn beta. rewrite <- LTl by (apply ww_len; try apply res_len; auto). f_equal.
    assert (E : res (vadd m (vscale t v)) = vadd (res m) (vscale t (L v))).
    { unfold res. rewrite differ_line, L_line by (try apply differ_len; assumption). reflexivity. }
    rewrite E. pose proof (res_len m Lm) as L1. pose proof (HL v Lv) as L2.
    assert (L3 : length (vadd (res m) (vscale t (L v))) = N) by (rewrite vadd_length; rewrite ?vscale_length; congruence).
    assert (L5 : length (vmul wt (vmul wt (res m))) = length (vscale t (vmul wt (vmul wt (L v))))) by (rewrite vscale_length, !ww_len by assumption; reflexivity).
    apply vec_ext; [rewrite vadd_length by exact L5; rewrite !ww_len by assumption; reflexivity|].
    rewrite vadd_length by exact L5. rewrite ww_len by assumption. intros i Hi.
    assert (L4 : forall x, length x = N -> length (vmul wt x) = N) by (intros x Lx; rewrite vmul_length; congruence).
    rewrite nth_vadd by (try exact L5; rewrite ww_len; assumption). rewrite nth_vscale. rewrite !nth_vmul by (rewrite ?L4 by assumption; rewrite ?Hw; auto).
    rewrite nth_vadd by (rewrite ?vscale_length; congruence). rewrite nth_vscale. ring.
  - apply HLT, ww_len, res_len, Lm.
  - apply HLT, ww_len, HL, Lv.
Qed.
Lemma quad_symmetric u v : length u = np -> length v = np -> dot u (hess v) = dot (hess u) v /\ 0 <= dot v (hess v).
Proof.
  intros Lu Lv. unfold hess. rewrite !dot_vscale_l, !dot_vscale_r, (dot_comm u), (dot_comm v), <- !HA by (try apply ww_len; auto).
  split; [f_equal; rewrite dot_comm, !dot_vmul_swap; reflexivity|]. rewrite dot_vmul_swap. pose proof (dot_self_nonneg (vmul wt (L v))). lra.
Qed.
End Quad.

Lemma block_length n k G v : length (block n k G v) = (length G * k)%nat.
Proof.
  unfold block. rewrite (concat_length_cols (length G)); [rewrite map_length, chunk_length; reflexivity|].
  apply Forall_forall. intros x Hx. apply in_map_iff in Hx. destruct Hx as (c & <- & _). apply mv_length.
Qed.
Lemma blockT_length nF n k G w : is_mat nF n G -> length (blockT n k G w) = (n * k)%nat.
Proof.
  intros HG. unfold blockT. rewrite (concat_length_cols n); [rewrite map_length, chunk_length; reflexivity|].
  apply Forall_forall. intros x Hx. apply in_map_iff in Hx. destruct Hx as (c & <- & _). apply (mtv_length nF). exact HG.
Qed.
Lemma blocks_adjoint nF n G : is_mat nF n G -> forall ws cs, length ws = length cs -> Forall (fun w => length w = nF) ws -> Forall (fun c => length c = n) cs ->
  dot (concat ws) (concat (map (mv G) cs)) = dot (concat (map (mtv n G) ws)) (concat cs).
Proof.
  intros HG. induction ws as [|w ws IH]; intros [|c cs] L Fw Fc; try discriminate; [reflexivity|]. injection L as L. inversion Fw; subst. inversion Fc; subst.
  cbn [map concat]. rewrite !dot_app.
  - rewrite (IH cs L) by assumption. f_equal. apply (mv_mtv_adjoint (length w) (length c)); try reflexivity. assumption.
  - rewrite (mtv_length (length w) (length c)); [reflexivity|assumption].
  - rewrite mv_length. symmetry. apply HG.
Qed.
Lemma block_adjoint nF n k G w v : is_mat nF n G -> length w = (nF * k)%nat -> length v = (n * k)%nat -> dot w (block n k G v) = dot (blockT n k G w) v.
Proof.
  intros HG Lw Lv. assert (EG : length G = nF) by apply HG. unfold block, blockT. rewrite EG. rewrite <- (concat_chunk nF k w Lw) at 1. rewrite <- (concat_chunk n k v Lv) at 2.
  apply (blocks_adjoint nF n G HG); [rewrite !chunk_length; reflexivity|apply chunk_cols; exact Lw|apply chunk_cols; exact Lv].
Qed.
Lemma chunk_block n k G v : chunk (length G) k (block n k G v) = map (mv G) (chunk n k v).
Proof.
  unfold block. pose proof (chunk_concat (length G) (map (mv G) (chunk n k v))) as Q. rewrite map_length, chunk_length in Q. apply Q.
  apply Forall_forall. intros x Hx. apply in_map_iff in Hx. destruct Hx as (c & <- & _). apply mv_length.
Qed.

(** The two kinds of terms with a linear mapping. *)
Definition rows_of (nC : nat) (a : akind) : nat := match a with ASmall => nC | ASmooth G => length G end.
Definition kind_ok (nC : nat) (a : akind) : Prop := match a with ASmall => True | ASmooth G => is_mat (length G) nC G end.
Section Kinds.
Variables (nC k np : nat) (a : akind) (A : mat).
Hypothesis Ha : kind_ok nC a.
Hypothesis HA : is_mat (nC * k) np A.
Lemma fd_len v : length (fd nC k a A v) = (rows_of nC a * k)%nat.
Proof. destruct a as [|G]; cbn [fd rows_of]; [rewrite mv_length; apply HA|apply block_length]. Qed.
Lemma fdT_len w : length (fdT nC k np a A w) = np.
Proof. destruct a as [|G]; cbn [fdT]; apply (mtv_length (nC * k)); exact HA. Qed.
Lemma fd_adj w v : length w = (rows_of nC a * k)%nat -> length v = np -> dot w (fd nC k a A v) = dot (fdT nC k np a A w) v.
Proof.
  destruct a as [|G]; cbn [fd fdT rows_of kind_ok] in *; intros Lw Lv; [apply (mv_mtv_adjoint (nC * k)); assumption|].
  rewrite (block_adjoint (length G)); try assumption; [|rewrite mv_length; apply HA].
  apply (mv_mtv_adjoint (nC * k)); [assumption| |assumption]. apply (blockT_length (length G)). exact Ha.
Qed.
End Kinds.
