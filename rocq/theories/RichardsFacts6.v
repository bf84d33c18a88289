From Verif Require Import Py Vec VecDeriv ParamFacts Joint Gncg NewtonFacts Empir SpecEmpir EmpirFacts Richards SpecRichards RichardsFacts RichardsFacts2 RichardsFacts3 RichardsFacts4 RichardsFacts5.
From Coq Require Import Lra Lia.
Local Open Scope R_scope.

Lemma len1 (a : vec) : length a = 1%nat -> a = [nth 0 a 0].
Proof. destruct a as [|x [|? ?]]; try discriminate. reflexivity. Qed.
Lemma c63_head : ~ has_jacobian 1 1 (fun h => residual ex_head [] [1] h 1) [2] (act false (step_matrix ex_head [] [2] 1)) /\
  ~ has_jacobian 1 1 (fun h => residual ex_head [] [1] h 1) [2] (act false (Adiag ex_head [] [2] 1)).
Proof.
  assert (D : derivable_pt_lim (fun t => nth 0 (residual ex_head [] [1] (vadd [2] (vscale t [1])) 1) 0) 0 6).
  { apply (dpl_ext (fun t => 2 * (2 + t) * (1 + t))).
    - intros t. unfold residual, rhs, ex_head, ex_still, ex_square, ex_one, face_k, dhead, vsub, vadd, vmul, vscale. cbn [q_method q_grid q_theta q_k q_bc r_call r_dU map zipw nth mv dot DIV Dz AV GRAD BCm]. field.
    - eapply dpl_eq; [|dr]. ring. }
  assert (A : forall M, nth 0 (act false M [1]) 0 = 4 -> ~ has_jacobian 1 1 (fun h => residual ex_head [] [1] h 1) [2] (act false M)).
  { intros M EM HJ. pose proof (proj2 (proj2 (HJ [1] eq_refl)) 0%nat ltac:(lia)) as D'. cbv beta in D'. rewrite EM in D'. pose proof (uniqueness_limite _ _ _ _ D D'). lra. }
  split; apply A.
  - unfold step_matrix, ex_head, ex_still, ex_square, ex_one, face_k, dhead, vsub, vadd, vmul, vscale. cbn [q_newton q_method q_grid q_theta q_k q_bc r_call r_dU map zipw nth mv dot DIV Dz AV GRAD BCm act g_nf g_n]. unfold vsub, vadd, vmul, vscale, sq. cbn [map zipw nth mv dot]. field.
  - unfold Adiag, harm, ex_head, ex_still, ex_square, ex_one, face_k, dhead, vsub, vadd, vmul, vscale. cbn [q_newton q_method q_grid q_theta q_k q_bc r_call r_dU map zipw nth mv dot DIV Dz AV GRAD BCm act g_nf g_n]. unfold vsub, vadd, vmul, vscale, sq. cbn [map zipw nth mv dot]. field.
Qed.
Lemma c63_stale_data : exists d, snd (dpred ex_sim (Some [2]) (Some [1]) (Some [[1]; [1]])) = Ok d /\ d <> data_of ex_sim [1] [[1]; [1]].
Proof.
  eexists. split; [reflexivity|]. unfold data_of, ex_sim, rx_call. cbn [q_rx map concat app x_kind x_P q_theta r_call ex_theta arg_model mv dot nth].
  intros E. injection E as E. lra.
Qed.
Lemma c63_no_fields s st m w : jtvec s st m w None = (st, Err AttributeError).
Proof. reflexivity. Qed.
Lemma c63_stale_adjoint : exists j jt, snd (jvec ex_sim (Some [2]) (Some [1]) [1] (Some [[1]; [1]])) = Ok j /\
  snd (jtvec ex_sim (Some [2]) (Some [1]) [1] (Some [[1]; [1]])) = Ok jt /\ dot [1] j <> dot jt [1].
Proof.
  eexists. eexists. split; [reflexivity|]. split; [reflexivity|]. 
  cbn -[IZR Rplus Rmult Rinv Rminus Rdiv Ropp pow]. unfold sq, Rdiv.
  repeat rewrite ?pow1, ?Rmult_0_l, ?Rmult_0_r, ?Rplus_0_l, ?Rplus_0_r, ?Rmult_1_l, ?Rmult_1_r, ?Rminus_0_r, ?Rinv_1, ?Rminus_diag_eq by reflexivity. lra.
Qed.

(** ** A case of the hypotheses: one cell draining to a head of 2 *)
Lemma one_deriv c d : derivable_pt_lim c 0 d -> vderiv 1 (fun t => [c t]) 0 [d].
Proof. intros D. split; [reflexivity|]. split; [reflexivity|]. intros [|i] Hi; [exact D|lia]. Qed.
Lemma ex_smooth x h : length x = 1%nat -> length h = 1%nat -> smooth_at 1 1 ex_linear x h /\ smooth_at 1 1 ex_kmodel x h.
Proof.
  intros Lx Lh. split; (split; [reflexivity|]; split; [reflexivity|]; split; [cbn; auto|]).
  - intros xs hs x' h' Dx Dh _ _. pose proof (proj1 (proj2 Dh)) as L. rewrite (len1 h' L). cbn -[IZR Rplus Rmult]. apply one_deriv. eapply dpl_eq; [|apply Dh; lia]. ring.
  - split; [|reflexivity]. split; [reflexivity|]. repeat constructor.
  - intros xs hs x' h' Dx Dh _ _. pose proof (proj1 (proj2 Dh)) as L. rewrite (len1 h' L). pose proof (proj1 (proj2 Dx)) as L'. rewrite (len1 x' L'). cbn -[IZR Rplus Rmult]. apply one_deriv. eapply dpl_eq; [|apply Dx; lia]. ring.
Qed.
Lemma ex_inverts c : forall A, (forall y, length y = 1%nat -> act false A y = [c * nth 0 y 0]) -> c <> 0 -> inverts 1 solve1 A.
Proof.
  intros A H Hc b Lb. unfold solve1. split; [reflexivity|]. rewrite (H [1] eq_refl). rewrite (len1 b Lb). cbn [nth].
  rewrite H by reflexivity. cbn [nth]. split; [f_equal; field; exact Hc|]. intros y Ly. rewrite (H y Ly). rewrite (len1 y Ly). cbn [nth]. intros E. injection E as E. f_equal. rewrite <- E. field. exact Hc.
Qed.
Lemma ex_Adiag h : act false (Adiag ex_flow [1] [h] 1) = act false (Adiag ex_flow [1] [h] 1) /\
  (forall y, length y = 1%nat -> act false (Adiag ex_flow [1] [h] 1) y = [2 * nth 0 y 0]) /\ (forall y, length y = 1%nat -> act false (MT (Adiag ex_flow [1] [h] 1)) y = [2 * nth 0 y 0]).
Proof.
  split; [reflexivity|]. split; intros y Ly; rewrite (len1 y Ly); cbn -[IZR Rplus Rmult Rinv Rminus Rdiv Ropp pow]; unfold sq; f_equal; field.
Qed.
Lemma ex_grid_ok : grid_ok ex_flow_grid 1.
Proof. repeat split; repeat constructor. Qed.
Lemma c63_ex : let fs := map (fun c => c 0) ex_cs in
  setup ex_flow 1 [1] fs /\ invertible ex_flow [1] fs /\ invertible_T ex_flow [1] fs /\ solution_branch ex_flow 1 ex_xs ex_cs [1] [[0]; [1 / 4]] /\ ex_xs 0 = [1].
Proof.
  intros fs. assert (Ef : fs = [[1]; [3 / 2]]). { unfold fs, ex_cs. cbn [map]. do 2 f_equal. f_equal. field. } rewrite Ef. clear fs Ef. split; [|split; [|split; [|split]]].
  - split; [reflexivity|]. split; [exact ex_grid_ok|]. split; [repeat constructor|]. split; [reflexivity|]. split; [discriminate|]. split; [repeat constructor; lra|].
    split; [|repeat constructor]. intros f Hf. assert (length f = 1%nat) by (destruct Hf as [<-|[<-|[]]]; reflexivity). split; [apply ex_smooth; auto|]. split; [apply ex_smooth; auto|].
    split; intros [|i] Hi; try (cbn in Hi; lia); cbn -[IZR Rplus Rmult Rinv]; [lra|]. rewrite Rinv_1. lra.
  - intros hn h dt [E|[]]. injection E as <- <- <-. apply (ex_inverts 2); [apply ex_Adiag|lra].
  - intros hn h dt [E|[]]. injection E as <- <- <-. apply (ex_inverts 2); [apply ex_Adiag|lra].
  - split; [|split; [|split]].
    + apply (one_deriv (fun t => 1 + t)). eapply dpl_eq; [|dr]. ring.
    + constructor; [apply one_deriv; apply dpl_const|]. constructor; [|constructor]. apply one_deriv. eapply dpl_eq; [|dr; lra]. field.
    + intros t; reflexivity.
    + exists 1. split; [lra|]. intros t Ht hn h dt [E|[]]. injection E as <- <- <-. apply Rabs_def2 in Ht.
      cbn -[IZR Rplus Rmult Rinv Rminus Rdiv Ropp pow]. f_equal. field. repeat split; try lra. all: try (replace (1 * / (1 + t) + 0) with (/ (1 + t)) by ring; apply Rinv_neq_0_compat; lra).
  - unfold ex_xs. f_equal. ring.
Qed.
