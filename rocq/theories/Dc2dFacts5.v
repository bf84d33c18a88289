(** 2.5D DC: small simulations for the examples and the counterexamples. *)
From Coq Require Import Reals Lra Lia.
From Verif Require Import Py Vec VecDeriv Joint Richards RichardsFacts RichardsFacts3 SolveDeriv Dc SpecDc DcFacts Dc2d SpecDc2d Dc2dFacts Dc2dFacts2 Dc2dFacts3 Dc2dFacts4.
Local Open Scope R_scope.

Lemma solve1_ok A a : (forall x, act false A [x] = [a * x]) -> a <> 0 -> solves 1 solve1 A.
Proof.
  intros E N [|b [|? ?]] Lb; try discriminate. unfold solve1. rewrite !E. cbn [nth]. split; [f_equal; field; exact N|].
  intros [|y [|? ?]] Ly; try discriminate. rewrite E. intros Q. injection Q as Q. f_equal. rewrite <- Q. field. exact N.
Qed.
Ltac len1 m := destruct m as [|m [|? ?]]; try discriminate.
Ltac mat1 := split; [reflexivity|repeat (constructor; [reflexivity|]); constructor].
Lemma sizes_square : sizes2 square2.
Proof.
  unfold sizes2. cbn [e_form e_p e_n e_nf e_nc e_D e_G e_M e_Mk e_bcm e_sig e_dsig e_rho e_drho e_ks e_ws e_solve e_srcs square2 one2].
  split; [mat1|]. split; [mat1|]. split; [mat1|]. split; [discriminate|]. split; [intros; mat1|]. split; [intros m L; split; [reflexivity|split; [mat1|split; [reflexivity|mat1]]]|].
  split; [reflexivity|]. split; [intros; reflexivity|]. constructor; [|constructor]. split; [reflexivity|]. constructor; [|constructor]. split; [mat1|exact I].
Qed.
Lemma sizes_linear b : sizes2 (linear2 b).
Proof.
  unfold sizes2. cbn [e_form e_p e_n e_nf e_nc e_D e_G e_M e_Mk e_bcm e_sig e_dsig e_rho e_drho e_ks e_ws e_solve e_srcs linear2 one2].
  split; [mat1|]. split; [mat1|]. split; [mat1|]. split; [discriminate|]. split; [intros; mat1|]. split; [intros m L; split; [exact L|split; [mat1|split; [rewrite map_length; exact L|mat1]]]|].
  split; [reflexivity|]. split; [intros; reflexivity|]. constructor; [|constructor]. split; [reflexivity|]. constructor; [|constructor]. split; [mat1|exact I].
Qed.
Lemma sizes_cell : sizes2 cell2.
Proof.
  unfold sizes2. cbn [e_form e_p e_n e_nf e_nc e_D e_G e_M e_Mk e_bcm e_sig e_dsig e_rho e_drho e_ks e_ws e_solve e_srcs cell2 one2].
  split; [mat1|]. split; [mat1|]. split; [mat1|]. split; [intros; mat1|]. split; [intros []; intros; mat1|]. split; [intros m L; split; [exact L|split; [mat1|split; [rewrite map_length; exact L|mat1]]]|].
  split; [reflexivity|]. split; [intros; reflexivity|]. constructor; [|constructor]. split; [reflexivity|]. constructor; [|constructor]. split; [mat1|exact I].
Qed.
Ltac crunch := lazy -[IZR INR Rplus Rmult Rinv Rminus Rdiv Ropp sqrt pow list_eq_dec Req_EM_T].
Lemma act_square i m x : (i < 1)%nat -> act false (matrix2 square2 Robin i [m]) [x] = [(2 * m ^ 2) * x].
Proof. intros H. destruct i; [|lia]. crunch. f_equal. ring. Qed.
Lemma act_linear b i m x : (i < 1)%nat -> act false (matrix2 (linear2 b) Robin i [m]) [x] = [(2 * m) * x].
Proof. intros H. destruct i; [|lia]. crunch. f_equal. ring. Qed.
Lemma act_cell bc i m x : (i < 1)%nat -> act false (matrix2 cell2 bc i [m]) [x] = [(match bc with Neumann => 1 | Dirichlet => 4 * / (1 * / m + 0) | Robin => 2 * / (1 * / m + 0) end + m) * x].
Proof. intros H. destruct i; [|lia]. destruct bc; crunch; f_equal; ring. Qed.
Lemma solves_square m : m <> 0 -> solves2 square2 Robin [m].
Proof. intros N i Hi. apply (solve1_ok _ (2 * m ^ 2)); [intros; apply act_square; exact Hi|]. apply Rmult_integral_contrapositive. split; [lra|apply pow_nonzero; exact N]. Qed.
Lemma solves_linear b m : m <> 0 -> solves2 (linear2 b) Robin [m].
Proof. intros N i Hi. apply (solve1_ok _ (2 * m)); [intros; apply act_linear; exact Hi|]. lra. Qed.
Lemma solves_cell bc m : 0 < m -> solves2 cell2 bc [m].
Proof.
  intros N i Hi. eapply solve1_ok; [intros; apply act_cell; exact Hi|]. assert (0 < 1 * / m + 0) by (pose proof (Rinv_0_lt_compat m N); lra). pose proof (Rinv_0_lt_compat _ H). destruct bc; lra.
Qed.
Lemma near1 m (Q : vec -> Prop) : 0 < m -> (forall x, 0 < x -> Q [x]) -> near 1 [m] Q.
Proof.
  intros Hm H. exists m. split; [exact Hm|]. intros m' L N. len1 m'. apply H. specialize (N 0%nat ltac:(lia)). cbn [nth] in N. apply Rabs_def2 in N. lra.
Qed.
Lemma regular_square m : 0 < m -> regular2 square2 Robin [m].
Proof.
  intros Hm. split; [reflexivity|]. split; [|split; [discriminate|]].
  - intros v Lv. len1 v. split; [intros; reflexivity|]. split; [reflexivity|]. intros i Hi. cbn in Hi. destruct i; [|lia]. cbn [e_sig e_dsig square2 one2 vadd vscale zipw map nth mv dot].
    assert (D : derivable_pt_lim (fun t => (m + t * v) ^ 2) 0 (2 * (m + 0 * v) * v)).
    { apply (derivable_pt_lim_comp (fun t => m + t * v) (fun y => y ^ 2) 0 v (2 * (m + 0 * v))).
      - assert (D0 : derivable_pt_lim (fun t => m + t * v) 0 (0 + (1 * v + 0 * 0))); [|replace (0 + (1 * v + 0 * 0)) with v in D0 by ring; exact D0]. apply (derivable_pt_lim_plus (fun _ => m) (fun t => t * v)); [apply derivable_pt_lim_const|]. apply (derivable_pt_lim_mult (fun t => t) (fun _ => v)); [apply derivable_pt_lim_id|apply derivable_pt_lim_const].
      - replace (2 * (m + 0 * v)) with (INR 2 * (m + 0 * v) ^ pred 2) by (cbn; ring). apply derivable_pt_lim_pow. }
    replace (2 * m * v + 0) with (2 * (m + 0 * v) * v) by ring. exact D.
  - apply near1; [exact Hm|]. intros x Hx. apply solves_square. lra.
Qed.
Lemma regular_linear b m : 0 < m -> regular2 (linear2 b) Robin [m].
Proof.
  intros Hm. split; [reflexivity|]. split; [|split; [discriminate|]].
  - intros v Lv. pose proof (vderiv_line 1 [m] v eq_refl Lv) as D. len1 v. cbn [e_dsig linear2 one2 e_sig e_p e_nc]. replace (mv [[1]] [v]) with [v] by (cbn; f_equal; ring). exact D.
  - apply near1; [exact Hm|]. intros x Hx. apply solves_linear. lra.
Qed.
Ltac same m := destruct (list_eq_dec Req_EM_T [m] [m]) as [_|?NN]; [|congruence].
(** ** Counterexamples *)
Lemma fresh_square m v : m <> 0 -> snd (Jvec2 square2 (init2 Robin) [m] [v] None) = Ok [- v / m ^ 3].
Proof.
  intros N. crunch. same m. crunch. f_equal. f_equal. field. assert (0 < m ^ 2) by (rewrite <- Rsqr_pow2; apply Rlt_0_sqr; exact N). split; [exact N|lra].
Qed.
Lemma stale_state : fst (history2 square2 Robin [DJvec [1] [1] false]) =
  mkSt2 Robin (Some [1]) (Some [matrix2 square2 Robin 0 [1]]) [(0%nat, [[1]])] [(0%nat, ([[1]], [[2 * 1]]))] None.
Proof. change (fst (Jvec2 square2 (init2 Robin) [1] [1] None) = mkSt2 Robin (Some [1]) (Some [matrix2 square2 Robin 0 [1]]) [(0%nat, [[1]])] [(0%nat, ([[1]], [[2 * 1]]))] None). crunch. same 1. reflexivity. Qed.
Lemma stale_ok : snd (Jvec2 square2 (fst (history2 square2 Robin [DJvec [1] [1] false])) [2] [1] None) = Ok [- (3 / 32)].
Proof.
  rewrite stale_state. generalize (matrix2 square2 Robin 0 [1]). intros A. crunch. destruct (list_eq_dec Req_EM_T [1] [2]) as [E|N]; [exfalso; injection E; lra|]. same 2. crunch. f_equal. f_equal. field.
Qed.
Lemma stale_refuted : sizes2 square2 /\ bc_ok square2 Robin /\ e_fixJ square2 = false /\ regular2 square2 Robin [1] /\ regular2 square2 Robin [2] /\
  snd (Jvec2 square2 (init2 Robin) [2] [1] None) = Ok [- (1 / 8)] /\ snd (Jvec2 square2 (fst (history2 square2 Robin [DJvec [1] [1] false])) [2] [1] None) = Ok [- (3 / 32)].
Proof.
  split; [exact sizes_square|]. split; [exact I|]. split; [reflexivity|]. split; [apply regular_square; lra|]. split; [apply regular_square; lra|]. split; [|exact stale_ok].
  rewrite fresh_square by lra. f_equal. f_equal. field.
Qed.
Lemma dpred_cell bc m : 0 < m -> snd (dpred2 cell2 (init2 bc) [m] None) = Ok [/ (match bc with Neumann => 1 | Dirichlet => 4 * m | Robin => 2 * m end + m)].
Proof. intros N. destruct bc; crunch; f_equal; f_equal; field; lra. Qed.
Lemma system_cell m x : 0 < m -> system2 cell2 Neumann 0 [m] [x] = [m * x].
Proof. intros N. crunch. f_equal. ring. Qed.
Lemma neumann_refuted : sizes2 cell2 /\ bc_ok cell2 Neumann /\ forall m, 0 < m -> solves2 cell2 Neumann [m] /\ snd (dpred2 cell2 (init2 Neumann) [m] None) = Ok [/ (1 + m)] /\
  forall y, system2 cell2 Neumann 0 [m] y = [1] -> readings2 cell2 (fun _ _ => y) = [/ m].
Proof.
  split; [exact sizes_cell|]. split; [exact I|]. intros m Hm. split; [apply solves_cell; exact Hm|]. split; [apply dpred_cell; exact Hm|]. intros y Ey.
  destruct y as [|x [|x' y]].
  - exfalso. revert Ey. crunch. intros Q. discriminate Q || (injection Q; lra).
  - rewrite system_cell in Ey by exact Hm. injection Ey as Ey. crunch. f_equal. assert (x = / m) by (apply Rmult_eq_reg_l with m; [rewrite Ey; field; lra|lra]). subst x. field. lra.
  - assert (Q : x = / m). { revert Ey. crunch. intros Q. injection Q as Q. apply Rmult_eq_reg_l with m; [|lra]. rewrite Rinv_r by lra. rewrite <- Q. ring. } crunch. f_equal. rewrite Q. field. lra.
Qed.
Lemma bc_refuted : forall m, 0 < m -> let st := fst (set_bc cell2 (fst (dpred2 cell2 (init2 Robin) [m] None)) Neumann) in
  snd (dpred2 cell2 st [m] None) = Ok [/ (1 + 3 * m)] /\ snd (dpred2 cell2 (init2 Neumann) [m] None) = Ok [/ (1 + m)].
Proof.
  intros m Hm st. split; [|apply dpred_cell; exact Hm]. subst st. crunch. destruct (list_eq_dec Req_EM_T [m] [m]) as [_|N]; [|congruence]. crunch. f_equal. f_equal. field. lra.
Qed.
Lemma scaled_cell i : scaled_gradient cell2 Robin i.
Proof. exists [1/2]. split; [reflexivity|]. intros x Lx. cbn in Lx. len1 x. crunch. f_equal. field. Qed.
