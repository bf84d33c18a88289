(** Concrete cases. *)
From Verif Require Import Py Vec VecDeriv Reg RegFacts RegFacts2 VecReg SpecVecReg VecRegFacts VecRegFacts2 VecRegFacts3 VecRegFacts4 VecRegFacts5.
Local Open Scope R_scope.

Lemma length1 (y : vec) : length y = 1%nat -> exists x, y = [x].
Proof. destruct y as [|x [|]]; try discriminate. exists x. reflexivity. Qed.
Lemma flat1 : Forall (flat_cells 1 1) [W1 [1]].
Proof. constructor; [|constructor]. split; [exact I|reflexivity]. Qed.
Lemma nonneg1 : nonneg 1 1 [W1 [1]].
Proof. intros [|i] Hi; [|lia]. cbn. lra. Qed.
Lemma exp_jac y : length y = 1%nat -> is_mat 1 1 (dphi exp_map y) /\ has_jacobian 1 1 (phi exp_map) y (mv (dphi exp_map y)).
Proof.
  intros Ly. destruct (length1 y Ly) as [x ->]. split; [split; [reflexivity|repeat constructor]|]. intros h Lh. destruct (length1 h Lh) as [z ->].
  cbn [phi dphi exp_map map nth mv dot vadd vscale]. split; [intros t; reflexivity|]. split; [reflexivity|]. intros [|i] Hi; [|lia]. cbn [nth vadd vscale map].
  eapply dpl_eq; [|apply (dpl_comp (fun t => x + t * z) exp 0 z (exp x))].
  - ring.
  - eapply dpl_eq; [|apply dpl_plus; [apply derivable_pt_lim_const|apply dpl_mult; [apply derivable_pt_lim_id|apply derivable_pt_lim_const]]]. cbn beta. unfold id. ring.
  - replace (x + 0 * z) with x by ring. apply derivable_pt_lim_exp.
Qed.
Lemma exp_deriv0 : amp_deriv 1 1 ASmall exp_map None true (small_W 1 1 [W1 [1]]) [0] = Ok [0].
Proof.
  destruct (small_W_ok 1 1 [W1 [1]] flat1 nonneg1) as (w & E & Lw & _). rewrite E. destruct (length1 w Lw) as [x ->]. unfold amp_deriv. cbn [delta bind fd_at dphi exp_map fd fdT nth mv mtv dot map weighted].
  unfold weighted. cbn [reshape_free Nat.eqb reshape]. cbn. do 2 f_equal. ring.
Qed.
Lemma exp_call y : length y = 1%nat -> amp_call 1 1 exp_map None [W1 [1]] y = Ok (exp (nth 0 y 0) * exp (nth 0 y 0)).
Proof.
  intros Ly. rewrite (amp_value 1 1 1) by (try apply flat1; try apply nonneg1; try exact I; try exact Ly; destruct (length1 y Ly) as [x ->]; reflexivity). destruct (length1 y Ly) as [x ->]. f_equal.
  cbn. unfold length2. cbn. ring.
Qed.
Lemma exp_bad : ~ exists F g, (forall y, length y = 1%nat -> amp_call 1 1 exp_map None [W1 [1]] y = Ok (F y)) /\
  amp_deriv 1 1 ASmall exp_map None true (small_W 1 1 [W1 [1]]) [0] = Ok g /\ has_gradient 1 F [0] g.
Proof.
  intros (F & g & HF & Hg & [_ H]). rewrite exp_deriv0 in Hg. injection Hg as <-. specialize (H [1] eq_refl).
  assert (D : derivable_pt_lim (fun t => F (vadd [0] (vscale t [1]))) 0 2).
  { eapply dpl_ext; [|eapply dpl_eq; [|apply dpl_mult; apply derivable_pt_lim_exp]].
    - intros t. cbn beta. assert (Q : Ok (exp t * exp t) = Ok (F (vadd [0] (vscale t [1])))) by (rewrite <- HF by reflexivity; rewrite exp_call by reflexivity; cbn; do 2 f_equal; f_equal; ring).
      injection Q as Q. first [exact Q|symmetry; exact Q].
    - rewrite exp_0. ring. }
  pose proof (uniqueness_limite _ _ _ _ D H) as Q. cbn in Q. lra.
Qed.
Lemma w2_ignored nC k M ref n cols ws m : amp_call nC k M ref (W2 n cols :: ws) m = amp_call nC k M ref ws m.
Proof. reflexivity. Qed.
Lemma w2_bad : amp_call 1 1 id1 None [W2 1 [[4]]] [1] <> Ok (total 1 (fun i => weight_at 1 1 [W2 1 [[4]]] i * length2 (cell 1 1 (phi id1 (differ None true [1])) i))).
Proof.
  rewrite w2_ignored. rewrite (amp_value 1 1 1) by (try apply Forall_nil; try exact I; try reflexivity; intros i _; cbn; lra). intros E. injection E as E.
  cbn in E. unfold length2 in E. cbn in E. replace (4 * 4 + 0) with (4 * 4) in E by ring. rewrite sqrt_square in E; lra.
Qed.
Lemma w2_any : Forall (any_cells 1 1) [W2 1 [[4]]] /\ nonneg 1 1 [W2 1 [[4]]].
Proof. split; [constructor; [|constructor]; split; [repeat constructor|reflexivity]|]. intros i _. cbn [weight_at fold_right weight_of]. apply Rmult_le_pos; [apply sqrt_pos|lra]. Qed.
Lemma face_w2_bad nC k G ave M ref used cols ws m : smooth_call nC k G ave M ref used (W2 nC cols :: ws) m = Err ValueError.
Proof. unfold smooth_call, face_W. cbn [face_product face_factor]. rewrite Nat.eqb_refl. reflexivity. Qed.
Lemma ref_default_bad nC dim r : (2 <= dim)%nat -> nC <> 0%nat -> length r = (nC * dim)%nat -> set_reference nC None r = Err ValueError.
Proof. intros Hd Hn L. unfold set_reference. rewrite L. replace (nC * dim =? nC)%nat with false by (symmetry; apply Nat.eqb_neq; nia). reflexivity. Qed.
Lemma ref_default_use nC k M ws r r' m : set_reference nC None r = Ok r' -> length m = (nC * k)%nat -> (2 <= k)%nat -> nC <> 0%nat ->
  Forall (flat_cells nC k) ws -> nonneg nC k ws -> amp_call nC k M (Some r') ws m = Err ValueError.
Proof.
  unfold set_reference. destruct (length r =? nC)%nat eqn:E; [|discriminate]. apply Nat.eqb_eq in E. intros H. injection H as <-. intros Lm Hk Hn HF HN.
  destruct (small_W_ok nC k ws HF HN) as (w & Ew & _). unfold amp_call. rewrite Ew. cbn [bind]. unfold amp_f_m, delta. rewrite Lm, E.
  replace (nC * k =? nC)%nat with false by (symmetry; apply Nat.eqb_neq; nia). reflexivity.
Qed.
(** Examples *)
Lemma id2_linear : linear_map 2 (1 * 2) id2 [[1; 0]; [0; 1]].
Proof.
  split; [split; [reflexivity|repeat constructor]|]. intros y Ly. split; [|reflexivity]. destruct y as [|a [|b [|]]]; try discriminate. cbn. f_equal; [ring|f_equal; ring].
Qed.
Lemma id2_jac m : length m = 2%nat -> is_mat (1 * 2) 2 (dphi id2 m) /\ has_jacobian 2 (1 * 2) (phi id2) m (mv (dphi id2 m)).
Proof.
  intros Lm. split; [split; [reflexivity|repeat constructor]|]. intros h Lh. destruct m as [|a [|b [|]]]; try discriminate. destruct h as [|p [|q [|]]]; try discriminate.
  cbn [phi dphi id2 mv dot map vadd vscale]. split; [intros t; reflexivity|]. split; [reflexivity|].
  intros i Hi. assert (Q : forall x y, derivable_pt_lim (fun t => x + t * y) 0 y).
  { intros x y. eapply dpl_eq; [|apply dpl_plus; [apply derivable_pt_lim_const|apply dpl_mult; [apply derivable_pt_lim_id|apply derivable_pt_lim_const]]]. cbn beta. unfold id. ring. }
  destruct i as [|[|i]]; [| |lia]; cbn [nth]; [eapply dpl_eq; [|apply (Q a p)]; ring|eapply dpl_eq; [|apply (Q b q)]; ring].
Qed.
Lemma flat2 : Forall (flat_cells 1 2) [W1 [4]; W1 [3; 4]].
Proof. repeat constructor. Qed.
Lemma nonneg2 : nonneg 1 2 [W1 [4]; W1 [3; 4]].
Proof. intros [|i] Hi; [|lia]. cbn. apply Rmult_le_pos; [lra|]. apply Rmult_le_pos; [apply sqrt_pos|lra]. Qed.
Lemma any2 : Forall (any_cells 1 2) [W1 [4]; W1 [3; 4]; W2 1 [[3]; [4]]].
Proof. repeat constructor. Qed.
Lemma any2_nonneg : nonneg 1 2 [W1 [4]; W1 [3; 4]; W2 1 [[3]; [4]]].
Proof. intros [|i] Hi; [|lia]. cbn. apply Rmult_le_pos; [lra|]. apply Rmult_le_pos; [apply sqrt_pos|]. apply Rmult_le_pos; [apply sqrt_pos|lra]. Qed.
Lemma distinct3 : distinct_sizes 3 2 2.
Proof. unfold distinct_sizes. lia. Qed.
Lemma faces3 : Forall (face_ok 3 2 2) [W1 [1; 1; 1]; W1 [2; 3]].
Proof. repeat constructor. Qed.
Lemma faces3_pos i : (i < 2)%nat -> 0 <= face_weight_at 3 2 2 ave3 [W1 [1; 1; 1]; W1 [2; 3]] i.
Proof. destruct i as [|[|i]]; intros H; [| |lia]; cbn; lra. Qed.
Lemma grad3_mat : is_mat 2 3 grad3.
Proof. split; [reflexivity|repeat constructor]. Qed.
Lemma id6_linear : linear_map 6 (3 * 2) id6 (map (fun i => map (fun j => if (i =? j)%nat then 1 else 0) (seq 0 6)) (seq 0 6)).
Proof.
  split; [split; [reflexivity|repeat constructor]|]. intros y Ly. split; [|reflexivity]. destruct y as [|a [|b [|c [|d [|e [|f [|]]]]]]]; try discriminate. cbn.
  f_equal; [ring|]. f_equal; [ring|]. f_equal; [ring|]. f_equal; [ring|]. f_equal; [ring|]. f_equal. ring.
Qed.
