(** Proofs about the parametric maps. *)
From Coq Require Import Lia Lra.
From Verif Require Import Py Vec VecDeriv Param SpecParam EffMedFacts.
Local Open Scope R_scope.

Lemma cells_jacobian {C} nP (cell : C -> vec -> R) (row : C -> vec -> vec) m cells :
  (forall c, In c cells -> has_gradient nP (cell c) m (row c m)) -> rows_are_derivative nP cell row m cells.
Proof.
  intros H. split.
  - split; [apply map_length|]. apply Forall_forall. intros r Hr. apply in_map_iff in Hr.
    destruct Hr as [c [<- Hc]]. apply (H c Hc).
  - intros h Lh. repeat split.
    + intros t. apply map_length.
    + rewrite mv_length. apply map_length.
    + intros i Hi. destruct cells as [|c0 cs] eqn:E; [cbn in Hi; lia|]. rewrite <- E in *.
      assert (Hin : In (nth i cells c0) cells) by (apply nth_In; exact Hi).
      apply (dpl_ext (fun t => cell (nth i cells c0) (vadd m (vscale t h)))).
      * intros t. rewrite (nth_indep _ 0 (cell c0 (vadd m (vscale t h)))) by (rewrite map_length; exact Hi).
        symmetry. exact (map_nth (fun c => cell c (vadd m (vscale t h))) cells c0 i).
      * rewrite nth_mv by (rewrite map_length; exact Hi).
        rewrite (nth_indep _ [] (row c0 m)) by (rewrite map_length; exact Hi).
        rewrite (map_nth (fun c => row c m)). apply (H _ Hin). exact Lh.
Qed.

Lemma dpl_atan f x f' : derivable_pt_lim f x f' -> derivable_pt_lim (fun t => atan (f t)) x (f' * (/ (1 + (f x) ^ 2))).
Proof.
  intros H. apply (dpl_eq _ _ (/ (1 + (f x) ^ 2) * f')); [ring|].
  apply (derivable_pt_lim_comp f atan); [exact H|].
  apply derivable_pt_lim_atan.
Qed.

Lemma PI_nz : PI <> 0.
Proof. apply Rgt_not_eq, PI_RGT_0. Qed.
Lemma one_sq x : 1 + x ^ 2 <> 0.
Proof. pose proof (pow2_ge_0 x). lra. Qed.

Lemma dpl_atanfct v s x v' : derivable_pt_lim v x v' ->
  derivable_pt_lim (fun t => atanfct (v t) s) x (- atanfctDeriv (v x) s * v').
Proof.
  intros H. unfold atanfct.
  eapply dpl_eq; [|apply dpl_plus; [apply (dpl_ext (fun t => / PI * atan (s * v t)));
    [intros y; unfold Rdiv; ring | apply dpl_scal, dpl_atan, dpl_scal, H] | apply dpl_const]].
  unfold atanfctDeriv. field. first [exact PI_nz | split; first [exact PI_nz | apply one_sq]].
Qed.

(** Builds the derivative of an expression in [t]. *)
Ltac dd :=
  lazymatch goal with
  | |- derivable_pt_lim (fun _ => ?c) _ _ => eapply dpl_const
  | |- derivable_pt_lim (fun t => t) _ _ => eapply dpl_id
  | |- derivable_pt_lim (fun t => @?f t + @?g t) _ _ => eapply (dpl_plus f g); [dd|dd]
  | |- derivable_pt_lim (fun t => @?f t - @?g t) _ _ => eapply (dpl_minus f g); [dd|dd]
  | |- derivable_pt_lim (fun t => @?f t * @?g t) _ _ => eapply (dpl_mult f g); [dd|dd]
  | |- derivable_pt_lim (fun t => @?f t / ?c) _ _ => eapply (dpl_mult f (fun _ => / c)); [dd|eapply dpl_const]
  | |- derivable_pt_lim (fun t => atanfct (@?v t) ?s) _ _ => eapply (dpl_atanfct v s); dd
  | |- derivable_pt_lim (fun t => exp (@?v t)) _ _ => eapply (dpl_comp v exp); [dd|apply derivable_pt_lim_exp]
  | _ => idtac
  end.

Ltac at0 := cbv beta; rewrite ?Rmult_0_l, ?Rplus_0_r, ?Rmult_0_l.

Ltac list_len m L :=
  repeat (let a := fresh "p" in destruct m as [|a m]; [discriminate L|]); destruct m; [|discriminate L]; clear L.

Lemma layer_gradient s z m : length m = 4%nat -> has_gradient 4 (layer_cell s z) m (layer_row s z m).
Proof.
  intros Lm. split; [reflexivity|]. intros h Lh.
  do 4 (destruct m as [|? m]; [discriminate Lm|]). destruct m; [|discriminate Lm].
  do 4 (destruct h as [|? h]; [discriminate Lh|]). destruct h; [|discriminate Lh].
  cbn -[atanfct atanfctDeriv].
  unfold layer_cell, layer_cont, atanLayer, at_. cbn -[atanfct atanfctDeriv].
  eapply dpl_eq; [|dd].
  at0. unfold layer_row, atanLayer, atanLayerDeriv_center, atanLayerDeriv_thickness, at_. cbn -[atanfct atanfctDeriv].
  field.
Qed.

Ltac conc m Lm n := do n (destruct m as [|? m]; [discriminate Lm|]); destruct m; [|discriminate Lm].

Lemma casing_gradient s x z m : length m = 10%nat -> has_gradient 10 (casing_cell s x z) m (casing_row s x z m).
Proof.
  intros Lm. split; [reflexivity|]. intros h Lh.
  do 10 (destruct m as [|? m]; [discriminate Lm|]). destruct m; [|discriminate Lm].
  do 10 (destruct h as [|? h]; [discriminate Lh|]). destruct h; [|discriminate Lh].
  cbn -[atanfct atanfctDeriv].
  unfold casing_cell, cas_layer, atanCasing, atanInsideCasing, atanCasingLength, casing_a, casing_b, layer_cont, atanLayer, at_.
  cbn -[atanfct atanfctDeriv].
  eapply dpl_eq; [|dd].
  at0. unfold casing_row, cas_through_layer, cas_through_casing, cas_layer, layer_cont, atanCasing, atanInsideCasing,
    atanCasingDeriv_radius, atanCasingDeriv_thickness, atanCasingDeriv_bottom, atanCasingDeriv_top,
    atanInsideCasingDeriv_radius, atanInsideCasingDeriv_thickness, atanInsideCasingDeriv_bottom, atanInsideCasingDeriv_top,
    atanCasingLengthDeriv_top, atanCasingLengthDeriv_bottom, atanCasingLength, casing_a, casing_b,
    atanLayer, atanLayerDeriv_center, atanLayerDeriv_thickness, at_. cbn -[atanfct atanfctDeriv].
  field.
Qed.

Lemma bil2_gradient s x z m : length m = 7%nat -> has_gradient 7 (bil_cell2 s x z) m (bil_row2 s x z m).
Proof.
  intros Lm. split; [reflexivity|]. intros h Lh.
  do 7 (destruct m as [|? m]; [discriminate Lm|]). destruct m; [|discriminate Lm].
  do 7 (destruct h as [|? h]; [discriminate Lh|]). destruct h; [|discriminate Lh].
  cbn -[atanfct atanfctDeriv].
  unfold bil_cell2, bil_value, bil_layer, bil_ind2, window, layer_cont, atanLayer, at_.
  cbn -[atanfct atanfctDeriv].
  eapply dpl_eq; [|dd].
  at0. unfold bil_row2, bil_layer, bil_ind2, window, window_d0, window_dw, layer_cont,
    atanLayer, atanLayerDeriv_center, atanLayerDeriv_thickness, at_. cbn -[atanfct atanfctDeriv].
  field.
Qed.

Lemma bil3_gradient s x y z m : length m = 9%nat -> has_gradient 9 (bil_cell3 s x y z) m (bil_row3 s x y z m).
Proof.
  intros Lm. split; [reflexivity|]. intros h Lh.
  do 9 (destruct m as [|? m]; [discriminate Lm|]). destruct m; [|discriminate Lm].
  do 9 (destruct h as [|? h]; [discriminate Lh|]). destruct h; [|discriminate Lh].
  cbn -[atanfct atanfctDeriv].
  unfold bil_cell3, bil_value, bil_layer, bil_ind3, window, layer_cont, atanLayer, at_.
  cbn -[atanfct atanfctDeriv].
  eapply dpl_eq; [|dd].
  at0. unfold bil_row3, bil_layer, bil_ind3, window, window_d0, window_dw, layer_cont,
    atanLayer, atanLayerDeriv_center, atanLayerDeriv_thickness, at_. cbn -[atanfct atanfctDeriv].
  field.
Qed.
