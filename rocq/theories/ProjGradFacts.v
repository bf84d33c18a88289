From Verif Require Import Py Vec VecDeriv Optim SpecOptim OptimFacts ProjGrad.
Local Open Scope R_scope.

Lemma norm2_1 x : norm2 [x] = Rabs x.
Proof. unfold norm2; cbn. rewrite Rplus_0_r. apply sqrt_Rsqr_abs. Qed.

Definition wit_opts := mkOpts 1 (mkLs 10 (1/10000) (9/10) (1/2)) (1/10) (1/10) (1/10) (1/100000) None true.
Definition wit_phi (x : vec) : option R := let a := nth 0 x 0 in Some (10 * (1 - a) * (1 - a) + a).
Definition wit_grad (x : vec) : vec := let a := nth 0 x 0 in [1 - 20 * (1 - a)].
Definition wit_B := mkBounds (Scalar 0) NoBound.
Lemma wit_gradient x : length x = 1%nat -> has_gradient 1 (fun y => match wit_phi y with Some f => f | None => 0 end) x (wit_grad x).
Proof.
  intros L. destruct x as [|a [|]]; try discriminate. split; [reflexivity|]. intros h Lh.
  destruct h as [|b [|]]; try discriminate. cbn.
  apply (dpl_ext (fun t => 10 * ((1 - (a + t * b)) * (1 - (a + t * b))) + (a + t * b))); [intros; ring|].
  assert (D : derivable_pt_lim (fun t => a + t * b) 0 b).
  { eapply dpl_eq; [|apply (dpl_plus (fun _ => a) (fun t => t * b)); [apply dpl_const|]].
    2: { apply (dpl_mult (fun t => t) (fun _ => b)); [apply dpl_id|apply dpl_const]. } cbn. ring. }
  assert (D1 : derivable_pt_lim (fun t => 1 - (a + t * b)) 0 (0 - b)).
  { apply (dpl_minus (fun _ => 1) (fun t => a + t * b)); [apply dpl_const|exact D]. }
  eapply dpl_eq; [|apply (dpl_plus (fun t => 10 * ((1 - (a + t * b)) * (1 - (a + t * b)))) (fun t => a + t * b)); [|exact D]].
  2: { apply dpl_scal. apply (dpl_mult (fun t => 1 - (a + t * b)) (fun t => 1 - (a + t * b))); exact D1. }
  cbn. ring.
Qed.
Ltac rdec := repeat match goal with |- context [Rle_dec ?a ?b] => destruct (Rle_dec a b); try (exfalso; lra) end.
Lemma pg_refuted : forall cg, exists xs e,
  pg_minimize wit_B cg wit_phi wit_grad wit_opts [1] = Some (xs, [0], e).
Proof.
  intros cg. unfold pg_minimize, minimize. cbn [p_maxIter wit_opts].
  assert (P1 : projection wit_B [1] = [1]).
  { unfold projection, wit_B; cbn. unfold Rmax; rdec; reflexivity. }
  assert (G1 : wit_grad [1] = [1]). { unfold wit_grad; cbn. f_equal. ring. }
  rewrite P1.
  remember (S 0) as one eqn:E1. cbn [loop o_iter o_xc]. rewrite G1.
  set (s0 := mkOst _ _ _ _ _ _ _ _).
  assert (C0 : check_stoppers (pg_stoppers wit_B wit_opts) s0 = false).
  { unfold pg_stoppers, default_stoppers, check_stoppers. cbn.
    unfold projection, wit_B; cbn. rewrite !norm2_1. unfold Rmax, Rleb.
    repeat match goal with |- context [Rabs ?x] =>
      replace (Rabs x) with 1 by (rdec; unfold Rabs; destruct (Rcase_abs _); lra) end.
    rdec. reflexivity. }
  rewrite C0. cbn [p_maxStep wit_opts scaleSearchDirection].
  assert (D0 : pg_dir wit_B cg s0 (pg_startup wit_B [1]) = [-1]) by (unfold pg_dir; cbn; f_equal; lra).
  rewrite D0.
  unfold modifySearchDirection. cbn [p_ls wit_opts ls_max].
  cbn [ls_loop].
  assert (T0 : trial (projection wit_B) [1] [-1] 1 = [0]).
  { unfold trial, projection, wit_B; cbn. unfold Rmax; rdec; f_equal; lra. }
  assert (C1 : check_stoppers (pg_stoppersLS wit_B wit_opts s0)
     (ls_state wit_phi wit_grad (projection wit_B) [1] [1] [-1] (wit_phi [1]) 0 1) = true).
  { apply (check_stoppers_critical _ _ (fun s => Nat.leb (length (l_xt s)) (count_true (bindingSet wit_B [1] (l_xt s))))).
    - unfold pg_stoppersLS. apply in_or_app; right. left. reflexivity.
    - unfold ls_state; cbn [l_xt]. rewrite T0. cbn. unfold Rleb. rdec. reflexivity. }
  rewrite C1, T0. cbn [Nat.ltb Nat.leb negb andb].
  subst one. cbn [loop o_iter o_xc].
  set (s1 := mkOst _ _ _ _ _ _ _ _).
  assert (C2 : check_stoppers (pg_stoppers wit_B wit_opts) s1 = true).
  { apply (check_stoppers_critical _ _ (fun s => Nat.leb (p_maxIter wit_opts) (o_iter s))).
    - unfold pg_stoppers, default_stoppers. cbn. auto 10.
    - reflexivity. }
  rewrite C2. eauto.
Qed.
Lemma pg_refuted_full : forall cg, exists B phi grad o x0 xs r e f0 f,
  (forall x, length x = 1%nat -> has_gradient 1 (fun y => match phi y with Some f => f | None => 0 end) x (grad x)) /\
  p_require_decrease o = true /\ feasible B x0 /\
  pg_minimize B cg phi grad o x0 = Some (xs, r, e) /\ phi x0 = Some f0 /\ phi r = Some f /\ f0 < f.
Proof.
  intros cg. destruct (pg_refuted cg) as (xs & e & E).
  exists wit_B, wit_phi, wit_grad, wit_opts, [1], xs, [0], e, 1, 10.
  split; [apply wit_gradient|]. split; [reflexivity|]. split.
  { intros i Hi. destruct i; [|cbn in Hi; lia]. cbn. split; [lra|exact I]. }
  split; [exact E|]. split; [unfold wit_phi; cbn; f_equal; ring|]. split; [unfold wit_phi; cbn; f_equal; ring|lra].
Qed.
