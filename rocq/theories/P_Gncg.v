(** C14 and C15: the projected Gauss-Newton-CG direction and the Newton root finder. *)
From Verif Require Import Py Vec Optim SpecOptim Gncg SpecGncg CgFacts GncgFacts NewtonFacts.
Local Open Scope R_scope.

(** C14: components blocked by their bound do not move; any preconditioner. *)
Theorem C14_blocked_components_stay : forall N B o H xc g, wf_bounds (length xc) B -> length xc = N -> length g = N ->
  spd N H -> forall P, (forall v, length v = N -> length (papply P v) = N) ->
  forall step count, gncg_direction B o H P xc g = (step, count) ->
  forall i, (i < N)%nat -> blocked B xc g i -> nth i step 0 = 0.
Proof. exact direction_blocked. Qed.
Print Assumptions C14_blocked_components_stay.

(** At most cg_maxiter inner iterations. *)
Theorem C14_iteration_limit : forall N B o H xc g, wf_bounds (length xc) B -> length xc = N -> length g = N ->
  spd N H -> forall P, (forall v, length v = N -> length (papply P v) = N) ->
  forall step count, gncg_direction B o H P xc g = (step, count) -> (count <= cg_maxiter o)%nat.
Proof. exact direction_count. Qed.
Print Assumptions C14_iteration_limit.

(** With a positive definite Hessian and preconditioner, the latter not mixing free
    components with those on a bound, the direction never goes uphill, and goes
    strictly downhill as soon as the free gradient exceeds the tolerances. *)
Theorem C14_descent : forall N B o H xc g M f step count, wf_bounds (length xc) B -> length xc = N -> length g = N -> spd N H ->
  spd N M -> (forall v, length v = N -> leaves_bounds_alone B xc v -> leaves_bounds_alone B xc (M v)) ->
  0 <= cg_rtol o -> 0 <= cg_atol o -> 0 <= cg_active_scale o ->
  gncg_direction B o H (POp M) xc g = (step, count) ->
  dot g step <= 0 /\
  ((0 < cg_maxiter o)%nat -> free_part B xc g f -> cg_rtol o * norm2 f < norm2 f -> cg_atol o < norm2 f -> dot g step < 0).
Proof. exact gncg_descent_strict. Qed.
Print Assumptions C14_descent.

(** With zero tolerances and as many inner iterations as parameters the direction is
    the exact Newton step on the free components (finite termination of CG). *)
Theorem C14_exact_newton_step : forall N B o H xc g M step count, wf_bounds (length xc) B -> length xc = N -> length g = N -> spd N H ->
  spd N M -> (forall v, length v = N -> leaves_bounds_alone B xc v -> leaves_bounds_alone B xc (M v)) ->
  cg_step_active o = false -> cg_rtol o = 0 -> cg_atol o = 0 -> 0 <= cg_active_scale o -> (N <= cg_maxiter o)%nat ->
  gncg_direction B o H (POp M) xc g = (step, count) ->
  leaves_bounds_alone B xc step /\ forall i, (i < N)%nat -> ~ on_bound B xc i -> nth i (H step) 0 = - nth i g 0.
Proof. exact gncg_exact. Qed.
Print Assumptions C14_exact_newton_step.

(** If no component is on a bound and the iteration stopped before its limit, the
    Newton residual is within the requested tolerance, whatever the preconditioner. *)
Theorem C14_residual_within_tolerance : forall N B o H xc g P step count f, wf_bounds (length xc) B -> length xc = N ->
  length g = N -> spd N H -> (forall v, length v = N -> length (papply P v) = N) ->
  cg_step_active o = false -> 0 <= cg_active_scale o -> (forall i, ~ on_bound B xc i) ->
  gncg_direction B o H P xc g = (step, count) -> (count < cg_maxiter o)%nat ->
  f = g -> norm2 (vadd (H step) f) <= Rmax (cg_rtol o * norm2 f) (cg_atol o).
Proof. exact gncg_residual. Qed.
Print Assumptions C14_residual_within_tolerance.

(** Finding: with the default preconditioner, before any BFGS pair is stored, the
    search direction shares memory with the residual and is overwritten: two
    iterations do not solve a 2x2 system. *)
Theorem C14_default_preconditioner_refuted :
  exists step, gncg_direction nobounds (opts2 2) H12 PView [0; 0] [-1; -1] = (step, 2%nat) /\
  step = [13 / 15; 7 / 15] /\ H12 step <> [1; 1].
Proof. exact view_refuted. Qed.
Print Assumptions C14_default_preconditioner_refuted.

(** Finding: the preconditioner is not restricted to the free components; one that
    couples them (such as BFGS) can turn the direction uphill. *)
Theorem C14_coupling_preconditioner_refuted : exists B H M xc g, wf_bounds 2 B /\ feasible B xc /\ spd 2 H /\ spd 2 M /\
  let '(step, count) := gncg_direction B (opts2 1) H (POp M) xc g in count = 1%nat /\ 0 < dot g step.
Proof. exact coupling_refuted. Qed.
Print Assumptions C14_coupling_preconditioner_refuted.

Example C14_example : spd 2 H12 /\ spd 2 (fun v => v) /\ wf_bounds 2 (mkBounds (Array [-10; 0]) NoBound) /\
  blocked (mkBounds (Array [-10; 0]) NoBound) [0; 0] [-1; 1] 1 /\ free_part (mkBounds (Array [-10; 0]) NoBound) [0; 0] [-1; 1] [-1; 0].
Proof.
  split; [apply mv2_spd; lra|]. split; [apply id_spd|]. split; [|split].
  - split; [|split]; cbn; intros; try discriminate. injection H as <-. reflexivity.
  - left. split; [exists 0; split; [reflexivity|cbn; lra]|cbn; lra].
  - split; [reflexivity|]. intros i Hi. destruct i as [|[|i]]; cbn in Hi; try lia; split; intros Ho; cbn; auto; exfalso.
    + destruct Ho as [(l & [= <-] & Hl)|(u & Hu & _)]; [cbn in Hl; lra|discriminate].
    + apply Ho. left. exists 0. split; [reflexivity|cbn; lra].
Qed.

(** C15: the root finder always returns ... *)
Theorem C15_terminates : forall fn newton o x, exists xs r, nr_root fn newton o x = Some (xs, r).
Proof. exact nr_terminates. Qed.
Print Assumptions C15_terminates.

(** ... and its outcome says what happened: a residual below the tolerance, or
    maxIter+1 accepted points, or a line search whose every candidate was worse. *)
Theorem C15_outcome : forall fn newton o x xs r, nr_root fn newton o x = Some (xs, r) ->
  match r with
  | Converged y => y = last xs x /\ norm2 (fn y) < nr_tol o
  | IterLimit y => y = last xs x /\ length xs = S (nr_maxIter o) /\ nr_tol o <= norm2 (fn y)
  | LSBreak => nr_doLS o = true /\ forall j, (S j < nr_maxLS o \/ j = 0)%nat ->
      let z := last xs x in let y := vadd z (vscale (nr_stepDcr o ^ j) (newton z)) in
      norm2 (fn z) < norm2 (fn y) /\ nr_tol o <= norm2 (fn y)
  end.
Proof. exact nr_reports. Qed.
Print Assumptions C15_outcome.

(** With the line search on, residual norms never increase along the accepted points,
    provided the starting point is not already below the tolerance. *)
Theorem C15_residuals_decrease : forall fn newton o x xs r, nr_root fn newton o x = Some (xs, r) -> nr_doLS o = true ->
  nr_tol o <= norm2 (fn x) ->
  forall i, (S i < length (x :: xs))%nat -> norm2 (fn (nth (S i) (x :: xs) x)) <= norm2 (fn (nth i (x :: xs) x)).
Proof. exact nr_monotone. Qed.
Print Assumptions C15_residuals_decrease.

Example C15_example : exists xs, nr_root (fun x => x) vopp (mkNr (/ 100) 1 (/ 2) 2 true) [1] = Some (xs, Converged [0]) /\
  / 100 <= norm2 [1].
Proof.
  assert (E0 : norm2 [1 + - (1)] = 0) by (unfold norm2; cbn; replace ((1 + - (1)) * (1 + - (1)) + 0) with 0 by ring; apply sqrt_0).
  assert (E1 : norm2 [1] = 1) by (unfold norm2; cbn; replace (1 * 1 + 0) with 1 by ring; apply sqrt_1).
  exists [[0]]. split; [|rewrite E1; lra]. unfold nr_root. cbn [nr_loop nr_doLS nr_maxLS nr_ls Nat.sub nr_maxIter nr_tol vopp map vadd zipw].
  rewrite E0, E1. destruct (Rle_dec 0 1); [|lra]. rewrite E0. destruct (Rlt_dec 0 (/ 100)); [|lra].
  replace (1 + - (1)) with 0 by ring. reflexivity.
Qed.
