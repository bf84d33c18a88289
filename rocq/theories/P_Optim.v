(** C09-C12: line search, minimiser, bounds, step scaling. *)
From Verif Require Import Py Vec VecDeriv Optim SpecOptim OptimFacts ProjGrad ProjGradFacts.
Local Open Scope R_scope.

(** C09: a reported success is the first backtracking candidate with sufficient
    decrease (and, when asked for, the curvature condition); the number of
    objective evaluations is known and at most the limit. *)
Theorem C09_success : forall phi grad proj o w xc g p xt n,
  modifySearchDirection phi grad proj o (default_stoppersLS o w) xc g p (phi xc) = Ok (xt, true, n) ->
  exists j, (j < ls_max o)%nat /\ n = S j /\ xt = candidate proj (ls_shorten o) xc p j /\
    armijo phi (ls_reduction o) xc g xt /\
    (w = true -> wolfe_curvature grad (ls_curvature o) xc g xt) /\
    forall i, (i < j)%nat ->
      ~ (armijo phi (ls_reduction o) xc g (candidate proj (ls_shorten o) xc p i) /\
         (w = true -> wolfe_curvature grad (ls_curvature o) xc g (candidate proj (ls_shorten o) xc p i))).
Proof. exact ls_success. Qed.
Print Assumptions C09_success.

(** A reported failure means that no candidate qualified, after exactly the
    allowed number of evaluations. *)
Theorem C09_failure : forall phi grad proj o w xc g p xt n,
  modifySearchDirection phi grad proj o (default_stoppersLS o w) xc g p (phi xc) = Ok (xt, false, n) ->
  n = ls_max o /\ forall i, (i < ls_max o)%nat ->
      ~ (armijo phi (ls_reduction o) xc g (candidate proj (ls_shorten o) xc p i) /\
         (w = true -> wolfe_curvature grad (ls_curvature o) xc g (candidate proj (ls_shorten o) xc p i))).
Proof. exact ls_failure. Qed.
Print Assumptions C09_failure.

(** It always returns (for a positive limit). *)
Theorem C09_always_returns : forall phi grad proj o SL xc g p f, (0 < ls_max o)%nat ->
  exists r, modifySearchDirection phi grad proj o SL xc g p f = Ok r.
Proof. exact msd_ok. Qed.
Print Assumptions C09_always_returns.

(** Whatever the stoppers, the point handed back is a projected candidate. *)
Theorem C09_candidate : forall phi grad proj o SL xc g p f xt pass n,
  modifySearchDirection phi grad proj o SL xc g p f = Ok (xt, pass, n) ->
  exists j, xt = candidate proj (ls_shorten o) xc p j.
Proof. exact msd_feasible. Qed.
Print Assumptions C09_candidate.

(** For a differentiable objective and a descent direction the search succeeds
    once enough halvings are allowed. *)
Theorem C09_smooth_descent_succeeds : forall (f : vec -> R) grad o xc g p,
  length p = length xc -> length g = length xc ->
  has_gradient (length xc) f xc g -> dot g p < 0 ->
  0 < ls_reduction o < 1 -> 0 < ls_shorten o < 1 ->
  exists J, forall mx, (J < mx)%nat ->
    let o' := mkLs mx (ls_reduction o) (ls_curvature o) (ls_shorten o) in
    exists xt n, modifySearchDirection (fun x => Some (f x)) grad (fun x => x) o' (default_stoppersLS o' false) xc g p (Some (f xc)) = Ok (xt, true, n).
Proof. exact ls_smooth_success. Qed.
Print Assumptions C09_smooth_descent_succeeds.

Example C09_example : (* f(x) = x^2 at x = 1, direction -g = -2: full step gives f = 1, half step 0 *)
  let phi := fun x : vec => Some (dot x x) in let o := mkLs 10 (1/10000) (9/10) (1/2) in
  exists xt, modifySearchDirection phi (fun x => vscale 2 x) (fun x => x) o (default_stoppersLS o false) [1] [2] [-2] (phi [1]) = Ok (xt, true, 2%nat)
  /\ xt = [1 + 1 / 2 * -2].
Proof.
  eexists. split.
  - unfold modifySearchDirection. cbn [ls_max ls_loop]. unfold check_stoppers; cbn -[Rleb Rplus Rmult]. unfold Rleb.
    repeat match goal with |- context [Rle_dec ?a ?b] => destruct (Rle_dec a b); try (exfalso; lra) end. cbn. reflexivity.
  - f_equal. ring.
Qed.

(** C10: the minimiser stops after at most maxIter accepted steps, for any
    objective, directions, hooks and extra stoppers, as long as the iteration
    limit is among the stoppers (it is in both default lists). *)
Theorem C10_terminates : forall H phi grad proj o stoppers stoppersLS dir hook,
  In (st_iteration o) stoppers -> forall x0 (h : H),
    exists xs r e, minimize phi grad proj o stoppers stoppersLS dir hook (S (p_maxIter o)) x0 h = Some (xs, r, e)
      /\ (length xs <= p_maxIter o)%nat.
Proof. exact @minimize_terminates. Qed.
Print Assumptions C10_terminates.

(** The returned model is the last accepted one (the projected starting model when
    no step was accepted). *)
Theorem C10_returns_last : forall H phi grad proj o stoppers stoppersLS dir hook fuel s (h : H) xs r e,
  loop phi grad proj o stoppers stoppersLS dir hook fuel s h = Some (xs, r, e) -> r = final_point (o_xc s) xs.
Proof. exact @loop_returns_last. Qed.
Print Assumptions C10_returns_last.

(** Unconstrained minimisers: every accepted step decreases the objective in force
    at that step, when the directions are not ascent directions. *)
Theorem C10_steps_decrease_unbounded : forall H (phi : H -> vec -> option R) grad o stoppers dir hook wolfe n x0 h fuel xs r e,
  length x0 = n ->
  (forall s h, length (o_xc s) = n -> o_g s = grad h (o_xc s) -> length (dir s h) = n /\ dot (o_g s) (dir s h) <= 0) ->
  p_require_decrease o = true -> 0 <= ls_reduction (p_ls o) -> 0 <= ls_shorten (p_ls o) ->
  (forall s, p_maxStep o = Some s -> 0 < s) ->
  minimize phi grad (fun x => x) o stoppers (fun _ => default_stoppersLS (p_ls o) wolfe) dir hook fuel x0 h = Some (xs, r, e) ->
  steps_decrease phi x0 xs.
Proof. exact @minimize_unbounded. Qed.
Print Assumptions C10_steps_decrease_unbounded.

(** Bounded steepest descent: unconditional. *)
Theorem C10_steps_decrease_bounded_steepest : forall H (phi : H -> vec -> option R) grad B o stoppers hook wolfe n x0 h fuel xs r e,
  wf_bounds n B -> length x0 = n -> (forall h x, length x = n -> length (grad h x) = n) ->
  p_require_decrease o = true -> 0 <= ls_reduction (p_ls o) -> 0 <= ls_shorten (p_ls o) ->
  (forall s, p_maxStep o = Some s -> 0 < s) ->
  minimize phi grad (projection B) o stoppers (fun _ => default_stoppersLS (p_ls o) wolfe) (fun s _ => vopp (o_g s)) hook fuel x0 h = Some (xs, r, e) ->
  steps_decrease phi (projection B x0) xs /\ feasible B r.
Proof. exact @minimize_projected_sd. Qed.
Print Assumptions C10_steps_decrease_bounded_steepest.

(** Any minimiser, any projection: enough that the realised slope of every
    candidate is not positive. *)
Theorem C10_steps_decrease_general : forall H (phi : H -> vec -> option R) grad proj o stoppers stoppersLS dir hook (good : vec -> Prop) wolfe,
  (forall s, stoppersLS s = default_stoppersLS (p_ls o) wolfe) ->
  p_require_decrease o = true -> 0 <= ls_reduction (p_ls o) ->
  (forall s h j, good (o_xc s) -> o_g s = grad h (o_xc s) ->
    good (candidate proj (ls_shorten (p_ls o)) (o_xc s) (scaleSearchDirection (p_maxStep o) (dir s h)) j)) ->
  (forall s h j, good (o_xc s) -> o_g s = grad h (o_xc s) ->
    dot (o_g s) (vsub (candidate proj (ls_shorten (p_ls o)) (o_xc s) (scaleSearchDirection (p_maxStep o) (dir s h)) j) (o_xc s)) <= 0) ->
  forall fuel s h xs r e, good (o_xc s) -> loop phi grad proj o stoppers stoppersLS dir hook fuel s h = Some (xs, r, e) ->
    steps_decrease phi (o_xc s) xs /\ good r.
Proof. exact @loop_decreases. Qed.
Print Assumptions C10_steps_decrease_general.

(** Convex objectives (above their tangents): no assumption on the directions or on
    the projection is needed, because sufficient decrease along a positive slope is
    impossible. *)
Theorem C10_steps_decrease_convex : forall H (phi : H -> vec -> option R) grad proj o stoppers stoppersLS dir hook wolfe,
  (forall s, stoppersLS s = default_stoppersLS (p_ls o) wolfe) ->
  p_require_decrease o = true -> 0 <= ls_reduction (p_ls o) < 1 ->
  (forall h x y fx fy, phi h x = Some fx -> phi h y = Some fy -> fx + dot (grad h x) (vsub y x) <= fy) ->
  forall fuel s h xs r e, loop phi grad proj o stoppers stoppersLS dir hook fuel s h = Some (xs, r, e) ->
    steps_decrease phi (o_xc s) xs.
Proof. exact @loop_decreases_convex. Qed.
Print Assumptions C10_steps_decrease_convex.

(** For an objective that does not change during the run, the end is no worse than
    the start. *)
Theorem C10_no_worse_than_start : forall H (phi : vec -> option R) x (xs : list (H * vec)) f0,
  phi x = Some f0 -> steps_decrease (fun _ => phi) x xs ->
  exists f, phi (final_point x xs) = Some f /\ f <= f0.
Proof. exact @steps_decrease_fixed. Qed.
Print Assumptions C10_no_worse_than_start.

(** Finding: ProjectedGradient's extra line-search stopper (all variables at their
    bounds) ends the search without sufficient decrease, so a run can return a
    strictly worse model than it started from, on a convex quadratic. *)
Theorem C10_projected_gradient_refuted : forall cg, exists B phi grad o x0 xs r e f0 f,
  (forall x, length x = 1%nat -> has_gradient 1 (fun y => match phi y with Some f => f | None => 0 end) x (grad x)) /\
  p_require_decrease o = true /\ feasible B x0 /\
  pg_minimize B cg phi grad o x0 = Some (xs, r, e) /\ phi x0 = Some f0 /\ phi r = Some f /\ f0 < f.
Proof. exact pg_refuted_full. Qed.
Print Assumptions C10_projected_gradient_refuted.

Example C10_example : (* the defaults contain the iteration limit; -g is never an ascent direction *)
  forall o, In (st_iteration o) (default_stoppers (fun x => x) o) /\ In (st_iteration o) (pg_stoppers wit_B o) /\
  forall g, dot g (vopp g) <= 0.
Proof.
  intros o. split; [cbn; auto 10|]. split; [cbn; auto 10|]. intros g. rewrite dot_vopp_r. pose proof (dot_self_nonneg g). lra.
Qed.

(** C11: projection. *)
Theorem C11_projection_feasible : forall B x, wf_bounds (length x) B -> feasible B (projection B x).
Proof. exact projection_feasible. Qed.
Print Assumptions C11_projection_feasible.
Theorem C11_projection_identity_on_feasible : forall B x, wf_bounds (length x) B -> feasible B x -> projection B x = x.
Proof. exact projection_id. Qed.
Print Assumptions C11_projection_identity_on_feasible.
Theorem C11_projection_idempotent : forall B x, wf_bounds (length x) B -> projection B (projection B x) = projection B x.
Proof. exact projection_idempotent. Qed.
Print Assumptions C11_projection_idempotent.
Theorem C11_projection_nonexpansive : forall B x y, length x = length y -> wf_bounds (length x) B ->
  norm2 (vsub (projection B x) (projection B y)) <= norm2 (vsub x y).
Proof. exact projection_nonexpansive. Qed.
Print Assumptions C11_projection_nonexpansive.
Theorem C11_projection_closest : forall B x y, length x = length y -> wf_bounds (length x) B -> feasible B y ->
  norm2 (vsub x (projection B x)) <= norm2 (vsub x y).
Proof. exact projection_closest. Qed.
Print Assumptions C11_projection_closest.

(** Every iterate of every run is feasible: any objective, directions, hooks,
    stoppers, options. *)
Theorem C11_iterates_feasible : forall H (phi : H -> vec -> option R) grad B o stoppers stoppersLS dir hook n x0 h fuel xs r e,
  wf_bounds n B -> length x0 = n ->
  (forall s h, length (o_xc s) = n -> length (dir s h) = n) ->
  minimize phi grad (projection B) o stoppers stoppersLS dir hook fuel x0 h = Some (xs, r, e) ->
  feasible B r /\ length r = n /\ Forall (fun hy => feasible B (snd hy) /\ length (snd hy) = n) xs.
Proof. exact @minimize_feasible. Qed.
Print Assumptions C11_iterates_feasible.

(** The active set is the set of components at a bound, the inactive set its
    complement, the binding set those whose descent direction leaves the box. *)
Theorem C11_active_set : forall B x i, wf_bounds (length x) B -> (i < length x)%nat ->
  (nth i (activeSet B x) false = true <-> at_lower B x i \/ at_upper B x i).
Proof. exact activeSet_iff. Qed.
Print Assumptions C11_active_set.
Theorem C11_inactive_set : forall B x i, wf_bounds (length x) B -> (i < length x)%nat ->
  (nth i (inactiveSet B x) true = true <-> ~ (at_lower B x i \/ at_upper B x i)).
Proof. exact inactiveSet_iff. Qed.
Print Assumptions C11_inactive_set.
Theorem C11_binding_set : forall B g x i, wf_bounds (length x) B -> length g = length x -> (i < length x)%nat ->
  (nth i (bindingSet B g x) false = true <->
     (at_lower B x i /\ 0 <= nth i g 0) \/ (at_upper B x i /\ nth i g 0 <= 0)).
Proof. exact bindingSet_iff. Qed.
Print Assumptions C11_binding_set.
(** When everything is binding, the point is stationary: no gradient step moves it. *)
Theorem C11_all_binding_stationary : forall B g x t, wf_bounds (length x) B -> length g = length x -> feasible B x -> 0 <= t ->
  (forall i, (i < length x)%nat -> nth i (bindingSet B g x) false = true) ->
  projection B (vsub x (vscale t g)) = x.
Proof. exact all_binding_stationary. Qed.
Print Assumptions C11_all_binding_stationary.

Example C11_example : let B := mkBounds (Scalar 0) (Array [1; 2]) in
  wf_bounds 2 B /\ feasible B [0; 1] /\ projection B [-3; 5] = [0; 2].
Proof.
  cbn zeta. split; [|split].
  - split; [|split]; cbn.
    + intros l [= <-]; reflexivity.
    + intros l [= <-]; reflexivity.
    + intros i l u Hi [= <-] [= <-]. destruct i as [|[|i]]; cbn; try lra; lia.
  - intros i Hi. destruct i as [|[|i]]; cbn in *; try lra; lia.
  - cbn. unfold Rmax, Rmin. repeat destruct (Rle_dec _ _); try (exfalso; lra); reflexivity.
Qed.

(** C12: scaling shrinks the direction without turning it ... *)
Theorem C12_scaling_shrinks : forall ms p, (forall s, ms = Some s -> 0 < s) ->
  exists c, 0 < c <= 1 /\ scaleSearchDirection ms p = vscale c p.
Proof. exact scale_is_shrink. Qed.
Print Assumptions C12_scaling_shrinks.

(** ... and limits every component when the largest one in size is positive. *)
Theorem C12_limits_partial : forall s p, 0 < s ->
  (forall x, In x p -> exists mx, In mx p /\ Rabs x <= mx) ->
  forall x, In x (scaleSearchDirection (Some s) p) -> Rabs x <= s.
Proof. exact scale_bounded_above. Qed.
Print Assumptions C12_limits_partial.

(** Finding: [abs(p.max())] instead of [abs(p).max()]: large negative components
    pass the limit. *)
Theorem C12_limits_refuted : exists s p, 0 < s /\ exists x, In x (scaleSearchDirection (Some s) p) /\ s < Rabs x.
Proof. exact scale_refuted. Qed.
Print Assumptions C12_limits_refuted.

Example C12_example : forall x, In x [-1; 3] -> exists mx, In mx [-1; 3] /\ Rabs x <= mx.
Proof. intros x Hx. exists 3. split; [cbn; auto|]. destruct Hx as [<-|[<-|[]]]; unfold Rabs; destruct (Rcase_abs _); lra. Qed.
