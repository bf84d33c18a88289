(** C22, C23: elementwise property maps, their inverses and derivatives. *)
From Verif Require Import Py Vec VecDeriv Frechet MapsM PropMaps SpecPropMaps PropMapsFacts MapsIdx SpecMapsIdx MapsIdxFacts.
Local Open Scope R_scope.

(** The transform acts cell by cell, by the documented formula. *)
Theorem C22_value : forall p m, params_ok (length m) p -> pm_tr p m = Ok (cells p m).
Proof. exact tr_spec. Qed.
Print Assumptions C22_value.
Theorem C22_inverse_of_transform_partial : forall p m, params_ok (length m) p -> in_dom p m ->
  exists y, pm_tr p m = Ok y /\ length y = length m /\ in_range p y /\ pm_inv p y = Ok m.
Proof. exact round_trip_1. Qed.
Print Assumptions C22_inverse_of_transform_partial.
Theorem C22_transform_of_inverse_partial : forall p u, params_ok (length u) p -> in_range p u ->
  exists m, pm_inv p u = Ok m /\ length m = length u /\ in_dom p m /\ pm_tr p m = Ok u.
Proof. exact round_trip_2. Qed.
Print Assumptions C22_transform_of_inverse_partial.
(** Bounds accepted for several cells satisfy the hypotheses above. *)
Theorem C22_accepted_bounds : forall n lo up p, (1 < n)%nat -> logistic_init (Some n) lo up = Ok p -> params_ok n p.
Proof. exact logistic_params. Qed.
Print Assumptions C22_accepted_bounds.
(** With one cell, longer bounds are accepted and the round trip returns another size. *)
Theorem C22_one_cell_bounds_refuted : forall x, exists p, logistic_init (Some 1%nat) [0; 0] [1; 1] = Ok p /\
  pm_tr p [x] = Ok [0 + (1 - 0) * expit x; 0 + (1 - 0) * expit x] /\ forall y, pm_tr p [x] = Ok y -> pm_inv p y <> Ok [x].
Proof. exact logistic_one_cell. Qed.
Print Assumptions C22_one_cell_bounds_refuted.
Theorem C22_injection_inverse_of_transform : forall b v s m, inject_init b v = Ok s -> length m = count b ->
  exists y, inject_apply s m = Ok y /\ inject_inverse s y = Ok m.
Proof. exact inject_round_1. Qed.
Print Assumptions C22_injection_inverse_of_transform.
Theorem C22_injection_transform_of_inverse : forall b v s u, inject_init b v = Ok s -> length u = length b ->
  pick (map negb b) u = inactive_vals (count (map negb b)) v ->
  exists m, inject_inverse s u = Ok m /\ inject_apply s m = Ok u.
Proof. exact inject_round_2. Qed.
Print Assumptions C22_injection_transform_of_inverse.
Example C22_example : exists p, logistic_init (Some 2%nat) [0] [10; 20] = Ok p /\ params_ok 2 p /\ in_dom p [1; -1] /\ in_range p [5; 15] /\
  params_ok 2 (PWeight [2; 3]) /\ in_dom PRecip [1; -1] /\ in_range PExp [1; 3].
Proof.
  eexists. split; [unfold logistic_init; cbn; destruct (Req_EM_T (10 - 0) 0); [lra|]; destruct (Req_EM_T (20 - 0) 0); [lra|]; reflexivity|].
  split.
  - split; [right; reflexivity|]. split; [left; reflexivity|]. intros [|[|i]] H; cbn; [lra|lra|lia].
  - split; [intros i _; exact I|]. split; [|split; [|split]].
    + intros [|[|i]] H; cbn in *; [| |lia]; rewrite Rmin_left, Rmax_right by lra; lra.
    + split; [left; reflexivity|]. intros [|[|i]] H; cbn; [lra|lra|lia].
    + intros [|[|i]] H; cbn in *; [lra|lra|lia].
    + intros [|[|i]] H; cbn in *; [lra|lra|lia].
Qed.

(** C23: with the number of parameters given, one weight per cell, and logarithms of
    values above the tolerance. *)
Theorem C23_deriv_is_derivative_partial : forall p m,
  (0 < length m)%nat -> params_ok (length m) p -> in_dom p m -> deriv_dom p m ->
  exists J, pm_deriv p (Some (length m)) m None = Ok (DSp J) /\ frechet (length m) (length m) (cells p) m J /\
    forall v, length v = length m -> pm_deriv p (Some (length m)) m (Some v) = Ok (DV (mv J v)).
Proof. exact pm_deriv_ok. Qed.
Print Assumptions C23_deriv_is_derivative_partial.
(** The logarithm of a positive value below 1e-16 has derivative zero in the code. *)
Theorem C23_small_log_refuted : forall x, 0 < x < / 10000000000000000 ->
  pm_deriv PLog (Some 1%nat) [x] (Some [1]) = Ok (DV [0]) /\ derivable_pt_lim ln x (/ x) /\ / x <> 0.
Proof. exact log_small. Qed.
Print Assumptions C23_small_log_refuted.
(** One weight broadcast over two cells: the matrix has one row and column. *)
Theorem C23_short_weights_refuted : forall a b c m,
  pm_tr (PWeight [c]) [a; b] = Ok [c * a; c * b] /\ pm_deriv (PWeight [c]) (Some 2%nat) m None = Ok (DSp [[c]]).
Proof. exact short_weights. Qed.
Print Assumptions C23_short_weights_refuted.
(** Without a number of parameters the susceptibility and permeability maps raise. *)
Theorem C23_wildcard_refuted : forall p m, In p [PChi; PMuRel] -> pm_deriv p None m None = Err ValueError.
Proof. exact wildcard_scalings. Qed.
Print Assumptions C23_wildcard_refuted.
Example C23_example : params_ok 2 (PLogistic [0] [10; 20]) /\ in_dom PLog [1; 2] /\ deriv_dom PLog [1; 2].
Proof.
  split; [split; [right; reflexivity|]; split; [left; reflexivity|]; intros [|[|i]] H; cbn; [lra|lra|lia]|].
  split; intros [|[|i]] H; cbn in *; try lia; lra.
Qed.
