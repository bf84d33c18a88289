{
 "claims": [
  {
   "property": "C01",
   "status": "proved",
   "theorems": [
    "C01_slice_position",
    "C01_slices_partition",
    "C01_slices_inside",
    "C01_member_pair",
    "C01_foreign_pair_raises",
    "C01_all_slices_agree"
   ],
   "note": ""
  },
  {
   "property": "C02",
   "status": "proved",
   "theorems": [
    "C02_indexed_is_map",
    "C02_flat_is_concat",
    "C02_foreign_raises",
    "C02_wrong_size_raises"
   ],
   "note": ""
  },
  {
   "property": "C03",
   "status": "partial",
   "theorems": [
    "C03_nD_matches_slices",
    "C03_nD_matches_slices_refuted"
   ],
   "note": "Refuted in general (finding: the survey's vnD cache survives a change of sources or receivers); proved when no count is read before the last change."
  },
  {
   "property": "C04",
   "status": "partial",
   "theorems": [
    "C04_uncertainty_formula",
    "C04_constructor_defined",
    "C04_assignment_effect",
    "C04_invalid_assignment_rejected",
    "C04_standard_deviation_roundtrip",
    "C04_rejected_std_keeps_state_refuted"
   ],
   "note": "Formula proved for every history. Finding: a rejected standard_deviation assignment has already replaced relative_error by zeros."
  },
  {
   "property": "C05",
   "status": "partial",
   "theorems": [
    "C05_misfit_value",
    "C05_nonfinite_raises",
    "C05_deriv_is_gradient",
    "C05_deriv2_gauss_newton",
    "C05_std_weights_symmetric",
    "C05_linear_expansion",
    "C05_deriv2_nonsymmetric_refuted"
   ],
   "note": "Value, gradient and Hessian proved for the diagonal (symmetric) weights built from the uncertainties. Finding: deriv2 applies W twice instead of W^T W, so a user-assigned non-symmetric W gives a wrong Hessian (refuted)."
  },
  {
   "property": "C06",
   "status": "partial",
   "theorems": [
    "C06_weights_current",
    "C06_nonpositive_std_raises",
    "C06_assigned_weights_used",
    "C06_weights_frozen_after_read",
    "C06_weights_current_refuted"
   ],
   "note": "Refuted in general (finding: W is cached on first read and never refreshed when the data uncertainties change); proved while W has not been read or was assigned after the change."
  },
  {
   "property": "C07",
   "status": "partial",
   "theorems": [
    "C07_value_of_sum",
    "C07_value_of_scaling",
    "C07_scaling_always_succeeds",
    "C07_value_of_quotient",
    "C07_sum_from_zero",
    "C07_builtin_sum_refuted",
    "C07_deriv_of_sum",
    "C07_deriv_of_scaling",
    "C07_deriv2_of_sum",
    "C07_deriv2_of_scaling",
    "C07_deriv_is_gradient",
    "C07_size_conflict_raises",
    "C07_l2_gradient",
    "C07_l2_hessian"
   ],
   "note": "Proved for +, *, / and sum(l, Zero()). Finding: the plain builtin sum(l) raises TypeError because its start value 0 is refused."
  },
  {
   "property": "C08",
   "status": "proved",
   "theorems": [
    "C08_stacked_weights_value",
    "C08_stacked_weights_hessian"
   ],
   "note": ""
  },
  {
   "property": "C09",
   "status": "proved",
   "theorems": [
    "C09_success",
    "C09_failure",
    "C09_always_returns",
    "C09_candidate",
    "C09_smooth_descent_succeeds"
   ],
   "note": ""
  },
  {
   "property": "C10",
   "status": "partial",
   "theorems": [
    "C10_terminates",
    "C10_returns_last",
    "C10_steps_decrease_unbounded",
    "C10_steps_decrease_bounded_steepest",
    "C10_steps_decrease_general",
    "C10_steps_decrease_convex",
    "C10_no_worse_than_start",
    "C10_projected_gradient_refuted"
   ],
   "note": "Termination, returned model and monotone decrease proved for unbounded runs, projected steepest descent and convex objectives. Finding: ProjectedGradient can return a worse model than it started with on a convex quadratic (refuted)."
  },
  {
   "property": "C11",
   "status": "proved",
   "theorems": [
    "C11_projection_feasible",
    "C11_projection_identity_on_feasible",
    "C11_projection_idempotent",
    "C11_projection_nonexpansive",
    "C11_projection_closest",
    "C11_iterates_feasible",
    "C11_active_set",
    "C11_inactive_set",
    "C11_binding_set",
    "C11_all_binding_stationary"
   ],
   "note": ""
  },
  {
   "property": "C12",
   "status": "partial",
   "theorems": [
    "C12_scaling_shrinks",
    "C12_limits_partial",
    "C12_limits_refuted"
   ],
   "note": "Refuted in general (finding: maxStep scaling uses abs(p.max()), so large negative components pass the limit); proved when the largest component in size is positive."
  },
  {
   "property": "C13",
   "status": "partial",
   "theorems": [
    "C13_symmetric_positive_definite",
    "C13_direction_descends",
    "C13_secant_partial",
    "C13_secant_refuted",
    "C13_pair_mismatch_refuted",
    "C13_no_pair_while_marching_refuted"
   ],
   "note": "Symmetric positive definiteness and descent proved for every history. Findings: the latest pair is unused between 2 and nbfgs stored pairs, and stored gradient and model differences belong to different steps (refuted secant equation)."
  },
  {
   "property": "C14",
   "status": "partial",
   "theorems": [
    "C14_blocked_components_stay",
    "C14_iteration_limit",
    "C14_descent",
    "C14_exact_newton_step",
    "C14_residual_within_tolerance",
    "C14_default_preconditioner_refuted",
    "C14_coupling_preconditioner_refuted"
   ],
   "note": "Proved for fresh-array preconditioners that do not couple free and bound components (blocked components, iteration limit, descent, exact Newton step after N iterations). Findings: the default preconditioner's result aliases the residual, and coupling preconditioners can give an uphill direction (refuted)."
  },
  {
   "property": "C15",
   "status": "proved",
   "theorems": [
    "C15_terminates",
    "C15_outcome",
    "C15_residuals_decrease"
   ],
   "note": ""
  },
  {
   "property": "C16",
   "status": "proved",
   "theorems": [
    "C16_one_definition"
   ],
   "note": ""
  },
  {
   "property": "C17",
   "status": "proved",
   "theorems": [
    "C17_reciprocal_values",
    "C17_both_readable",
    "C17_reciprocal_derivative"
   ],
   "note": ""
  },
  {
   "property": "C18",
   "status": "partial",
   "theorems": [
    "C18_cached_read_partial",
    "C18_drift_refuted",
    "C18_in_place_refuted",
    "C18_broadcast_refuted"
   ],
   "note": "Refuted in general: np.allclose lets the model drift by any amount, in-place edits and one-element broadcasts keep stale caches. Proved for histories without these."
  },
  {
   "property": "C19",
   "status": "partial",
   "theorems": [
    "C19_rollback_in_sync_partial",
    "C19_rollback_first_model_partial",
    "C19_foreign_model_refuted",
    "C19_resize_refuted",
    "C19_grandchild_refuted",
    "C19_deleted_model_refuted"
   ],
   "note": "Refuted in general (nested object with its own model, resized mapping, second-level nesting after 'no model', after del model). Proved for any depth when all nested objects hold the parent's model, and for the first assignment with one level of nesting."
  },
  {
   "property": "C20",
   "status": "partial",
   "theorems": [
    "C20_shape",
    "C20_incompatible_raises",
    "C20_application",
    "C20_chain_rule_partial",
    "C20_dense_product_refuted",
    "C20_wildcard_deriv_refuted",
    "C20_wildcard_shape_refuted"
   ],
   "note": "Shape, size checks, application and the chain rule proved for every chain (any nesting) whose elementary maps return their derivative as a sparse matrix or symbolic identity. Refuted in general: dense LinearMap matrices are multiplied elementwise; scaling maps of unspecified size cannot be differentiated; a map of unspecified size between two incompatible ones hides the clash until application."
  },
  {
   "property": "C21",
   "status": "partial",
   "theorems": [
    "C21_value",
    "C21_deriv_partial",
    "C21_matrix_partial",
    "C21_alias_refuted",
    "C21_argument_overwritten_refuted",
    "C21_row_refuted"
   ],
   "note": "Value proved in general; deriv(m, v) and untouched arguments proved when the first part is not the plain identity; deriv(m) proved for parts that return sparse matrices. Refuted in general: with an identity first the caller's v is overwritten (and [I, I, I] gives 4v); diagonal parts given by a 1-D array make deriv(m) a 1-D array."
  },
  {
   "property": "C22",
   "status": "partial",
   "theorems": [
    "C22_value",
    "C22_inverse_of_transform_partial",
    "C22_transform_of_inverse_partial",
    "C22_accepted_bounds",
    "C22_one_cell_bounds_refuted",
    "C22_injection_inverse_of_transform",
    "C22_injection_transform_of_inverse"
   ],
   "note": "Both round trips proved for every map and size with usable parameters (non-zero scalings, bounds that fit the model). Refuted: for a one-cell map, longer logistic bounds are accepted and the round trip changes the size."
  },
  {
   "property": "C23",
   "status": "partial",
   "theorems": [
    "C23_deriv_is_derivative_partial",
    "C23_small_log_refuted",
    "C23_short_weights_refuted",
    "C23_wildcard_refuted"
   ],
   "note": "Proved (Frechet derivative, and deriv(m, v) = deriv(m) v) with the number of parameters given, one weight per cell, logarithm arguments at least 1e-16. Refuted outside: log of positive values below 1e-16, a single broadcast weight, susceptibility/permeability maps of unspecified size."
  },
  {
   "property": "C24",
   "status": "partial",
   "theorems": [
    "C24_wires_partition",
    "C24_wires_duplicate_raises",
    "C24_negative_wire_refuted",
    "C24_projection_accepts",
    "C24_projection_picks",
    "C24_projection_mask",
    "C24_boolean_list_refuted",
    "C24_injection_value",
    "C24_injection_deriv",
    "C24_reassigned_active_refuted",
    "C24_surject_full",
    "C24_vertical",
    "C24_vertical_deriv",
    "C24_surject_2d_3d",
    "C24_surject_2d_3d_deriv",
    "C24_units",
    "C24_units_deriv"
   ],
   "note": "All routing statements proved for every size. Refuted corners: a negative wire length is accepted, a Python list of booleans projects values and derivative differently, and reassigning active_cells leaves the injection matrix behind."
  },
  {
   "property": "C25",
   "status": "partial",
   "theorems": [
    "C25_float_partial",
    "C25_nan_refuted",
    "C25_integer",
    "C25_rounds_first_refuted"
   ],
   "note": "Refuted in general (validate_float accepts NaN for any bounds; validate_integer rounds towards zero before comparing, so -0.5 passes a lower bound 0); proved that non-NaN floats are accepted exactly within inclusive/exclusive bounds, and integers exactly when the rounded value is within bounds."
  },
  {
   "property": "C26",
   "status": "proved",
   "theorems": [
    "C26_string",
    "C26_string_rejects",
    "C26_string_canonical",
    "C26_shape",
    "C26_shape_size",
    "C26_active_indices",
    "C26_active_mask",
    "C26_active_other"
   ],
   "note": "String alias canonicalisation, shape matching with atleast_nd padding, active-cell masks from boolean masks and (possibly negative) indices. casefold is an arbitrary function."
  },
  {
   "property": "C27",
   "status": "partial",
   "theorems": [
    "C27_read_latest",
    "C27_sources_separate",
    "C27_frame",
    "C27_unwritten_raises",
    "C27_not_writable",
    "C27_not_writable_dict",
    "C27_no_overlap",
    "C27_alias_read",
    "C27_dictionary",
    "C27_failed_write_refuted",
    "C27_other_source_refuted",
    "C27_slice_refuted"
   ],
   "note": "Refuted in part (a write that raises, or a write to another source, makes an unwritten field readable as zeros; slices of sources select columns by position when sources own several columns); proved: latest-value read-back over every history, frame, aliases read-only, unknown names raise, dictionary writes."
  },
  {
   "property": "C28",
   "status": "partial",
   "theorems": [
    "C28_read_latest",
    "C28_frame",
    "C28_in_range",
    "C28_paired_lists_refuted"
   ],
   "note": "Refuted for a list of sources with a list of times (numpy pairs them); proved for every other key: read-back and frame over every history. Aliased time fields are not modelled."
  },
  {
   "property": "C29",
   "status": "proved",
   "theorems": [
    "C29_closed_form",
    "C29_positive",
    "C29_never_increases"
   ],
   "note": ""
  },
  {
   "property": "C30",
   "status": "partial",
   "theorems": [
    "C30_target",
    "C30_stops_first",
    "C30_new_survey_refuted"
   ],
   "note": "Refuted in general (the number of data is cached at first use, so changing the survey leaves the old target); proved: for a fixed survey the target is always the last one asked for and runs stop at the first iteration below it."
  },
  {
   "property": "C31",
   "status": "partial",
   "theorems": [
    "C31_before_start",
    "C31_after_start",
    "C31_beta",
    "C31_reweightings",
    "C31_exact_fit_refuted",
    "C31_flat_model_refuted",
    "C31_norms_lost_refuted"
   ],
   "note": "Refuted in general (an exact fit after the start raises; a zero percentile at the start raises; after a run that never reaches the start misfit the user's norms are lost); proved for all histories that do not raise: norms, thresholds, reweighting bound and direction of beta."
  },
  {
   "property": "C32",
   "status": "partial",
   "theorems": [
    "C32_raw",
    "C32_maximum",
    "C32_minimum",
    "C32_positive",
    "C32_order",
    "C32_global_refuted",
    "C32_zero_minimum_refuted",
    "C32_percentile_refuted"
   ],
   "note": "Refuted in general (with the global method weights fall below the threshold; minimum normalisation divides by zero if a zero weight is left; percentile thresholds above 100 raise); proved: raw weights formula, maximum exactly 1, minimum exactly 1 for positive thresholds, amplitude lower bound, positivity and order."
  },
  {
   "property": "C33",
   "status": "partial",
   "theorems": [
    "C33_fields_belong_partial",
    "C33_in_place_refuted",
    "C33_simulation_change_refuted"
   ],
   "note": "Refuted in general (models are compared by identity, so an array changed in place or a changed simulation keeps the fields stored by a line search); proved for all histories in which nothing changes between a storing evaluation and the next."
  },
  {
   "property": "C34",
   "status": "partial",
   "theorems": [
    "C34_own_fields_partial",
    "C34_mixed_terms_refuted"
   ],
   "note": "Refuted in general (a term without a simulation shifts the fields of the following misfits); proved when misfits with simulations come first."
  },
  {
   "property": "C35",
   "status": "partial",
   "theorems": [
    "C35_dpred",
    "C35_Jvec_is_derivative",
    "C35_adjoint",
    "C35_diagonal_partial",
    "C35_sum_dpred",
    "C35_sum_adjoint",
    "C35_repeated",
    "C35_touched_refuted",
    "C35_diagonal_cache_refuted",
    "C35_sum_diagonal_refuted"
   ],
   "note": "Refuted in general (an inner simulation used directly stays out of step; a cached diagonal ignores new weights; the diagonal of a sum omits the products between simulations); proved: after any history of calls through the meta simulation, dpred is the concatenation of the parts, Jvec its derivative, Jtvec the adjoint, the same for sums and repeated simulations; diagonal proved for mappings in which each parameter feeds at most one output."
  },
  {
   "property": "C36",
   "status": "partial",
   "theorems": [
    "C36_partition",
    "C36_schedules",
    "C36_terminates",
    "C36_sum_partial",
    "C36_after_error_refuted",
    "C36_without_error",
    "C36_stale_reply_refuted",
    "C36_sum_refuted"
   ],
   "note": "Refuted in general (after a worker raised while computing fields or setting the model there is one reply too many, so later calls fail or return the reply to an earlier call; the summing variant stacks within a worker when there are fewer processes than simulations); proved: partition in order for every number of processes, and for simulations that do not raise every schedule terminates with the serial answers for every history of calls."
  },
  {
   "property": "C37",
   "status": "partial",
   "theorems": [
    "C37_trapezoid",
    "C37_quarter_sine",
    "C37_half_sine",
    "C37_triangle",
    "C37_ramp_off",
    "C37_ramp_off_partial",
    "C37_vtem_partial",
    "C37_exponential",
    "C37_piecewise_linear",
    "C37_piecewise_straight",
    "C37_vtem_refuted",
    "C37_step_off_refuted",
    "C37_ramp_off_refuted",
    "C37_overlap_refuted",
    "C37_set_off_refuted",
    "C37_triangle_refuted"
   ],
   "note": "Refuted in general (VTEM is negative before time 0 with a reported derivative of 0; a step-off ended before 0 is on at 0; ramp-off jumps by its tolerance; overlapping trapezoid ramps give the wrong derivative; off_time assigned later is unchecked or ignored); proved for all times for ordered trapezoid, quarter-sine, half-sine, triangular, exponential, piecewise linear, ramp-off without tolerance, and VTEM from time 0."
  },
  {
   "property": "C38",
   "status": "partial",
   "theorems": [
    "C38_spherical",
    "C38_round_trip_partial",
    "C38_round_trip_refuted",
    "C38_chained_refuted",
    "C38_other_way_partial",
    "C38_layout",
    "C38_layout_back",
    "C38_layout_error",
    "C38_dip_azimuth",
    "C38_dip_azimuth_accepts",
    "C38_coterminal",
    "C38_coterminal_unique",
    "C38_plane",
    "C38_plane_defined"
   ],
   "note": "Round trip refuted in general (spherical2cartesian adds 1e-8 to the amplitude, and the flat results cannot be chained); proved that every vector returns exactly 1e-8 longer in the same direction, and the other parts in full, with define_plane_from_points."
  },
  {
   "property": "C39",
   "status": "partial",
   "theorems": [
    "C39_block",
    "C39_create_block",
    "C39_corners",
    "C39_dimension_refuted",
    "C39_sphere",
    "C39_two_layers_partial",
    "C39_two_layers_refuted",
    "C39_two_layers_1d",
    "C39_layers",
    "C39_layers_up_partial",
    "C39_layers_refuted",
    "C39_ellipse_2d",
    "C39_ellipse_3d",
    "C39_random"
   ],
   "note": "Refuted in general (two-layer values are swapped, bottom-up layers get one another's values, wrong-dimension corners accepted, 1-D two-layer model always raises); proved: blocks for every choice of corners, spheres, top-down layers, ellipses and the bounds of the random model."
  },
  {
   "property": "C40",
   "status": "partial",
   "theorems": [
    "C40_positive_partial",
    "C40_positive_refuted",
    "C40_two",
    "C40_decreasing",
    "C40_unscaled",
    "C40_limit",
    "C40_gradient"
   ],
   "note": "Refuted in general (zero kernel with p < 1 and scaling gives zero weights); proved positivity otherwise, p = 2, monotonicity, the Lp approximation and its limit, and that scaled weights keep the gradient below its l2 maximum."
  },
  {
   "property": "C41",
   "status": "partial",
   "theorems": [
    "C41_registry",
    "C41_value_partial",
    "C41_gradient",
    "C41_hessian",
    "C41_newton",
    "C41_half_refused_refuted",
    "C41_no_weights_refuted",
    "C41_late_active_refuted",
    "C41_shared_mesh_refuted",
    "C41_face_weights_refuted"
   ],
   "note": "Refuted in general (a set_weights call refused halfway leaves the old product in use, no weights raises, active cells given after an evaluation or through another term leave stale operators, second-order terms accept face weights they cannot use); proved for all other histories: registry of weights, value, gradient, Hessian symmetric and positive semidefinite."
  },
  {
   "property": "C42",
   "status": "proved",
   "theorems": [
    "C42_round_trip",
    "C42_history",
    "C42_refused",
    "C42_defaults",
    "C42_not_both",
    "C42_multipliers",
    "C42_value"
   ],
   "note": "Constants and length scales over the reals; nan and infinite values are not modelled."
  },
  {
   "property": "C43",
   "status": "partial",
   "theorems": [
    "C43_class",
    "C43_banded",
    "C43_full",
    "C43_diagonal",
    "C43_ones",
    "C43_default_refuted"
   ],
   "note": "Refuted for the default k (every call raises TypeError); proved for every k > 0: class sums, exact for banded matrices and k >= n, and bounds for random vectors."
  },
  {
   "property": "C44",
   "status": "partial",
   "theorems": [
    "C44_data",
    "C44_jacobian",
    "C44_adjoint",
    "C44_derivative",
    "C44_count_refuted"
   ],
   "note": "Refuted in general (G set later leaves the survey's number of data unchanged); proved data, Jacobian, adjoint and derivative for every state reachable through the API. Array or mapping arguments of the wrong shape raise and are not part of the theorems."
  },
  {
   "property": "C45",
   "status": "proved",
   "theorems": [
    "C45_times",
    "C45_sums",
    "C45_increasing",
    "C45_compact",
    "C45_plain",
    "C45_padding",
    "C45_append"
   ],
   "note": "All histories of assignments, rejected assignments, reads and deletions. discretize's TensorMesh and unpack_widths are modelled by their documented meaning."
  },
  {
   "property": "C46",
   "status": "partial",
   "theorems": [
    "C46_projection_current",
    "C46_projection_unstored",
    "C46_projection_stale_refuted",
    "C46_time_projection_grid_refuted"
   ],
   "note": "Refuted in general (findings: stored projections survive a change of locations; time receivers ignore the requested grids on a cache hit); proved when locations are not reassigned or projections are not stored."
  },
  {
   "property": "C47",
   "status": "partial",
   "theorems": [
    "C47_source_indices_block",
    "C47_source_indices_concat",
    "C47_source_indices_all",
    "C47_source_indices_unknown",
    "C47_receiver_indices_refuted"
   ],
   "note": "Source lookups proved. Finding: BaseSrc.get_receiver_indices raises TypeError for the source's own receivers."
  },
  {
   "property": "C48",
   "status": "proved",
   "theorems": [
    "C48_engines",
    "C48_range",
    "C48_decreasing",
    "C48_single",
    "C48_order",
    "C48_rejects"
   ],
   "note": "Exact reals; distances plus threshold positive (monotonicity for threshold > 0). cdist_opts choose another metric and are outside the comparison of engines. No cells or no reference locations raise or give nan and are excluded."
  },
  {
   "property": "C49",
   "status": "partial",
   "theorems": [
    "C49_wiener",
    "C49_inside",
    "C49_order_refuted"
   ],
   "note": "Refuted in general (the Hashin-Shtrikman bounds are returned in the wrong order, strictly so for every proper mixture); proved that both lie between the Wiener bounds, which lie between the conductivities."
  },
  {
   "property": "C50",
   "status": "partial",
   "theorems": [
    "C50_counts",
    "C50_entries",
    "C50_quiet",
    "C50_total",
    "C50_intervals",
    "C50_raising_refuted",
    "C50_recursive_refuted"
   ],
   "note": "Refuted in general (a raising timed call leaves minus its start time, a recursive call closes the inner interval twice); proved counts and numbers of entries for all programs, totals when all calls return, and individual intervals without recursion."
  },
  {
   "property": "C51",
   "status": "partial",
   "theorems": [
    "C51_deriv_partial",
    "C51_deriv_refuted",
    "C51_history",
    "C51_stale_refuted",
    "C51_inverse_partial",
    "C51_projection",
    "C51_projection_refuted"
   ],
   "note": "Refuted in general (derivative wrong past a pole, stale after in-place changes, amplitudes drift by 1e-8 per projection); proved away from the poles and without in-place changes."
  },
  {
   "property": "C53",
   "status": "partial",
   "theorems": [
    "C53_history",
    "C53_raises",
    "C53_atomic_refuted"
   ],
   "note": "Refuted when a term was set on its own (a rejected assignment undoes it); proved for all histories of assignments of norms."
  },
  {
   "property": "C54",
   "status": "partial",
   "theorems": [
    "C54_turns",
    "C54_gradient_partial",
    "C54_second_order_refuted"
   ],
   "note": "Refuted for second order (it always raises); proved for first order: turns, and the gradient away from the cut for gradients whose rows are differences."
  },
  {
   "property": "C52",
   "status": "partial",
   "theorems": [
    "C52_bounds",
    "C52_eigenvector",
    "C52_monotone",
    "C52_converges",
    "C52_scaled",
    "C52_indefinite_refuted"
   ],
   "note": "Refuted in general (indefinite second derivatives: the estimate can stay at -7/25 for diag(1,-1)); proved bounds, exactness on eigenvectors, monotonicity and convergence for symmetric semidefinite combinations, and scaling with multipliers. Random starts are arbitrary vectors; zero norms give None."
  },
  {
   "property": "C55",
   "status": "partial",
   "theorems": [
    "C55_beta_bounds",
    "C55_beta_scaled",
    "C55_beta_derivative_refuted",
    "C55_alphas",
    "C55_alphas_again_refuted",
    "C55_misfits",
    "C55_iterations_refuted",
    "C55_joint",
    "C55_joint_step",
    "C55_joint_list_refuted",
    "C55_joint_bounds_refuted"
   ],
   "note": "Refuted in general (zero model gives no finite beta, initializing alphas twice scales twice, n_pw_iter ignored for misfit scales, list multipliers raise, joint schedule leaves its bounds); proved beta bounds and homogeneity, alpha relation, positive balanced misfit scales with sum 1, joint schedule invariant over all histories."
  },
  {
   "property": "C57",
   "status": "partial",
   "theorems": [
    "C57_operator",
    "C57_frozen",
    "C57_stale_refuted",
    "C57_index_refuted"
   ],
   "note": "Refuted in general (parameters assigned after the first read are ignored; more kernels raise IndexError); proved for parameters set before the first read."
  },
  {
   "property": "C56",
   "status": "partial",
   "theorems": [
    "C56_exists",
    "C56_bruggeman",
    "C56_inverse",
    "C56_deriv",
    "C56_range",
    "C56_ends",
    "C56_fixed",
    "C56_spheres",
    "C56_tolerance_refuted",
    "C56_history_refuted",
    "C56_outside_refuted",
    "C56_no_iterations_refuted"
   ],
   "note": "Refuted in general (the absolute tolerance and starting point of the first transform are kept after the conductivities change, results depend on earlier fractions, one fraction outside [0,1] collapses the result to one number, zero iterations raise); proved existence, uniqueness, inverse, derivative, range for all histories and convergence with error bound for spheres. random=False and aspect ratios other than 1 in the convergence theorem are not covered."
  },
  {
   "property": "C58",
   "status": "partial",
   "theorems": [
    "C58_linear_correspondence",
    "C58_cross_gradient_derivatives",
    "C58_cross_gradient_sign",
    "C58_normalised_cross_gradient",
    "C58_parallel_gradients",
    "C58_joint_total_variation",
    "C58_zero_eps_refuted",
    "C58_full_gradient",
    "C58_full_gradient_hessian",
    "C58_full_gradient_weights",
    "C58_directions",
    "C58_components",
    "C58_active_alphas",
    "C58_active_directions_refuted",
    "C58_all_directions",
    "C58_models"
   ],
   "note": "Refuted in general (directions given per active cell always fail the default orthonormality check; eps of the joint total variation is not validated, and at eps = 0 every constant model divides by zero); proved: gradients, Hessians, both Hessian forms, symmetry, semidefiniteness, signs, bounds and the directional meaning of the anisotropy. The mesh operators (cell gradient, averaging, face inner product) are arguments."
  },
  {
   "property": "C59",
   "status": "partial",
   "theorems": [
    "C59_layer_derivative",
    "C59_block_derivative",
    "C59_ellipsoid_derivative",
    "C59_casing_derivative",
    "C59_block_in_layer_derivative",
    "C59_values_between",
    "C59_circle_derivative",
    "C59_circle_roles_refuted",
    "C59_layer_formula_refuted",
    "C59_layer_formula",
    "C59_poly2_side",
    "C59_poly2_derivative",
    "C59_poly3_derivative_partial",
    "C59_poly3_derivative_refuted",
    "C59_spline2_derivative_partial",
    "C59_spline2_normal_x_refuted",
    "C59_spline2_stale_refuted",
    "C59_spline3_derivative_partial",
    "C59_spline3_top_refuted",
    "C59_layer_history",
    "C59_layer_active_refuted",
    "C59_layer_rows",
    "C59_layer_1d_refuted"
   ],
   "note": "Refuted in general (the 3-D polynomial map reads its coefficients in another order than its derivative; the spline map's derivative is zero for normal x and for the top boundary, uses the last evaluated model, and raises before the first evaluation; the circle's two values play the opposite of the documented roles; the layer does not compute its documented formula; coordinates are kept when active cells change; the layer cannot be evaluated in 1-D); proved: exact derivatives of layer, block, ellipsoid, casing, block in layer, circle, 2-D polynomial, 3-D polynomial with one order zero, 2-D spline with normal y after evaluating the same model, 3-D spline along bottom directions; values between the given values; every evaluation uses the cells active at the first one."
  },
  {
   "property": "C60",
   "status": "partial",
   "theorems": [
    "C60_cell",
    "C60_row",
    "C60_unique",
    "C60_raises",
    "C60_total",
    "C60_distance",
    "C60_bounds",
    "C60_reciprocity",
    "C60_gridline_refuted",
    "C60_data",
    "C60_derivative",
    "C60_adjoint",
    "C60_stale_refuted",
    "C60_after_error_refuted"
   ],
   "note": "Refuted in general (a ray along an interior grid line counts twice; the matrix is not rebuilt when mesh or survey is replaced; after a ray outside the mesh raised, later calls return zeros); proved: exact length in every cell, total length, bounds, reciprocity, data/derivative/adjoint for every history that keeps mesh and survey. Floating-point rounding is not modelled."
  },
  {
   "property": "C61",
   "status": "partial",
   "theorems": [
    "C61_current",
    "C61_value",
    "C61_solves",
    "C61_derivative",
    "C61_inverse",
    "C61_adjoint",
    "C61_matrix",
    "C61_no_map",
    "C61_reciprocal",
    "C61_new_mapping_refuted",
    "C61_new_mesh_refuted",
    "C61_deleted_refuted",
    "C61_close_model_refuted"
   ],
   "note": "Refuted in general (stored matrices survive a new mapping, a new mesh, deleting the property, and a model within np.allclose of the old one); proved for all other histories: matrices, inverses, derivatives, adjoint and matrix forms. Isotropic properties on meshes with linear inner products; several directions at once not modelled."
  },
  {
   "property": "C62",
   "status": "partial",
   "theorems": [
    "C62_values",
    "C62_theta_range",
    "C62_k_range",
    "C62_monotone",
    "C62_haverkamp_theta_derivM",
    "C62_haverkamp_k_derivM",
    "C62_van_genuchten_theta_derivM",
    "C62_van_genuchten_k_derivM",
    "C62_haverkamp_theta_derivU",
    "C62_haverkamp_k_derivU",
    "C62_van_genuchten_theta_derivU",
    "C62_van_genuchten_k_derivU",
    "C62_haverkamp",
    "C62_van_genuchten",
    "C62_integer_heads_refuted",
    "C62_integer_heads_van_genuchten_refuted",
    "C62_slope_at_saturation_refuted"
   ],
   "note": "Refuted in two corners (integer head arrays truncate the saturated conductivity; derivU of van Genuchten's conductivity at head exactly 0 for n <= 2, default 1.56); proved otherwise: values, ranges, monotonicity, derivM and derivU of all four relations, factory functions. Exact real arithmetic."
  },
  {
   "property": "C63",
   "status": "partial",
   "theorems": [
    "C63_blocks",
    "C63_newton_matrix",
    "C63_sensitivity",
    "C63_full",
    "C63_adjoint_partial",
    "C63_fields",
    "C63_refuses",
    "C63_history",
    "C63_face_conductivity",
    "C63_head_method_refuted",
    "C63_stale_data_refuted",
    "C63_stale_adjoint_refuted",
    "C63_no_fields_refuted"
   ],
   "note": "Refuted in general (method 'head' gives matrices that are not the Jacobian; with given fields dpred and Jtvec evaluate Saturation receivers at the model stored before; Jtvec without fields always raises because it calls self.field); proved for the method 'mixed' with exact solvers: blocks, Newton matrix, Jvec along solution branches, Jfull, adjointness with the argument stored. Face conductivity is the harmonic mean divided by twice the averaging weight, so with discretize's weights 1/(2 dim) it is dim times the harmonic mean."
  },
  {
   "property": "C64",
   "status": "partial",
   "theorems": [
    "C64_fields",
    "C64_data",
    "C64_source",
    "C64_jacobian",
    "C64_adjoint",
    "C64_nodal_symmetric",
    "C64_cell_symmetric",
    "C64_getJ",
    "C64_store",
    "C64_jtjdiag",
    "C64_history",
    "C64_neumann_refuted",
    "C64_kept_fields_refuted",
    "C64_survey_refuted",
    "C64_cell_source_refuted",
    "C64_jtjdiag_refuted"
   ],
   "note": "Refuted in general: with Neumann conditions the replaced row is not differentiated (Jvec wrong and not adjoint to Jtvec for pole receivers); fields kept while another model is factored give products with the later factorisation; a replaced survey keeps the old source terms; two electrodes in one cell overwrite each other's current; getJtJdiag ignores model and weights after the first call. Proved otherwise: fields, data, derivative, adjoint, getJ, storeJ and independence of history, for Robin/Dirichlet conditions and exact solvers. Model comparison is exact (np.allclose is treated in C61). Fields other than potentials (projField e or j) are not modelled."
  },
  {
   "property": "C65",
   "status": "partial",
   "theorems": [
    "C65_same",
    "C65_adjoint",
    "C65_poles",
    "C65_current_refuted",
    "C65_apparent_refuted",
    "C65_zero_dipole_refuted",
    "C65_cell_refuted",
    "C65_survey_left_refuted"
   ],
   "note": "Refuted in general: currents other than 1, apparent resistivities and zero-length dipoles are lost, the cell-centred formulation is not reciprocal (closest cell against interpolation), and an exception in dpred leaves the pole-pole survey in place. Proved for nodal simulations with Robin conditions, unit currents, voltages and distinct electrodes."
  },
  {
   "property": "C66",
   "status": "partial",
   "theorems": [
    "C66_maxwell",
    "C66_dipole",
    "C66_same",
    "C66_symmetric",
    "C66_jacobian",
    "C66_adjoint",
    "C66_getJ",
    "C66_jtjdiag",
    "C66_history",
    "C66_sources_per_frequency_refuted",
    "C66_dipole_mu_refuted",
    "C66_h_secondary_refuted",
    "C66_component_refuted",
    "C66_forward_only_refuted",
    "C66_new_survey_refuted",
    "C66_source_removed_refuted",
    "C66_source_added_refuted",
    "C66_kept_fields_refuted",
    "C66_kept_fields_data_refuted",
    "C66_jtjdiag_weights_refuted",
    "C66_columns_refuted"
   ],
   "note": "Refuted in general: with more than one source at a frequency and a mapped permeability Jvec and Jtvec raise ValueError in the e and j formulations; in the h and j formulations with a mapped permeability the derivative of the source term of a magnetic dipole is left out; secondary h receivers have data but Jvec raises TypeError; receivers with component both/complex raise AttributeError; forward_only simulations have no Jvec; a survey with more frequencies raises IndexError on a used simulation; replacing the source list of a survey raises KeyError or gives zero data for new sources; Jvec and dpred with kept fields use the factorisation and source terms of the last model; getJtJdiag ignores weights after the first call; f[[s1, s2], 'b'] mixes sources in the e formulation. Proved otherwise: Maxwell equations and uniqueness, equality of formulations, symmetry, derivative, adjoint, getJ, JtJ diagonal and independence of history. Real arithmetic, complex numbers as pairs, exact solver; sources are RawVec and MagDipole in a uniform whole space (the other sources differ in how the primary vectors are computed); charge density, charge and current-loop primaries are not modelled."
  },
  {
   "property": "C67",
   "status": "partial",
   "theorems": [
    "C67_maxwell_bh",
    "C67_maxwell_ej",
    "C67_rate_steady",
    "C67_rate_ramp",
    "C67_agree_be",
    "C67_agree_hj",
    "C67_initial_current",
    "C67_jacobian_partial",
    "C67_gradient_partial",
    "C67_adjoint_partial",
    "C67_last_time_refuted",
    "C67_threshold_refuted",
    "C67_rate_refuted",
    "C67_grounded_e_refuted",
    "C67_one_step_refuted",
    "C67_grounded_j_refuted",
    "C67_missing_fields_refuted",
    "C67_dipole_refuted",
    "C67_no_fields_refuted"
   ],
   "note": "Refuted in general: Jvec leaves out the last time node (simulation.py 228-265); steps closer than dt_threshold (1e-8 s by default) are solved with a stale matrix; FormJ takes the change of the source over the wrong step (2549-2555); Jtvec of grounded wires is wrong for e unless the first two steps are equal, raises with one step, and forgets the initial condition for h and j; b and h receivers raise in FormE/FormJ; a dipole with initial fields ignores its waveform until the second time step's length has passed. Proved: unique discrete Maxwell evolution for all four formulations with steps that are equal or further apart than the threshold (for j with a source of steady rate), agreement b/e and h/j, charge balance of the initial fields, Jvec is the Jacobian when no receiver uses the last time, Jtvec is the exact adjoint of the Jacobian for all receivers when start_ok."
  },
  {
   "property": "C68",
   "status": "partial",
   "theorems": [
    "C68_gravity_matrix",
    "C68_magnetic_matrix_scalar",
    "C68_magnetic_matrix_vector",
    "C68_gravity_engines",
    "C68_magnetic_engines",
    "C68_magnetization_refuted",
    "C68_negative_amplitude_refuted",
    "C68_gravity_forward_geoana",
    "C68_gravity_forward_choclo",
    "C68_magnetic_forward_geoana",
    "C68_magnetic_forward_choclo",
    "C68_gravity_transpose",
    "C68_gravity_adjoint",
    "C68_magnetic_adjoint",
    "C68_diagonal_components_refuted",
    "C68_diagonal_receivers_refuted",
    "C68_diagonal_equal_weights_partial",
    "C68_diagonal_single_partial",
    "C68_active_geoana",
    "C68_active_choclo",
    "C68_active_magnetic",
    "C68_refine_x",
    "C68_refine_y",
    "C68_refine_z",
    "C68_uniform",
    "C68_tmi_geoana",
    "C68_tmi_choclo",
    "C68_guv",
    "C68_scalar_is_vector"
   ],
   "note": "Refuted in general: the choclo matrix-free diagonal uses the weight of the location index, so several components or several receiver objects with unequal weights give a wrong diagonal; choclo ignores a magnetization M set by the user; a negative inducing amplitude makes the two engines differ in tmi. Proved: order and contents of the matrices for any prior array contents, agreement of the engines (positive amplitude, default M, given that the two libraries give the same prism values), forward-only data = matrix times model, transpose and adjoint, diagonal for equal weights or a single receiver and component, active cells, refinement and uniform models, component relations. The closed forms of geoana and choclo are parameters."
  },
  {
   "property": "C69",
   "status": "partial",
   "theorems": [
    "C69_history_partial",
    "C69_derivative",
    "C69_adjoint",
    "C69_forward_only",
    "C69_survey_refuted",
    "C69_magnetization_refuted",
    "C69_old_file_refuted",
    "C69_shared_file_refuted",
    "C69_close_models_refuted",
    "C69_model_in_place_refuted",
    "C69_amplitude_switch_refuted",
    "C69_default_weights_refuted",
    "C69_diagonal_refuted",
    "C69_not_implemented"
   ],
   "note": "Refuted in general: the stored matrix survives a change of survey or magnetization; a file of the right shape is taken for the sensitivities and a shared file changes them; for amplitude data the unit vectors of the previous model are kept for a model np.allclose to it, for an array changed in place and after switching is_amplitude_data; getJtJdiag without weights raises IndexError for amplitudes; the diagonal misses mixed terms when a parameter feeds two cells. Proved: every history of queries with a fixed survey answers from scratch (amplitude models equal or not close), forward-only fields after any assignments, derivative and adjoint of components and amplitudes, refusals of geoana without stored sensitivities. Kernels and the property map are parameters."
  },
  {
   "property": "C70",
   "status": "partial",
   "theorems": [
    "C70_amplitude_value_partial",
    "C70_amplitude_value_refuted",
    "C70_matrix_weights_ignored",
    "C70_smoothness_value_partial",
    "C70_matrix_weights_raise",
    "C70_amplitude_rotation",
    "C70_smoothness_rotation",
    "C70_amplitude_gradient_partial",
    "C70_amplitude_gradient_refuted",
    "C70_smoothness_gradient_partial",
    "C70_amplitude_newton",
    "C70_smoothness_newton",
    "C70_cross_value",
    "C70_cross_zero",
    "C70_cross_gradient",
    "C70_cross_second",
    "C70_vector_reference_refuted",
    "C70_cell_reference_raises"
   ],
   "note": "Refuted in general: deriv of the amplitude terms multiplies the derivative of the mapping by the model instead of the mapped model, so it is wrong for nonlinear mappings; weights of shape (nC, n_comp) are accepted but ignored by AmplitudeSmallness and raise in AmplitudeSmoothnessFirstOrder; with the default mapping a vector reference model is refused. Proved: value formulas for all other accepted weights, rotation invariance, gradient/second derivative for linear mappings; value, zero set, gradient (any differentiable mapping) and deriv2 of the cross reference term for all accepted weights. The smoothness theorems ask that no array size can be read both as cell and face weights."
  },
  {
   "property": "C71",
   "status": "partial",
   "theorems": [
    "C71_gravity_round_trip_partial",
    "C71_magnetic_round_trip_partial",
    "C71_gradient_round_trip_partial",
    "C71_gravity_same_file",
    "C71_magnetic_same_file",
    "C71_gradient_same_file",
    "C71_gravity_blank_lines",
    "C71_magnetic_blank_lines",
    "C71_gradient_cut",
    "C71_gravity_cut_refuted",
    "C71_magnetic_cut_refuted",
    "C71_gravity_zero_refuted",
    "C71_magnetic_zero_refuted",
    "C71_gradient_zero_refuted",
    "C71_gravity_component_refuted",
    "C71_magnetic_component_refuted",
    "C71_gradient_unchanged_refuted"
   ],
   "note": "Refuted in general (data that are all zero come back as nan, or for gradients as their standard deviations; components other than gz/tmi are read back as gz/tmi; a cut gravity or magnetic file makes the reader loop for ever; writing a gradient file renames the components of the receivers in place, so a second write raises); proved: round trips of gz, tmi and any list of gradient components for data not all zero, rewriting gives the same file, blank lines do not matter, a cut gradient file is refused. Text is modelled as tokens except the gradient header; printing is an abstract rounding that keeps sign and zero."
  },
  {
   "property": "C72",
   "status": "partial",
   "theorems": [
    "C72_order",
    "C72_number_of_data",
    "C72_electrodes",
    "C72_electrodes_exact",
    "C72_accepted",
    "C72_sources",
    "C72_tables",
    "C72_without_b",
    "C72_far_dipole_refuted"
   ],
   "note": "Refuted in general (dipoles whose ends differ by less than 1e-5 of the coordinates, for instance 5 m at 500 km, become poles); proved: the order is a permutation, one datum per row, the reported electrodes are those of the rows up to that merging, and tables are accepted exactly when different pairs (A, B) are a millimetre apart (otherwise an error). Exact reals."
  },
  {
   "property": "C73",
   "status": "partial",
   "theorems": [
    "C73_round_trip",
    "C73_columns_partial",
    "C73_columns_refuted",
    "C73_line_refuted",
    "C73_line_without_data_refuted",
    "C73_single_row_refuted"
   ],
   "note": "Refuted in general (values are taken from the reduced table by the column number of the file, so a file whose data column has another number than in the request gives another column; with one coordinate per electrode the columns are shifted by one; one-row files cannot be read); proved: round trip with the standard headers, and what is read when the numbers agree. Exact reals, printing is any function."
  },
  {
   "property": "C74",
   "status": "partial",
   "theorems": [
    "C74_calls",
    "C74_own_objects",
    "C74_reused_directive_refuted",
    "C74_shared_optimizer_refuted",
    "C74_shared_directive_refuted",
    "C74_reference_first",
    "C74_reference_kept",
    "C74_reference_refuted"
   ],
   "note": "Refuted in general (a reused directive keeps the regularization and misfit of the earlier inversion; a shared optimizer sends the end-of-iteration calls to the inversion made last; a shared directive acts on the later inversion; a second run keeps the first starting model as reference); proved: order and number of calls for any history when no later inversion took the optimizer, and objects seen when the directives were not shared or reused."
  },
  {
   "property": "C75",
   "status": "partial",
   "theorems": [
    "C75_maxwell",
    "C75_split_layer",
    "C75_split_bottom",
    "C75_half_space",
    "C75_data_partial",
    "C75_jacobian",
    "C75_adjoint",
    "C75_diagonal_partial",
    "C75_history_partial",
    "C75_diagonal_refuted",
    "C75_data_refuted",
    "C75_complex_refuted"
   ],
   "note": "Refuted in general (getJtJdiag returns its first answer for other weights; a receiver with several locations gets one number; complex receivers get none and make the Jacobian fail or repeat the row of the receiver before); proved: impedances solve Maxwell's equations, splitting layers, half-space values, data, Jvec, Jtvec and the diagonal for one-location non-complex receivers (the diagonal when no model entry feeds both properties), history independence of everything but the diagonal. Thicknesses broadcast from a single value not modelled."
  },
  {
   "property": "C76",
   "status": "partial",
   "theorems": [
    "C76_separations",
    "C76_all_separations",
    "C76_listed_separations",
    "C76_horizontal_refuted",
    "C76_similarity",
    "C76_reciprocity",
    "C76_polarity",
    "C76_whole_is_half_of_half",
    "C76_pole_limit",
    "C76_own_factors",
    "C76_other_factors",
    "C76_whole_space_partial",
    "C76_half_space_partial",
    "C76_current_refuted",
    "C76_buried_refuted",
    "C76_moved_refuted",
    "C76_unset",
    "C76_derivative",
    "C76_adjoint",
    "C76_whole_from_voltage",
    "C76_half_from_voltage",
    "C76_stabiliser_refuted",
    "C76_pseudo_flat_partial",
    "C76_pole_depth_refuted",
    "C76_slope_refuted"
   ],
   "note": "Refuted in general (the factor ignores the current of the source, so apparent-resistivity data are resistivity times current; it uses the surface formula for buried electrodes; it is not renewed when electrodes move; a negative factor near the stabiliser doubles the result; a pole source between its receiver electrodes has infinite pseudo-depth; on slopes the pseudo-location is displaced in the wrong direction; separations documented as horizontal are not); proved: separations, similarity, reciprocity, polarity, pole limit, own factors per pair, resistivity of homogeneous whole and half spaces for unit current, error bound with the stabiliser, derivative and adjoint, pseudo-locations on flat ground."
  },
  {
   "property": "C77",
   "status": "partial",
   "theorems": [
    "C77_physics",
    "C77_range",
    "C77_split_layer",
    "C77_split_bottom",
    "C77_few_thicknesses",
    "C77_many_thicknesses_refuted",
    "C77_filter_points",
    "C77_homogeneous_partial",
    "C77_several_refuted",
    "C77_four_refuted",
    "C77_multipole_refuted",
    "C77_jacobian",
    "C77_adjoint",
    "C77_no_maps_refuted",
    "C77_history_partial",
    "C77_filters",
    "C77_survey_refuted",
    "C77_filter_refuted"
   ],
   "note": "Refuted in general (surplus thicknesses are silently ignored; receivers with two or three apparent resistivities cannot be simulated because the factors are broadcast over the wrong axis, and with as many data as filter radii the values are wrong; multipole sources are refused; Jvec/Jtvec raise when nothing is mapped; exchanging the survey leaves the old coefficients in use; exchanging the filter leaves the stored Jacobian); proved: the kernel is the solution of the layered equations, range, splitting, filter points, homogeneous ground for single-datum apparent resistivities and all voltages, Jacobian, adjoint, histories of calls for models told apart by allclose."
  },
  {
   "property": "C78",
   "status": "partial",
   "theorems": [
    "C78_seigel",
    "C78_uniform",
    "C78_jacobian",
    "C78_adjoint",
    "C78_history",
    "C78_map_refuted",
    "C78_kept_fields_refuted",
    "C78_sigma_refuted",
    "C78_jtjdiag_refuted",
    "C78_mini_refuted"
   ],
   "note": "Refuted in general (nonlinear mappings of the chargeability give data and Jvec that are not those of the chargeability; dpred with kept fields returns the last prediction or None; a new sigma is half used; getJtJdiag keeps the first weights; apparent chargeabilities of miniaturized surveys raise KeyError); proved for linear mappings: Seigel's definition, uniform ground, Jacobian, adjoint and independence of the history of calls. Three-dimensional simulations only."
  },
  {
   "property": "C79",
   "status": "partial",
   "theorems": [
    "C79_checked",
    "C79_error",
    "C79_lines",
    "C79_once_partial",
    "C79_electrodes_partial",
    "C79_one_profile",
    "C79_unit",
    "C79_ends",
    "C79_straight",
    "C79_crooked",
    "C79_lost",
    "C79_one_source_refuted",
    "C79_depth_refuted",
    "C79_across_refuted",
    "C79_origin_refuted"
   ],
   "note": "Refuted in general (a line whose sources share their A electrode in plan is lost; sources below each other share their data; dipoles across a line become poles; the origin is the A electrode of the lexicographically first pair, not of the first source); proved: lines and their data, each datum exactly once if and only if different pairs differ along the profile, electrodes in that case, distances."
  },
  {
   "property": "C80",
   "status": "partial",
   "theorems": [
    "C80_schedule",
    "C80_no_schedule",
    "C80_rule",
    "C80_positive",
    "C80_monotone",
    "C80_reached",
    "C80_close",
    "C80_stop",
    "C80_saved_partial",
    "C80_file",
    "C80_saved_refuted",
    "C80_zero_misfit_refuted",
    "C80_zero_coupling_refuted",
    "C80_target_refuted",
    "C80_validate"
   ],
   "note": "Refuted in general (the saved list of trade-off parameters is the one the schedule changes in place afterwards, so memory and file differ when saving comes first; a misfit with multiplier zero shifts values against targets; a zero coupling multiplier makes the last regularization the coupling term; chifact_target is ignored after its first use); proved for non-zero multipliers: pairing of schedule, rule and bounds, stopping, files, what memory holds."
  },
  {
   "property": "C81",
   "status": "partial",
   "theorems": [
    "C81_round_trip3_partial",
    "C81_round_trip2_partial",
    "C81_sticky_refuted",
    "C81_mixed_refuted",
    "C81_utm_refuted",
    "C81_surface_poles_refuted",
    "C81_dpred_refuted"
   ],
   "note": "Refuted in general (once a pole source or receiver was read, all later ones are poles; mixed receivers of a source cannot be read; numpy.allclose takes dipoles for poles at large coordinates; pole receivers of 3D surface files lose a coordinate; writing predicted DC data overwrites the uncertainties); proved: round trips of 2D and 3D files for surveys of one kind whose dipoles can be told apart. The simple 2D format is not in this model."
  },
  {
   "property": "C82",
   "status": "partial",
   "theorems": [
    "C82_accepted",
    "C82_missing",
    "C82_simple",
    "C82_data_first_refuted",
    "C82_one_simple_row_refuted",
    "C82_no_uncertainties_refuted",
    "C82_line_refuted",
    "C82_line_without_data_refuted"
   ],
   "note": "Refuted in general (data in the first column of a file come back as x coordinates; single-row simple files and writing without uncertainties raise); proved: the exact condition of acceptance of XYZ files, errors for missing headers, and the round trip of the simple format with two or more data."
  },
  {
   "property": "C83",
   "status": "partial",
   "theorems": [
    "C83_topography",
    "C83_topography_accepted",
    "C83_on_surface_partial",
    "C83_elevation_partial",
    "C83_survey_partial",
    "C83_together",
    "C83_accepted",
    "C83_twice",
    "C83_neighbour_refuted",
    "C83_line_twice_refuted",
    "C83_stale_refuted",
    "C83_multipole_refuted",
    "C83_single_point_refuted",
    "C83_indices_refuted",
    "C83_one_column_refuted"
   ],
   "note": "Refuted in general (with cells of different sizes a point gets the elevation of a neighbouring column; kept tables undo moves of sources; multipole sources lose electrodes; single points and integer indices raise); proved: the exact topography with the exact condition of its existence, on-surface for meshes with one horizontal cell size (points, heights, surveys), survey shape and tables for any mesh, and idempotence in three dimensions."
  },
  {
   "property": "C84",
   "status": "partial",
   "theorems": [
    "C84_values_partial",
    "C84_noise",
    "C84_reported",
    "C84_deviation_refuted",
    "C84_clean_refuted",
    "C84_truthy_refuted",
    "C84_imaginary_refuted",
    "C84_complex_refuted"
   ],
   "note": "Refuted in general (noiseless data share their array with the clean data; the reported deviation is that of the noisy datum; add_noise other than the object True is ignored; imaginary parts get no noise and are dropped by the base-class dpred); proved: noise formula, reported uncertainties, and value semantics of all programs that share no array."
  },
  {
   "property": "C85",
   "status": "partial",
   "theorems": [
    "C85_impedance",
    "C85_tipper",
    "C85_admittance_refuted",
    "C85_admittance_when",
    "C85_components",
    "C85_conductivity",
    "C85_impedance_2d",
    "C85_impedance_1d",
    "C85_remote_1d_refuted",
    "C85_tipper_2d",
    "C85_admittance_2d",
    "C85_derivative",
    "C85_adjoint",
    "C85_diagonal_refuted"
   ],
   "note": "Refuted in general (the admittance is not H E^-1; 1D impedances ignore the magnetic locations; diagonal 1D/2D impedances have unusable derivatives); proved: impedance, tipper, conductivity and component formulas, exact derivatives and adjoints of every other receiver."
  },
  {
   "property": "C86",
   "status": "partial",
   "theorems": [
    "C86_every_solve",
    "C86_nonnegative",
    "C86_needs_sensitivities",
    "C86_jacobi_refuted",
    "C86_multipliers_refuted",
    "C86_order_refuted",
    "C86_zero_refuted",
    "C86_plain_refuted",
    "C86_update_wj_refuted"
   ],
   "note": "Refuted in general (the misfit enters without its factor two and the multipliers of combinations are ignored, so the result is not the Jacobi preconditioner; stale when listed before the beta schedule; a Zero second derivative or a single non-combination regularization raises AttributeError; Update_Wj always raises AttributeError); proved: within a factor two of Jacobi at every solve when multipliers are one and the directive comes last, nonnegative always, sensitivities required."
  },
  {
   "property": "C87",
   "status": "partial",
   "theorems": [
    "C87_data",
    "C87_trapezoid",
    "C87_jacobian",
    "C87_symmetric",
    "C87_adjoint",
    "C87_getJ",
    "C87_history_partial",
    "C87_stale_refuted",
    "C87_neumann_refuted",
    "C87_bc_type_refuted"
   ],
   "note": "Refuted in general (nodal Robin simulations keep the product of boundary matrix and mapping derivative of the first model, so Jvec and Jtvec are wrong at later models of nonlinear mappings; cell-centred Neumann data are not those of the discrete equation; assigning bc_type keeps old boundary matrices); proved for new objects, and for any history of calls without such a product."
  },
  {
   "property": "C88",
   "status": "partial",
   "theorems": [
    "C88_data",
    "C88_superposition",
    "C88_dc",
    "C88_jacobian",
    "C88_adjoint",
    "C88_getJ",
    "C88_history_partial",
    "C88_getJ_history_refuted",
    "C88_new_rho_refuted",
    "C88_new_map_refuted",
    "C88_neumann_refuted",
    "C88_one_source",
    "C88_current",
    "C88_current_total",
    "C88_current_active",
    "C88_current_uniform_partial",
    "C88_current_refuted",
    "C88_head",
    "C88_head_refuted",
    "C88_diagonal",
    "C88_given"
   ],
   "note": "Refuted in general (CurrentDensityMap with active cells closes every face between cells of different volume; HydraulicHeadMap has the opposite sign of its documentation; getJ without storeJ is that of the first model for nonlinear mappings; with storeJ Jvec ignores a new resistivity or mapping; products are not adjoint with Neumann conditions); proved for new objects, for histories of calls, and on meshes of equal volumes."
  },
  {
   "property": "C89",
   "status": "partial",
   "theorems": [
    "C89_stack",
    "C89_times",
    "C89_data",
    "C89_jacobian",
    "C89_adjoint",
    "C89_adjoint_order",
    "C89_adjoint_partial",
    "C89_adjoint_refuted",
    "C89_times_refuted",
    "C89_history",
    "C89_history_fields_refuted",
    "C89_history_jvec_refuted",
    "C89_store_refuted",
    "C89_diagonal_refuted",
    "C89_projection",
    "C89_voltage_refuted"
   ],
   "note": "Refuted in general (three-dimensional Jtvec reads its data receiver by receiver while predictions are time by time, so with several receivers and times it is not the adjoint; receivers with times of their own give Jvec of another length and a KeyError in Jtvec; three-dimensional stored J and getJtJdiag always fail with AttributeError; passed fields are ignored in favour of the last prediction; two-dimensional Jvec uses the chargeabilities of the last fields call; dc_voltage becomes one); proved for data, derivatives, the two-dimensional adjoint, one receiver or one time, and the order in which the adjoint holds."
  },
  {
   "property": "C90",
   "status": "partial",
   "theorems": [
    "C90_stop",
    "C90_truncated_refuted",
    "C90_exact_refuted",
    "C90_theta_refuted",
    "C90_normalization_refuted",
    "C90_order_refuted",
    "C90_monotone",
    "C90_one_at_a_time",
    "C90_mode",
    "C90_not_due",
    "C90_cool",
    "C90_warm",
    "C90_cool_again",
    "C90_cool_ratio",
    "C90_tolerance_refuted"
   ],
   "note": "Refuted in general (one target given for several misfits makes zip ignore the others; exact evaluation of the smallness with TriggerSmall always fails because of a keyword the function has not; TriggerTheta fails with AttributeError for sums of regularizations and without a mixture; the normalization by weights never happens since ~ of a bool is never false; a schedule listed before the targets cannot be initialized; the tolerance is not used for cooling in the first mode); proved for stopping with a target for each misfit, histories of assignments, and the schedule."
  },
  {
   "property": "C91",
   "status": "partial",
   "theorems": [
    "C91_pulse",
    "C91_pulse_rate",
    "C91_pulse_steps",
    "C91_early",
    "C91_memory",
    "C91_refine",
    "C91_rate",
    "C91_abrupt_refuted",
    "C91_fields",
    "C91_start_refuted",
    "C91_negative_refuted",
    "C91_none_refuted",
    "C91_log_bound",
    "C91_log_pulse",
    "C91_log_rate",
    "C91_log_on_refuted",
    "C91_step",
    "C91_lengths"
   ],
   "note": "Refuted in general (a waveform that ends while on gets a dh/dt that is not the derivative of h, a sign in the sum is wrong and cancels only if the current begins and ends at zero; a waveform that is on from its first sample silently gives zero decay or fails; negative currents after the last positive one are ignored and a waveform without positive currents fails; the log-uniform field during a pulse is a constant, twice the difference of susceptibilities, though its rate is not zero); proved for pulses, sampled waveforms in the remaining cases and log-uniform rates."
  },
  {
   "property": "C92",
   "status": "partial",
   "theorems": [
    "C92_average",
    "C92_local_active",
    "C92_integral",
    "C92_range_partial",
    "C92_uniform",
    "C92_uniform_refuted",
    "C92_same_mesh",
    "C92_derivative",
    "C92_accepted"
   ],
   "note": "Refuted in general (a uniform model does not stay uniform: a local cell that is partly active gets the value times its active fraction, since the sum is divided by the whole volume. This is what keeps the integral, which the repository's test checks, but it is not an average over the active cells; tol is checked but never used); proved: integrals divided by whole volumes for any number of components, local active cells, conservation of the integral, range for wholly active cells, identity on the same mesh, linearity and exactly when a map is refused."
  },
  {
   "property": "C93",
   "status": "partial",
   "theorems": [
    "C93_convolution",
    "C93_times",
    "C93_causal",
    "C93_steady",
    "C93_nodes",
    "C93_trapezoid",
    "C93_jump_refuted"
   ],
   "note": "Refuted in general (a jump of the current, as of a trapezoid whose ramp on has no length, is left out, so that a steady response stays after the current has returned to zero); proved for waveforms that are continuous at their nodes: the integral, causality, independence of added nodes, steady responses and trapezoids. Exactness of the quadrature between nodes is a hypothesis."
  },
  {
   "property": "C94",
   "status": "partial",
   "theorems": [
    "C94_used_partial",
    "C94_before",
    "C94_never_refuted",
    "C94_others",
    "C94_others_refuted",
    "C94_ready",
    "C94_no_target_refuted"
   ],
   "note": "Refuted in general (the directive looks for smoothness terms one level too high: the parts of a PGI are weighted least squares, so it never gives them the reference, and without PGI_UpdateParameters they use none; in a sum it gives the reference to the smoothness terms of other regularizations, which do not use it unless their own flag is on; without MultiTargetMisfits the first iteration fails. With PGI_UpdateParameters terms follow every later update, and its option keep_ref_fixed_in_Smooth is used nowhere); proved with PGI_UpdateParameters, before readiness, and for when an iteration is ready."
  }
 ]
}