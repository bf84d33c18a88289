# Axioms behind every property theorem

Written by `tools/assumptions.py` from the output of `Print Assumptions`.
All axioms are those of Coq's standard library.

## none (closed under the global context)

C01_all_slices_agree, C01_foreign_pair_raises, C01_member_pair, C01_slice_position, C01_slices_inside, C01_slices_partition, C02_flat_is_concat, C02_foreign_raises, C02_indexed_is_map, C02_wrong_size_raises, C03_nD_matches_slices, C03_nD_matches_slices_refuted, C07_scaling_always_succeeds, C16_one_definition, C20_application, C20_incompatible_raises, C20_shape, C24_projection_accepts, C26_active_indices, C26_active_mask, C26_active_other, C26_shape, C26_shape_size, C26_string, C26_string_canonical, C26_string_rejects, C27_alias_read, C27_dictionary, C27_failed_write_refuted, C27_frame, C27_no_overlap, C27_not_writable, C27_not_writable_dict, C27_other_source_refuted, C27_read_latest, C27_slice_refuted, C27_sources_separate, C27_unwritten_raises, C28_frame, C28_in_range, C28_paired_lists_refuted, C28_read_latest, C33_fields_belong_partial, C36_partition, C42_multipliers, C43_default_refuted, C46_projection_current, C46_projection_stale_refuted, C46_projection_unstored, C46_time_projection_grid_refuted, C47_receiver_indices_refuted, C47_source_indices_all, C47_source_indices_block, C47_source_indices_concat, C47_source_indices_unknown, C50_quiet, C58_models, C63_no_fields_refuted, C74_calls, C74_own_objects, C74_reference_first, C74_reference_kept, C74_reference_refuted, C74_reused_directive_refuted, C74_shared_directive_refuted, C74_shared_optimizer_refuted, C80_validate, C82_no_uncertainties_refuted, C88_given, C90_order_refuted

## `ClassicalDedekindReals.sig_forall_dec`

C05_nonfinite_raises, C07_builtin_sum_refuted, C07_size_conflict_raises, C09_always_returns, C09_candidate, C20_wildcard_deriv_refuted, C21_argument_overwritten_refuted, C21_matrix_partial, C21_value, C24_negative_wire_refuted, C24_surject_2d_3d, C24_vertical, C24_wires_duplicate_raises, C24_wires_partition, C38_layout, C38_layout_back, C38_layout_error, C50_recursive_refuted, C64_source, C65_poles, C84_complex_refuted

## `ClassicalDedekindReals.sig_forall_dec`, `FunctionalExtensionality.functional_extensionality_dep`

C04_assignment_effect, C04_invalid_assignment_rejected, C04_rejected_std_keeps_state_refuted, C05_deriv2_gauss_newton, C05_deriv2_nonsymmetric_refuted, C05_deriv_is_gradient, C05_linear_expansion, C05_misfit_value, C05_std_weights_symmetric, C07_deriv2_of_scaling, C07_deriv2_of_sum, C07_deriv_is_gradient, C07_deriv_of_scaling, C07_deriv_of_sum, C07_l2_gradient, C07_l2_hessian, C07_sum_from_zero, C07_value_of_quotient, C07_value_of_scaling, C07_value_of_sum, C09_failure, C09_smooth_descent_succeeds, C09_success, C10_no_worse_than_start, C10_returns_last, C10_steps_decrease_bounded_steepest, C10_steps_decrease_convex, C10_steps_decrease_general, C10_steps_decrease_unbounded, C10_terminates, C11_active_set, C11_all_binding_stationary, C11_binding_set, C11_inactive_set, C11_iterates_feasible, C11_projection_feasible, C11_projection_idempotent, C11_projection_identity_on_feasible, C12_limits_partial, C12_limits_refuted, C12_scaling_shrinks, C13_direction_descends, C13_no_pair_while_marching_refuted, C13_pair_mismatch_refuted, C13_secant_partial, C13_secant_refuted, C13_symmetric_positive_definite, C17_both_readable, C17_reciprocal_derivative, C17_reciprocal_values, C18_broadcast_refuted, C18_cached_read_partial, C18_drift_refuted, C18_in_place_refuted, C19_deleted_model_refuted, C19_foreign_model_refuted, C19_grandchild_refuted, C19_resize_refuted, C19_rollback_first_model_partial, C19_rollback_in_sync_partial, C20_chain_rule_partial, C20_dense_product_refuted, C21_alias_refuted, C21_deriv_partial, C21_row_refuted, C22_accepted_bounds, C22_injection_inverse_of_transform, C22_injection_transform_of_inverse, C24_boolean_list_refuted, C24_injection_deriv, C24_injection_value, C24_projection_mask, C24_projection_picks, C24_reassigned_active_refuted, C24_surject_2d_3d_deriv, C24_surject_full, C24_units, C24_units_deriv, C24_vertical_deriv, C25_float_partial, C25_integer, C25_nan_refuted, C25_rounds_first_refuted, C29_closed_form, C29_never_increases, C29_positive, C30_new_survey_refuted, C30_stops_first, C30_target, C31_after_start, C31_before_start, C31_beta, C31_exact_fit_refuted, C31_flat_model_refuted, C31_norms_lost_refuted, C31_reweightings, C32_global_refuted, C32_maximum, C32_minimum, C32_order, C32_percentile_refuted, C32_positive, C32_zero_minimum_refuted, C33_in_place_refuted, C33_simulation_change_refuted, C34_mixed_terms_refuted, C34_own_fields_partial, C35_repeated, C36_after_error_refuted, C36_schedules, C36_stale_reply_refuted, C36_sum_partial, C36_sum_refuted, C36_terminates, C36_without_error, C37_overlap_refuted, C37_piecewise_linear, C37_piecewise_straight, C37_ramp_off, C37_ramp_off_partial, C37_ramp_off_refuted, C37_step_off_refuted, C37_trapezoid, C37_triangle, C37_triangle_refuted, C39_block, C39_corners, C39_create_block, C39_dimension_refuted, C39_random, C39_two_layers_1d, C39_two_layers_partial, C39_two_layers_refuted, C42_value, C43_banded, C43_class, C43_diagonal, C43_full, C43_ones, C44_adjoint, C44_count_refuted, C44_data, C44_derivative, C44_jacobian, C45_append, C45_compact, C45_increasing, C45_padding, C45_plain, C45_sums, C45_times, C49_inside, C49_order_refuted, C49_wiener, C50_counts, C50_entries, C50_intervals, C50_raising_refuted, C50_total, C53_atomic_refuted, C55_alphas, C55_alphas_again_refuted, C55_beta_derivative_refuted, C55_joint, C55_joint_bounds_refuted, C55_joint_list_refuted, C55_joint_step, C58_active_alphas, C58_active_directions_refuted, C58_all_directions, C58_components, C58_cross_gradient_derivatives, C58_directions, C58_full_gradient, C58_full_gradient_hessian, C58_linear_correspondence, C61_adjoint, C61_close_model_refuted, C61_current, C61_deleted_refuted, C61_derivative, C61_inverse, C61_matrix, C61_new_mapping_refuted, C61_new_mesh_refuted, C61_no_map, C61_reciprocal, C61_solves, C61_value, C62_haverkamp, C62_van_genuchten, C63_blocks, C63_face_conductivity, C63_head_method_refuted, C63_newton_matrix, C64_adjoint, C64_cell_source_refuted, C64_cell_symmetric, C64_data, C64_fields, C64_getJ, C64_history, C64_jacobian, C64_jtjdiag, C64_jtjdiag_refuted, C64_kept_fields_refuted, C64_neumann_refuted, C64_nodal_symmetric, C64_store, C64_survey_refuted, C65_adjoint, C65_apparent_refuted, C65_cell_refuted, C65_current_refuted, C65_same, C65_survey_left_refuted, C65_zero_dipole_refuted, C67_adjoint_partial, C67_agree_be, C67_agree_hj, C67_dipole_refuted, C67_gradient_partial, C67_grounded_e_refuted, C67_grounded_j_refuted, C67_initial_current, C67_jacobian_partial, C67_last_time_refuted, C67_maxwell_bh, C67_maxwell_ej, C67_missing_fields_refuted, C67_no_fields_refuted, C67_one_step_refuted, C67_rate_ramp, C67_rate_refuted, C67_rate_steady, C67_threshold_refuted, C68_active_geoana, C68_diagonal_equal_weights_partial, C68_diagonal_single_partial, C68_gravity_forward_geoana, C68_gravity_matrix, C68_guv, C68_refine_x, C68_refine_y, C68_refine_z, C68_uniform, C71_gravity_blank_lines, C71_magnetic_blank_lines, C76_adjoint, C76_derivative, C76_unset, C78_adjoint, C78_history, C78_jacobian, C78_jtjdiag_refuted, C78_kept_fields_refuted, C78_map_refuted, C78_mini_refuted, C78_seigel, C78_sigma_refuted, C78_uniform, C80_close, C80_monotone, C80_positive, C80_reached, C80_rule, C81_dpred_refuted, C81_mixed_refuted, C81_round_trip2_partial, C81_round_trip3_partial, C81_sticky_refuted, C81_surface_poles_refuted, C81_utm_refuted, C83_accepted, C83_elevation_partial, C83_indices_refuted, C83_line_twice_refuted, C83_multipole_refuted, C83_neighbour_refuted, C83_on_surface_partial, C83_one_column_refuted, C83_single_point_refuted, C83_stale_refuted, C83_survey_partial, C83_together, C83_topography, C83_topography_accepted, C83_twice, C86_every_solve, C86_jacobi_refuted, C86_multipliers_refuted, C86_needs_sensitivities, C86_nonnegative, C86_order_refuted, C86_plain_refuted, C86_update_wj_refuted, C86_zero_refuted, C87_adjoint, C87_bc_type_refuted, C87_data, C87_getJ, C87_history_partial, C87_jacobian, C87_neumann_refuted, C87_stale_refuted, C87_symmetric, C88_adjoint, C88_current, C88_current_active, C88_current_refuted, C88_current_total, C88_current_uniform_partial, C88_data, C88_dc, C88_diagonal, C88_getJ, C88_getJ_history_refuted, C88_head, C88_head_refuted, C88_history_partial, C88_jacobian, C88_neumann_refuted, C88_new_map_refuted, C88_new_rho_refuted, C88_one_source, C88_superposition, C89_projection, C89_stack, C89_times, C89_voltage_refuted, C90_cool, C90_cool_again, C90_cool_ratio, C90_exact_refuted, C90_mode, C90_monotone, C90_normalization_refuted, C90_not_due, C90_one_at_a_time, C90_stop, C90_theta_refuted, C90_tolerance_refuted, C90_truncated_refuted, C90_warm, C92_accepted, C92_average, C92_derivative, C92_integral, C92_local_active, C92_range_partial, C92_same_mesh, C92_uniform, C92_uniform_refuted, C93_causal, C93_convolution, C93_jump_refuted, C93_nodes, C93_steady, C93_times, C93_trapezoid, C94_before, C94_never_refuted, C94_no_target_refuted, C94_others, C94_others_refuted, C94_ready, C94_used_partial

## `ClassicalDedekindReals.sig_forall_dec`, `ClassicalDedekindReals.sig_not_dec`, `FunctionalExtensionality.functional_extensionality_dep`

C04_constructor_defined, C04_standard_deviation_roundtrip, C04_uncertainty_formula, C06_assigned_weights_used, C06_nonpositive_std_raises, C06_weights_current, C06_weights_current_refuted, C06_weights_frozen_after_read, C08_stacked_weights_hessian, C08_stacked_weights_value, C10_projected_gradient_refuted, C11_projection_closest, C11_projection_nonexpansive, C14_blocked_components_stay, C14_coupling_preconditioner_refuted, C14_default_preconditioner_refuted, C14_descent, C14_exact_newton_step, C14_iteration_limit, C14_residual_within_tolerance, C15_outcome, C15_residuals_decrease, C15_terminates, C20_wildcard_shape_refuted, C23_wildcard_refuted, C32_raw, C35_Jvec_is_derivative, C35_adjoint, C35_diagonal_cache_refuted, C35_diagonal_partial, C35_dpred, C35_sum_adjoint, C35_sum_diagonal_refuted, C35_sum_dpred, C35_touched_refuted, C37_half_sine, C37_quarter_sine, C38_coterminal, C38_coterminal_unique, C38_dip_azimuth, C38_dip_azimuth_accepts, C38_plane, C38_plane_defined, C39_layers, C39_layers_refuted, C39_layers_up_partial, C39_sphere, C41_face_weights_refuted, C41_gradient, C41_half_refused_refuted, C41_hessian, C41_late_active_refuted, C41_newton, C41_no_weights_refuted, C41_registry, C41_shared_mesh_refuted, C41_value_partial, C42_defaults, C42_history, C42_not_both, C42_refused, C42_round_trip, C52_bounds, C52_converges, C52_eigenvector, C52_indefinite_refuted, C52_monotone, C52_scaled, C54_gradient_partial, C54_second_order_refuted, C54_turns, C55_beta_bounds, C55_beta_scaled, C55_iterations_refuted, C55_misfits, C57_frozen, C57_index_refuted, C57_operator, C57_stale_refuted, C58_cross_gradient_sign, C58_full_gradient_weights, C58_normalised_cross_gradient, C58_parallel_gradients, C58_zero_eps_refuted, C60_adjoint, C60_after_error_refuted, C60_bounds, C60_cell, C60_data, C60_derivative, C60_distance, C60_gridline_refuted, C60_raises, C60_reciprocity, C60_row, C60_stale_refuted, C60_total, C60_unique, C63_adjoint_partial, C63_fields, C63_full, C63_history, C63_refuses, C63_sensitivity, C63_stale_adjoint_refuted, C63_stale_data_refuted, C66_adjoint, C66_columns_refuted, C66_component_refuted, C66_dipole, C66_dipole_mu_refuted, C66_forward_only_refuted, C66_getJ, C66_h_secondary_refuted, C66_history, C66_jacobian, C66_jtjdiag, C66_jtjdiag_weights_refuted, C66_kept_fields_data_refuted, C66_kept_fields_refuted, C66_maxwell, C66_new_survey_refuted, C66_same, C66_source_added_refuted, C66_source_removed_refuted, C66_sources_per_frequency_refuted, C66_symmetric, C68_active_choclo, C68_active_magnetic, C68_diagonal_components_refuted, C68_diagonal_receivers_refuted, C68_gravity_adjoint, C68_gravity_engines, C68_gravity_forward_choclo, C68_gravity_transpose, C68_magnetic_adjoint, C68_magnetic_engines, C68_magnetic_forward_choclo, C68_magnetic_forward_geoana, C68_magnetic_matrix_scalar, C68_magnetic_matrix_vector, C68_magnetization_refuted, C68_negative_amplitude_refuted, C68_scalar_is_vector, C68_tmi_choclo, C68_tmi_geoana, C69_adjoint, C69_amplitude_switch_refuted, C69_close_models_refuted, C69_default_weights_refuted, C69_derivative, C69_diagonal_refuted, C69_forward_only, C69_history_partial, C69_magnetization_refuted, C69_model_in_place_refuted, C69_not_implemented, C69_old_file_refuted, C69_shared_file_refuted, C69_survey_refuted, C70_amplitude_gradient_partial, C70_amplitude_gradient_refuted, C70_amplitude_newton, C70_amplitude_rotation, C70_amplitude_value_partial, C70_amplitude_value_refuted, C70_cell_reference_raises, C70_cross_gradient, C70_cross_second, C70_cross_value, C70_cross_zero, C70_matrix_weights_ignored, C70_matrix_weights_raise, C70_smoothness_gradient_partial, C70_smoothness_newton, C70_smoothness_rotation, C70_smoothness_value_partial, C70_vector_reference_refuted, C71_gradient_cut, C71_gradient_round_trip_partial, C71_gradient_same_file, C71_gradient_unchanged_refuted, C71_gradient_zero_refuted, C71_gravity_component_refuted, C71_gravity_cut_refuted, C71_gravity_round_trip_partial, C71_gravity_same_file, C71_gravity_zero_refuted, C71_magnetic_component_refuted, C71_magnetic_cut_refuted, C71_magnetic_round_trip_partial, C71_magnetic_same_file, C71_magnetic_zero_refuted, C72_accepted, C72_electrodes, C72_electrodes_exact, C72_far_dipole_refuted, C72_number_of_data, C72_order, C72_sources, C72_tables, C72_without_b, C73_columns_partial, C73_columns_refuted, C73_line_refuted, C73_line_without_data_refuted, C73_round_trip, C73_single_row_refuted, C76_all_separations, C76_buried_refuted, C76_current_refuted, C76_half_from_voltage, C76_half_space_partial, C76_horizontal_refuted, C76_listed_separations, C76_moved_refuted, C76_other_factors, C76_own_factors, C76_polarity, C76_pole_depth_refuted, C76_pole_limit, C76_pseudo_flat_partial, C76_reciprocity, C76_separations, C76_similarity, C76_slope_refuted, C76_stabiliser_refuted, C76_whole_from_voltage, C76_whole_is_half_of_half, C76_whole_space_partial, C77_few_thicknesses, C77_many_thicknesses_refuted, C79_across_refuted, C79_checked, C79_crooked, C79_depth_refuted, C79_electrodes_partial, C79_ends, C79_error, C79_lines, C79_lost, C79_once_partial, C79_one_profile, C79_one_source_refuted, C79_origin_refuted, C79_straight, C79_unit, C80_file, C80_no_schedule, C80_saved_partial, C80_saved_refuted, C80_schedule, C80_stop, C80_target_refuted, C80_zero_coupling_refuted, C80_zero_misfit_refuted, C82_accepted, C82_data_first_refuted, C82_line_refuted, C82_line_without_data_refuted, C82_missing, C82_one_simple_row_refuted, C82_simple, C84_clean_refuted, C84_deviation_refuted, C84_imaginary_refuted, C84_noise, C84_reported, C84_truthy_refuted, C84_values_partial, C85_adjoint, C85_diagonal_refuted, C87_trapezoid, C91_step

## `ClassicalDedekindReals.sig_forall_dec`, `Classical_Prop.classic`, `FunctionalExtensionality.functional_extensionality_dep`

C53_history, C53_raises

## `ClassicalDedekindReals.sig_forall_dec`, `ClassicalDedekindReals.sig_not_dec`, `Classical_Prop.classic`, `FunctionalExtensionality.functional_extensionality_dep`

C22_inverse_of_transform_partial, C22_one_cell_bounds_refuted, C22_transform_of_inverse_partial, C22_value, C23_deriv_is_derivative_partial, C23_short_weights_refuted, C23_small_log_refuted, C37_exponential, C37_set_off_refuted, C37_vtem_partial, C37_vtem_refuted, C38_chained_refuted, C38_other_way_partial, C38_round_trip_partial, C38_round_trip_refuted, C38_spherical, C39_ellipse_2d, C39_ellipse_3d, C40_decreasing, C40_gradient, C40_limit, C40_positive_partial, C40_positive_refuted, C40_two, C40_unscaled, C48_decreasing, C48_engines, C48_order, C48_range, C48_rejects, C48_single, C51_deriv_partial, C51_deriv_refuted, C51_history, C51_inverse_partial, C51_projection, C51_projection_refuted, C51_stale_refuted, C56_bruggeman, C56_deriv, C56_ends, C56_exists, C56_fixed, C56_history_refuted, C56_inverse, C56_no_iterations_refuted, C56_outside_refuted, C56_range, C56_spheres, C56_tolerance_refuted, C58_joint_total_variation, C59_block_derivative, C59_block_in_layer_derivative, C59_casing_derivative, C59_circle_derivative, C59_circle_roles_refuted, C59_ellipsoid_derivative, C59_layer_1d_refuted, C59_layer_active_refuted, C59_layer_derivative, C59_layer_formula, C59_layer_formula_refuted, C59_layer_history, C59_layer_rows, C59_poly2_derivative, C59_poly2_side, C59_poly3_derivative_partial, C59_poly3_derivative_refuted, C59_spline2_derivative_partial, C59_spline2_normal_x_refuted, C59_spline2_stale_refuted, C59_spline3_derivative_partial, C59_spline3_top_refuted, C59_values_between, C62_haverkamp_k_derivM, C62_haverkamp_k_derivU, C62_haverkamp_theta_derivM, C62_haverkamp_theta_derivU, C62_integer_heads_refuted, C62_integer_heads_van_genuchten_refuted, C62_k_range, C62_monotone, C62_slope_at_saturation_refuted, C62_theta_range, C62_values, C62_van_genuchten_k_derivM, C62_van_genuchten_k_derivU, C62_van_genuchten_theta_derivM, C62_van_genuchten_theta_derivU, C75_adjoint, C75_complex_refuted, C75_data_partial, C75_data_refuted, C75_diagonal_partial, C75_diagonal_refuted, C75_half_space, C75_history_partial, C75_jacobian, C75_maxwell, C75_split_bottom, C75_split_layer, C77_adjoint, C77_filter_points, C77_filter_refuted, C77_filters, C77_four_refuted, C77_history_partial, C77_homogeneous_partial, C77_jacobian, C77_multipole_refuted, C77_no_maps_refuted, C77_physics, C77_range, C77_several_refuted, C77_split_bottom, C77_split_layer, C77_survey_refuted, C85_admittance_2d, C85_admittance_refuted, C85_admittance_when, C85_components, C85_conductivity, C85_derivative, C85_impedance, C85_impedance_1d, C85_impedance_2d, C85_remote_1d_refuted, C85_tipper, C85_tipper_2d, C89_adjoint, C89_adjoint_order, C89_adjoint_partial, C89_adjoint_refuted, C89_data, C89_diagonal_refuted, C89_history, C89_history_fields_refuted, C89_history_jvec_refuted, C89_jacobian, C89_store_refuted, C89_times_refuted, C91_abrupt_refuted, C91_early, C91_fields, C91_lengths, C91_log_bound, C91_log_on_refuted, C91_log_pulse, C91_log_rate, C91_memory, C91_negative_refuted, C91_none_refuted, C91_pulse, C91_pulse_rate, C91_pulse_steps, C91_rate, C91_refine, C91_start_refuted
