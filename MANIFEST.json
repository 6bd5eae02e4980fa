{
 "claims": [
  {
   "property": "C01",
   "status": "proved",
   "theorems": [
    "C01_dict_roundtrip_param",
    "C01_dict_roundtrip_config",
    "C01_dict_roundtrip_back"
   ],
   "note": ""
  },
  {
   "property": "C02",
   "status": "proved",
   "theorems": [
    "C02_flat_keys",
    "C02_flat_roundtrip",
    "C02_flat_replace",
    "C02_config_flat_roundtrip",
    "C02_dotted_key_refuted",
    "C02_dotted_key_merge_refuted"
   ],
   "note": ""
  },
  {
   "property": "C03",
   "status": "proved",
   "theorems": [
    "C03_flatten_unflatten",
    "C03_unflatten_flatten",
    "C03_aux_shape_only"
   ],
   "note": ""
  },
  {
   "property": "C04",
   "status": "proved",
   "theorems": [
    "C04_ravel_roundtrip",
    "C04_size_one_refuted",
    "C04_size_zero_refuted",
    "C04_short_vector_refuted"
   ],
   "note": ""
  },
  {
   "property": "C05",
   "status": "proved",
   "theorems": [
    "C05_set_get",
    "C05_set_other",
    "C05_set_effect",
    "C05_set_existing_keeps_shape",
    "C05_get_reads_leaf",
    "C05_set_errors",
    "C05_delimiter_refuted",
    "C05_leading_dot_refuted"
   ],
   "note": ""
  },
  {
   "property": "C06",
   "status": "proved",
   "theorems": [
    "C06_replace_subtree"
   ],
   "note": ""
  },
  {
   "property": "C07",
   "status": "proved",
   "theorems": [
    "C07_windows",
    "C07_rejects",
    "C07_wide_window_refuted"
   ],
   "note": ""
  },
  {
   "property": "C08",
   "status": "proved",
   "theorems": [
    "C08_unknown_names",
    "C08_bijection",
    "C08_negative_stage",
    "C08_stage_out_of_range",
    "C08_all_stages",
    "C08_global_group_refuted",
    "C08_accepts"
   ],
   "note": ""
  },
  {
   "property": "C09",
   "status": "proved",
   "theorems": [
    "C09_unflatten_flatten",
    "C09_flatten_unflatten",
    "C09_wrong_length_refuted",
    "C09_array_for_global",
    "C09_scalar_for_group"
   ],
   "note": ""
  },
  {
   "property": "C10",
   "status": "proved",
   "theorems": [
    "C10_short_vector",
    "C10_index_agrees_with_unflatten",
    "C10_group_indices",
    "C10_group_contiguous",
    "C10_group_all_stages",
    "C10_stage_array"
   ],
   "note": ""
  },
  {
   "property": "C11",
   "status": "proved",
   "theorems": [
    "C11_interval_tensor"
   ],
   "note": ""
  },
  {
   "property": "C12",
   "status": "proved",
   "theorems": [
    "C12_offset_entries",
    "C12_offset_distinct",
    "C12_stack_agrees",
    "C12_stack_slots"
   ],
   "note": ""
  },
  {
   "property": "C13",
   "status": "proved",
   "theorems": [
    "C13_history",
    "C13_history_independent",
    "C13_inplace_scale_refuted",
    "C13_fresh_objective"
   ],
   "note": ""
  },
  {
   "property": "C14",
   "status": "proved",
   "theorems": [
    "C14_scaled_jacobian",
    "C14_scaled_hessian",
    "C14_scaled_objective",
    "C14_default_structure"
   ],
   "note": ""
  },
  {
   "property": "C15",
   "status": "proved",
   "theorems": [
    "C15_names_unique",
    "C15_add_constraints",
    "C15_add_objective",
    "C15_delete",
    "C15_counts",
    "C15_objective_size_unchecked_refuted"
   ],
   "note": ""
  },
  {
   "property": "C16",
   "status": "proved",
   "theorems": [
    "C16_constraints_concat",
    "C16_jacobian_stack",
    "C16_jacobian_exact",
    "C16_gradient",
    "C16_empty"
   ],
   "note": ""
  },
  {
   "property": "C17",
   "status": "proved",
   "theorems": [
    "C17_hessian_assembly",
    "C17_lagrangian_hessian",
    "C17_stale_mask_refuted"
   ],
   "note": ""
  },
  {
   "property": "C18",
   "status": "proved",
   "theorems": [
    "C18_bounds",
    "C18_feasible",
    "C18_optimum",
    "C18_solve",
    "C18_negative_scale_refuted",
    "C18_constraint_bounds_refuted"
   ],
   "note": ""
  },
  {
   "property": "C19",
   "status": "proved",
   "theorems": [
    "C19_cached_equals_uncached",
    "C19_hessian_exact",
    "C19_nonlinear_refuted"
   ],
   "note": ""
  },
  {
   "property": "C20",
   "status": "proved",
   "theorems": [
    "C20_kronecker",
    "C20_interpolation_exact",
    "C20_differentiation_exact",
    "C20_integration_exact"
   ],
   "note": ""
  },
  {
   "property": "C21",
   "status": "proved",
   "theorems": [
    "C21_roots_exist",
    "C21_points",
    "C21_lg_points",
    "C21_stage_points"
   ],
   "note": ""
  },
  {
   "property": "C22",
   "status": "proved",
   "theorems": [
    "C22_forward_euler",
    "C22_trapezoidal",
    "C22_lgr",
    "C22_lgr_integral",
    "C22_polynomial_exact_lgr",
    "C22_polynomial_exact_lgr_integral",
    "C22_polynomial_exact_euler",
    "C22_polynomial_exact_trapezoidal",
    "C22_trapezoidal_cubic_refuted",
    "C22_make",
    "C22_constants",
    "C22_make_result"
   ],
   "note": ""
  },
  {
   "property": "C23",
   "status": "proved",
   "theorems": [
    "C23_accepts",
    "C23_mesh",
    "C23_collocation_points",
    "C23_history",
    "C23_scaled",
    "C23_inexact_ends_refuted",
    "C23_zero_intervals"
   ],
   "note": ""
  },
  {
   "property": "C24",
   "status": "proved",
   "theorems": [
    "C24_entries",
    "C24_blocks",
    "C24_trapezoidal"
   ],
   "note": ""
  },
  {
   "property": "C25",
   "status": "proved",
   "theorems": [
    "C25_jacobian",
    "C25_hessian",
    "C25_fixed_mesh_linear"
   ],
   "note": ""
  },
  {
   "property": "C26",
   "status": "proved",
   "theorems": [
    "C26_bound_config",
    "C26_lower_le_upper",
    "C26_history",
    "C26_values",
    "C26_set_accepts",
    "C26_direct",
    "C26_update_not_atomic_refuted",
    "C26_rejected_bc_sticks_refuted",
    "C26_set_rejects"
   ],
   "note": ""
  },
  {
   "property": "C27",
   "status": "proved",
   "theorems": [
    "C27_variables",
    "C27_accepts",
    "C27_continuity",
    "C27_algebra",
    "C27_condensed",
    "C27_failed_call_refuted"
   ],
   "note": ""
  },
  {
   "property": "C28",
   "status": "proved",
   "theorems": [
    "C28_variables",
    "C28_values",
    "C28_jacobian",
    "C28_all_excluded_refuted",
    "C28_dotted_name_refuted"
   ],
   "note": ""
  },
  {
   "property": "C29",
   "status": "proved",
   "theorems": [
    "C29_equivalence",
    "C29_full_to_condensed",
    "C29_jacobian",
    "C29_jacobian_values",
    "C29_multipliers",
    "C29_hessian",
    "C29_applies"
   ],
   "note": ""
  },
  {
   "property": "C30",
   "status": "proved",
   "theorems": [
    "C30_call",
    "C30_combine",
    "C30_round",
    "C30_outputs",
    "C30_interrupted_round_refuted"
   ],
   "note": ""
  },
  {
   "property": "C31",
   "status": "proved",
   "theorems": [
    "C31_set",
    "C31_set_get",
    "C31_get_set",
    "C31_extra_ignored",
    "C31_failed_mixed",
    "C31_algebra_restores",
    "C31_not_atomic_refuted"
   ],
   "note": ""
  },
  {
   "property": "C32",
   "status": "proved",
   "theorems": [
    "C32_registry",
    "C32_build",
    "C32_submodels",
    "C32_default",
    "C32_constructor",
    "C32_recursive_class_refuted"
   ],
   "note": ""
  },
  {
   "property": "C33",
   "status": "proved",
   "theorems": [
    "C33_make_vector",
    "C33_round_trips",
    "C33_positions",
    "C33_positions_injective",
    "C33_checked_names",
    "C33_const_dict",
    "C33_full_names"
   ],
   "note": ""
  },
  {
   "property": "C34",
   "status": "proved",
   "theorems": [
    "C34_residual",
    "C34_residual_zero",
    "C34_jacobian_structure",
    "C34_jacobian_complete",
    "C34_hessian_structure",
    "C34_hessian_complete"
   ],
   "note": ""
  },
  {
   "property": "C35",
   "status": "proved",
   "theorems": [
    "C35_constraints",
    "C35_multipliers_checked",
    "C35_derivatives",
    "C35_mesh_dependence_refuted",
    "C35_overlap_refuted",
    "C35_short_mesh"
   ],
   "note": ""
  },
  {
   "property": "C36",
   "status": "proved",
   "theorems": [
    "C36_block_restores",
    "C36_lexical",
    "C36_lexical_unique",
    "C36_object",
    "C36_decorator_refuted"
   ],
   "note": ""
  },
  {
   "property": "C37",
   "status": "proved",
   "theorems": [
    "C37_lmap",
    "C37_lmap_tuple",
    "C37_axes_checked",
    "C37_cmap_history",
    "C37_cmap",
    "C37_unmapped_first_refuted",
    "C37_empty_batch",
    "C37_empty_twice_refuted",
    "C37_mixed_outputs"
   ],
   "note": ""
  },
  {
   "property": "C38",
   "status": "proved",
   "theorems": [
    "C38_roundtrip",
    "C38_bounds_validated",
    "C38_bounds_from_dicts",
    "C38_objects",
    "C38_defaults",
    "C38_logging_refuted",
    "C38_mixed_refuted",
    "C38_list_refuted",
    "C38_no_attribute"
   ],
   "note": ""
  },
  {
   "property": "C39",
   "status": "proved",
   "theorems": [
    "C39_row_contents",
    "C39_solve",
    "C39_solver_run",
    "C39_history",
    "C39_metrics",
    "C39_second_solve_refuted",
    "C39_history_refuted",
    "C39_violation_row_refuted",
    "C39_mesh_column_refuted",
    "C39_failed_solve",
    "C39_no_point",
    "C39_failed_leftover_refuted"
   ],
   "note": ""
  },
  {
   "property": "C40",
   "status": "proved",
   "theorems": [
    "C40_is_casadi",
    "C40_diff",
    "C40_diff_refuted",
    "C40_roll_one",
    "C40_roll_refuted",
    "C40_roll_zero_refuted",
    "C40_roll_rows_refuted",
    "C40_sum",
    "C40_mean",
    "C40_mean_none",
    "C40_mean_none_refuted",
    "C40_stack",
    "C40_stack_rejects",
    "C40_split_list",
    "C40_split_list_refuted",
    "C40_split_int",
    "C40_split_empty_refuted",
    "C40_interp",
    "C40_trig",
    "C40_rotation_2D",
    "C40_rotation_3D_unit",
    "C40_rotation_3D",
    "C40_trapz",
    "C40_trapz_total",
    "C40_cosspace",
    "C40_geomspace_linear",
    "C40_geomspace_refuted",
    "C40_logspace",
    "C40_clip",
    "C40_spacing_one",
    "C40_rotation_3D_rodrigues",
    "C40_rotation_3D_vertical"
   ],
   "note": ""
  },
  {
   "property": "C41",
   "status": "proved",
   "theorems": [
    "C41_rotation",
    "C41_loads",
    "C41_drive",
    "C41_wheels",
    "C41_brakes",
    "C41_tires",
    "C41_newton",
    "C41_residuals",
    "C41_energy",
    "C41_symmetry",
    "C41_slip_refuted"
   ],
   "note": ""
  },
  {
   "property": "C42",
   "status": "proved",
   "theorems": [
    "C42_time_scaled",
    "C42_time_fixed",
    "C42_penalty_rejects",
    "C42_penalty_value",
    "C42_penalty_derivatives"
   ],
   "note": ""
  },
  {
   "property": "C43",
   "status": "proved",
   "theorems": [
    "C43_exact",
    "C43_shift",
    "C43_bad_arguments_refuted"
   ],
   "note": ""
  },
  {
   "property": "C44",
   "status": "proved",
   "theorems": [
    "C44_distance_domain",
    "C44_time_domain",
    "C44_time_increases",
    "C44_on_track",
    "C44_vehicle_in_time",
    "C44_order",
    "C44_arrays"
   ],
   "note": ""
  },
  {
   "property": "C45",
   "status": "proved",
   "theorems": [
    "C45_trapz",
    "C45_lookups",
    "C45_default_width",
    "C45_heading_is_integral",
    "C45_positions",
    "C45_from_points",
    "C45_rigid_motion",
    "C45_scale",
    "C45_mirror",
    "C45_straight",
    "C45_circle",
    "C45_start_curvature_refuted",
    "C45_const_curv",
    "C45_const_curv_width_refuted",
    "C45_track_from_points",
    "C45_points_refused",
    "C45_curvilinear",
    "C45_curvilinear_unique",
    "C45_return_refuted"
   ],
   "note": ""
  },
  {
   "property": "C46",
   "status": "proved",
   "theorems": [
    "C46_load",
    "C46_friction_ellipse",
    "C46_signs",
    "C46_symmetry",
    "C46_defaults",
    "C46_overload_refuted",
    "C46_peak_refuted"
   ],
   "note": ""
  },
  {
   "property": "C47",
   "status": "proved",
   "theorems": [
    "C47_value_text",
    "C47_total",
    "C47_values",
    "C47_constants",
    "C47_comments_refuted"
   ],
   "note": ""
  },
  {
   "property": "C48",
   "status": "proved",
   "theorems": [
    "C48_newton",
    "C48_energy",
    "C48_free_fall",
    "C48_hover",
    "C48_default_gravity"
   ],
   "note": ""
  },
  {
   "property": "C49",
   "status": "proved",
   "theorems": [
    "C49_mlp",
    "C49_mlp_odd",
    "C49_mlp_layers",
    "C49_mlp_shape",
    "C49_gp",
    "C49_names",
    "C49_missing_input",
    "C49_layers_round_trip",
    "C49_constant",
    "C49_only_layers",
    "C49_layer_order_refuted"
   ],
   "note": ""
  },
  {
   "property": "C50",
   "status": "proved",
   "theorems": [
    "C50_construct",
    "C50_bounds",
    "C50_scales",
    "C50_objective",
    "C50_solve",
    "C50_hessian_refuted",
    "C50_group_alias_refuted",
    "C50_second_solver_refuted",
    "C50_failed_construction_refuted"
   ],
   "note": ""
  },
  {
   "property": "C51",
   "status": "proved",
   "theorems": [
    "C51_solve",
    "C51_accepts",
    "C51_derivatives",
    "C51_remesh_refuted",
    "C51_mesh_scale_unchecked_refuted"
   ],
   "note": ""
  },
  {
   "property": "C52",
   "status": "proved",
   "theorems": [
    "C52_solve",
    "C52_on_track",
    "C52_accepts",
    "C52_guess",
    "C52_config",
    "C52_default",
    "C52_derivatives",
    "C52_cyclic",
    "C52_cyclic_refuted",
    "C52_gap_refuted"
   ],
   "note": ""
  },
  {
   "property": "C53",
   "status": "proved",
   "theorems": [
    "C53_solve",
    "C53_config",
    "C53_accepts",
    "C53_guess",
    "C53_total_time",
    "C53_slow",
    "C53_too_heavy",
    "C53_derivatives"
   ],
   "note": ""
  },
  {
   "property": "C54",
   "status": "proved",
   "theorems": [
    "C54_solve",
    "C54_forward",
    "C54_backwards_refuted",
    "C54_default_car",
    "C54_default",
    "C54_accepts",
    "C54_error"
   ],
   "note": ""
  },
  {
   "property": "C55",
   "status": "proved",
   "theorems": [
    "C55_missing",
    "C55_equations",
    "C55_mode",
    "C55_mirror",
    "C55_forces",
    "C55_pure",
    "C55_bound",
    "C55_stiffness",
    "C55_peak",
    "C55_zero_load_refuted",
    "C55_default_defined",
    "C55_reversed_refuted",
    "C55_outputs"
   ],
   "note": ""
  },
  {
   "property": "C56",
   "status": "proved",
   "theorems": [
    "C56_solve",
    "C56_dots",
    "C56_full",
    "C56_accepts",
    "C56_derivatives",
    "C56_config_refuted",
    "C56_params_refuted",
    "C56_sparsity_refuted"
   ],
   "note": ""
  },
  {
   "property": "C57",
   "status": "proved",
   "theorems": [
    "C57_elementwise",
    "C57_broadcast_refuted",
    "C57_not_abs",
    "C57_all_any",
    "C57_where",
    "C57_dot",
    "C57_dot_rejects",
    "C57_dot_refuted",
    "C57_outer",
    "C57_outer_refuted",
    "C57_cross_vectors",
    "C57_cross_rows",
    "C57_cross_columns",
    "C57_cross_axis",
    "C57_cross_axis_refuted",
    "C57_norm_vector",
    "C57_norm_matrix",
    "C57_norm_axis",
    "C57_norm_refuted",
    "C57_concatenate",
    "C57_concatenate_rejects",
    "C57_stack_refuted",
    "C57_array",
    "C57_array_rows",
    "C57_split_sections",
    "C57_split_indices",
    "C57_split_join",
    "C57_split_refuted",
    "C57_length",
    "C57_diag",
    "C57_reshape",
    "C57_reshape_refuted",
    "C57_neutral",
    "C57_arctan2d",
    "C57_arctan2d_origin",
    "C57_vehicle"
   ],
   "note": ""
  },
  {
   "property": "C58",
   "status": "proved",
   "theorems": [
    "C58_locked",
    "C58_library_kept",
    "C58_library_decides",
    "C58_alone",
    "C58_killed_link_refuted",
    "C58_race_refuted",
    "C58_race_poisons_refuted",
    "C58_same_model_refuted",
    "C58_params",
    "C58_export",
    "C58_failed_build_refuted",
    "C58_same_model_file"
   ],
   "note": ""
  },
  {
   "property": "C59",
   "status": "proved",
   "theorems": [
    "C59_cycloid",
    "C59_fastest",
    "C59_first_arch_exists",
    "C59_root_refuted",
    "C59_custom_jacobian",
    "C59_custom_hessian",
    "C59_custom_exact",
    "C59_custom_con_refuted",
    "C59_solve",
    "C59_accepts",
    "C59_energy",
    "C59_energy_bound",
    "C59_straight",
    "C59_rise_refuted",
    "C59_faster_refuted",
    "C59_custom_batch_refuted",
    "C59_distance",
    "C59_distance_energy",
    "C59_distance_names"
   ],
   "note": ""
  },
  {
   "property": "C60",
   "status": "proved",
   "theorems": [
    "C60_jax_exact",
    "C60_backends_agree",
    "C60_ocp_derivatives",
    "C60_condensed_derivatives",
    "C60_brachistochrone",
    "C60_brachistochrone_agree"
   ],
   "note": ""
  },
  {
   "property": "C61",
   "status": "proved",
   "theorems": [
    "C61_converges",
    "C61_refines",
    "C61_lap_time",
    "C61_cycloid",
    "C61_cycloid_ride"
   ],
   "note": ""
  },
  {
   "property": "C62",
   "status": "proved",
   "theorems": [
    "C62_consistent",
    "C62_user",
    "C62_new",
    "C62_modify",
    "C62_history",
    "C62_constraints",
    "C62_set_exact",
    "C62_copy",
    "C62_example",
    "C62_shared_refuted"
   ],
   "note": ""
  },
  {
   "property": "C63",
   "status": "proved",
   "theorems": [
    "C63_arithmetic",
    "C63_check",
    "C63_uniform",
    "C63_uniform_lgr",
    "C63_user",
    "C63_user_lgr",
    "C63_scaled_mesh",
    "C63_scaled_uniform",
    "C63_given_to_solver",
    "C63_solution",
    "C63_user_gap_refuted",
    "C63_fixed_refuted",
    "C63_collapse_refuted"
   ],
   "note": ""
  },
  {
   "property": "C64",
   "status": "proved",
   "theorems": [
    "C64_callbacks",
    "C64_objective",
    "C64_same_point",
    "C64_pow2",
    "C64_unscaled",
    "C64_continuity",
    "C64_tolerance",
    "C64_order_refuted"
   ],
   "note": ""
  },
  {
   "property": "C65",
   "status": "proved",
   "theorems": [
    "C65_compiled",
    "C65_vectors",
    "C65_square",
    "C65_matrix_refuted",
    "C65_unmixed",
    "C65_cube_refuted",
    "C65_mlp_refuted",
    "C65_gp_refuted",
    "C65_rows"
   ],
   "note": ""
  },
  {
   "property": "C66",
   "status": "proved",
   "theorems": [
    "C66_shared",
    "C66_casadi",
    "C66_leak_refuted",
    "C66_leak_new_refuted",
    "C66_recover",
    "C66_second_refuted",
    "C66_late_trace_refuted",
    "C66_batch_refuted",
    "C66_custom_refuted"
   ],
   "note": ""
  },
  {
   "property": "C67",
   "status": "proved",
   "theorems": [
    "C67_gradient",
    "C67_jacobian",
    "C67_hessian",
    "C67_structure",
    "C67_consistent",
    "C67_last_iterate",
    "C67_last_refuted",
    "C67_stale_refuted"
   ],
   "note": ""
  },
  {
   "property": "C68",
   "status": "proved",
   "theorems": [
    "C68_arrays",
    "C68_errors",
    "C68_get",
    "C68_apply",
    "C68_apply_arrays_refuted",
    "C68_num_con_outputs_refuted"
   ],
   "note": ""
  },
  {
   "property": "C69",
   "status": "proved",
   "theorems": [
    "C69_as_if_copied",
    "C69_others_untouched",
    "C69_scales_in_step",
    "C69_one_constraint_two_problems_refuted",
    "C69_rescaling_the_other_problem_refuted",
    "C69_writing_to_scales_refuted",
    "C69_default_scales_refuted"
   ],
   "note": ""
  },
  {
   "property": "C70",
   "status": "proved",
   "theorems": [
    "C70_tire",
    "C70_default_tire",
    "C70_kinematics",
    "C70_vehicle",
    "C70_on_track",
    "C70_standstill_refuted",
    "C70_default",
    "C70_default_perantoni",
    "C70_bounds_refuted"
   ],
   "note": ""
  },
  {
   "property": "C71",
   "status": "proved",
   "theorems": [
    "C71_derivatives",
    "C71_jax_exact",
    "C71_jax_derivatives"
   ],
   "note": ""
  },
  {
   "property": "C72",
   "status": "proved",
   "theorems": [
    "C72_equations",
    "C72_lap",
    "C72_default",
    "C72_guess",
    "C72_standstill_refuted"
   ],
   "note": ""
  },
  {
   "property": "C73",
   "status": "proved",
   "theorems": [
    "C73_rollout",
    "C73_zero_steps",
    "C73_refused",
    "C73_transcription",
    "C73_converges",
    "C73_arrays_refuted",
    "C73_backends"
   ],
   "note": ""
  },
  {
   "property": "C74",
   "status": "proved",
   "theorems": [
    "C74_aero",
    "C74_equations"
   ],
   "note": ""
  },
  {
   "property": "C75",
   "status": "proved",
   "theorems": [
    "C75_forces",
    "C75_open",
    "C75_default",
    "C75_kink_refuted"
   ],
   "note": ""
  },
  {
   "property": "C76",
   "status": "proved",
   "theorems": [
    "C76_equations",
    "C76_perantoni",
    "C76_mf52",
    "C76_default",
    "C76_lap",
    "C76_guess"
   ],
   "note": ""
  }
 ]
}