# Print Assumptions of every theorem

Made by `tools/assumptions.py`. Theorems are grouped by the set of axioms they use.

- *closed under the global context* (107 theorems): C01_every_column_is_named, C01_index_injective, C01_index_is_position, C01_indices_of_LM, C01_mode_count, C02_low_stop_refuted, C02_single_mode_slice_refuted, C02_slice_returns_requested_modes, C02_zero_stop_refuted, C03_decode_encode, C03_encode_decode, C03_encoding_is_successive_xor, C03_word_size, C04_bad_width_rejected, C04_shape, C04_shuffle_unshuffle, C04_unshuffle_shuffle, C05_byte_shuffle, C05_output_bits, C06_360_is_largest, C06_fletcher32_spec, C06_no_overflow, C07_adjacent_swap, C07_single_word_error, C07_zero_ffff_collision, C09_checksum_words, C10_empty_input_fails, C13_accepted_codes, C13_codes_distinct, C13_round_trip, C14_shear_mass_exponent_refuted, C14_shear_weights, C14_time_derivative_weights, C14_weyl_weights, C15_depth_balanced, C15_exception_leaks_depth_refuted, C15_is_valid_writes_history, C15_new_object_script, C15_rotation_recorded, C15_unrecorded_methods_refuted, C16_copy_independent, C16_grid_conversion_shares_history_refuted, C16_histories_stay_separate, C35_accepted, C35_names, C38_superrest_other_names, C44_both_refuted, C44_command_refuted, C44_complete, C44_crash, C44_restart, C44_return_code_refuted, C44_stale_finished_refuted, C44_statuses, C46_constant_frame, C46_constant_frame_refuted, C46_time_slice_aligned, C48_file_name, C51_copy_is_not_a_view, C51_data_stay_separate, C51_new_object_data, C51_slice_is_a_view_refuted, C59_all_radii, C59_counted, C59_counted_modes, C59_decoder, C59_file_and_group, C59_matching, C59_no_underscore_refuted, C59_other_modes_refuted, C59_positions_error, C59_positions_refuted, C59_radius_of, C59_rpxmb_refuted, C59_several_h5_refuted, C59_type, C59_usual_names, C59_valid, C60_keywords, C60_orders, C60_orders_refused, C62_type_names, C64_numbers, C64_unpickled_number_refuted, C65_leading_zero_refuted, C68_default_ell_max, C68_no_modes, C73_columns, C73_type, C74_existing, C81_bad_template_refuted, C81_batch, C81_digit, C81_found, C81_found_once, C81_found_refuted, C81_relative_refuted, C81_run, C81_run_others, C81_subdirectory, C81_subdirectory_refuted, C81_template, C81_template_braces_refuted, C81_template_steps, C81_template_steps_refuted, C83_refusals, C83_writes.

- `ClassicalDedekindReals.sig_forall_dec` (40 theorems): C18_undefined_cases, C25_inertial_of_inertial_refuted, C25_length_mismatch, C25_other_arguments_refuted, C37_modes, C41_mismatch_rejected, C47_assign_field, C47_assign_field_time, C47_assign_time, C47_copy_equal, C47_copy_fields_are_stale, C47_copy_follows_original, C47_copy_isolated_refuted, C47_data, C47_fields_follow, C47_interpolate, C47_interpolate_ignores_copied_time, C47_time, C47_translate, C48_occupied_group, C48_other_format_contents, C48_two_files_refused, C48_write_succeeds, C60_one_file, C60_rerun_refuted, C62_attributes, C62_frame_code, C71_default_type_refuted, C71_series_round_trip, C71_type_needed, C71_wave_round_trip, C82_columns, C92_dat_differences_refuted, C92_dat_refuted, C92_deleted_refuted, C92_deleted_with_output_refuted, C92_no_differences, C92_no_output, C92_one_file_refuted, C93_refused.

- `ClassicalDedekindReals.sig_forall_dec`, `FunctionalExtensionality.functional_extensionality_dep` (188 theorems): C09_one_word, C10_flags_are_records, C10_idempotent, C10_keeps_monotone, C10_monotonic_indices, C11_diverges_otherwise_refuted, C11_terminates_and_correct, C12_disjoint_rejected, C12_intersection, C14_SI_units_idempotent, C14_SI_units_seconds_refuted, C14_SI_units_total, C14_SI_units_unscales, C14_dimensionless, C14_dimensionless_then_SI, C17_alter_idempotent, C17_base_assertions, C17_base_exact, C17_data_not_an_array, C17_grid_assertions, C17_grid_complete, C17_grid_true_means, C17_is_valid_ignores_base_refuted, C17_modes_assertions, C17_modes_complete, C17_modes_true_means, C17_not_an_array, C18_commute, C18_full_is_composition, C18_involution, C18_parity_action, C18_parts_add_up, C19_norms_add_up, C25_constant, C25_constant_compose, C25_constant_then_series_refuted, C25_inertial_content, C25_inertial_round_trip, C25_norm, C25_physical_undoes_basis, C25_series, C25_series_compose, C30_form_determines, C30_group, C30_identity, C36_mass_aspect_truncated, C36_mass_aspect_zero_refuted, C37_above, C37_inverse, C38_abd, C38_com, C38_com_iterates, C38_rotation, C38_rotation_iterates, C38_solver, C38_solver_total, C38_superrest, C38_superrest_no_rounds, C38_superrest_time_phase_last, C38_superrest_unbound, C38_supertranslation, C38_supertranslation_iterates, C41_expectation_value, C42_estimate, C42_motionless_iff, C42_motionless_refuted, C43_accepted, C43_exact, C43_negative_order, C43_noise_floor_refuted, C43_nothing, C43_omegas_refuted, C43_order, C43_polyfit, C43_rejected, C43_rejected_orders, C43_unique, C43_units, C43_weights, C44_newer, C45_default, C45_increasing, C45_inverse_after, C45_inverse_before, C45_scale, C45_swapped_refuted, C47_copy_fields_follow_refuted, C47_copy_raw_detached_refuted, C47_translations_compose, C48_com_vectors, C48_guessed_type_refuted, C48_not_monotone_rejected, C48_other_format_unreadable, C48_other_group, C48_round_trip, C48_valid_and_complete_refuted, C48_versions, C49_same_unit_stable, C50_empty_raises, C50_max_norm_index, C53_hermitian, C53_rejections, C53_self_overlap, C53_value, C54_between, C54_black_holes, C54_masses_ignored_refuted, C54_neutron_stars, C58_nothing_dropped, C58_stored_times, C59_accepted, C60_alignment_at_zero_refuted, C60_alignment_time, C60_common_times, C60_extracted, C60_frames, C60_fresh_directory, C60_listed_order_refuted, C60_one_frame, C60_outermost, C60_outermost_extraction_refuted, C60_two_matches_refuted, C61_interpolation, C61_interpolation_ends_refuted, C62_attributes_lost_refuted, C62_constant_frame_refuted, C62_defaults, C62_frame_length_refuted, C62_from_and_back, C62_original_history_refuted, C62_round_trip, C62_valid, C66_region, C70_line, C71_target_news_refuted, C72_times_needed, C73_constant, C73_default_times, C73_kwargs_refuted, C73_low_mode_refuted, C73_single, C73_single_mode, C73_spin_refused, C73_times, C73_wrong_mode_refuted, C74_radii, C75_horizons, C75_table_refuted, C80_division, C81_newer, C81_newer_missing_refuted, C82_constant_refuted, C82_mass, C84_keeps, C84_mirror, C84_part_frames, C84_part_frames_refuted, C84_returned, C85_piece, C85_piece_refuted, C85_window, C86_with_frame_when, C92_all_files, C92_differences, C93_attributes_lost_refuted, C93_load, C93_load_defaults, C93_load_failures, C93_round_trip, C93_save_defaults, C95_by_parts, C95_covariant, C95_data, C95_failures, C95_interpolate, C95_interpolates, C95_linear, C95_out_one, C95_out_refuted, C95_passes, C95_scales, C95_spline, C95_three_refuted, C96_acceleration, C96_acceleration_refuted, C96_centred, C96_linear, C96_zero.

- `ClassicalDedekindReals.sig_forall_dec`, `ClassicalDedekindReals.sig_not_dec`, `FunctionalExtensionality.functional_extensionality_dep` (274 theorems): C08_conjugate_pair_values, C08_norm_preserved, C08_norm_preserved_back, C08_roundtrip, C08_roundtrip_back, C09_ignored, C09_missing_json, C09_scaling_refuted, C09_validated, C19_violation_normalized, C20_apply_eth, C20_apply_eth_rejects, C20_concatenation, C20_factor_is_word, C20_lower_raise, C20_rejects, C20_zero_iff_out_of_range, C21_entries, C21_positive_semidefinite, C21_trace, C22_comparison_entries, C22_yz_slot_refuted, C23_LVector, C23_LVector_real, C23_LdtVector, C23_generators_casimir, C23_generators_commute, C23_generators_hermitian, C24_consecutive_angles, C24_continuity_refuted, C24_unit_vectors_along_axes, C25_documented_compose, C25_documented_norm, C25_documented_round_trip, C25_documented_undone, C25_documented_z, C25_wigner_adjoint, C25_wigner_one, C25_wigner_product, C25_wigner_z, C28_accepted, C28_agree, C28_constant_mode, C28_grid_checked, C28_grid_sizes, C28_imaginary_refuted, C28_integer_time_refuted, C28_parameters, C28_precedence, C28_real, C28_sizes, C28_translation_function, C28_unchanged, C28_vector_modes, C29_increasing, C29_no_extrapolation, C29_slices, C29_time_translation, C30_agree, C30_agree_shear, C30_null_rotation, C32_identity, C34_exact, C34_initial, C34_mass_aspect, C34_sampled, C35_definitions, C35_integrated, C35_moreschi_real, C35_moreschi_real_exact, C35_pointwise, C36_CoM_pointwise, C36_angular_pointwise, C36_center_of_mass, C36_momentum_pointwise, C36_momentum_supermomentum, C36_projection, C36_projection_total, C36_rest_mass, C37_is_eth2_ethbar2, C37_potential, C39_opposite_refuted, C39_rotor, C39_time, C40_energy_flux, C40_non_negative, C41_angular_momentum_flux, C41_boost_flux, C41_boost_time_shift, C41_generators, C41_momentum_at_most_energy, C41_momentum_flux, C41_monopole_only_refuted, C41_poincare_fluxes, C41_rigid_rotation, C41_wrong_type, C52_angular_velocity_minimises, C55_conformal_factor, C56_at_rest, C56_rest_frame_spin, C56_translation, C57_angular_momentum, C57_boost, C57_momentum, C61_accepts, C61_assembled, C61_ell_max, C61_fields, C61_mixed_units_refuted, C61_monopole_refuted, C61_moreschi_boyle_strain_refuted, C61_no_data, C61_radius_needed, C61_radius_units_refuted, C61_spec_equations, C61_spec_strain, C61_spectre, C61_strain, C61_times_error_refuted, C61_times_must_agree, C61_units, C61_unknown_convention, C61_unknown_format, C63_accepts, C63_antisymmetric, C63_constant_frames_refuted, C63_difference, C63_different_counts, C63_frame, C63_frame_of_argument_lost_refuted, C63_limits_ignored_refuted, C63_other_modes_refuted, C63_self, C64_broadcast_refuted, C64_empty_frame_refuted, C64_extra_attribute_refuted, C64_missing_attribute, C64_number_against_array, C64_reflexive, C64_symmetric_refuted, C64_verdict, C65_at_nodes, C65_history, C65_lone_amplitude_refuted, C65_needs_all_modes, C65_no_modes, C65_no_times, C65_order, C65_read, C67_coprecessing, C67_empty_region_refuted, C67_integrated, C67_short_refuted, C67_z_region, C68_conjugate_fields, C68_field_rotation, C68_harmonic_conjugate, C68_real_function, C68_to_modes, C70_com_fit, C70_com_fit_line, C70_conformal_factor, C70_conformal_factor_in_plane, C70_conformal_factor_refuted, C70_correction, C70_fixed_point, C70_four_vector, C70_larger_refused, C70_smaller_refuted, C70_stationary, C70_supertranslated, C71_compose, C71_full_turns, C71_rotation, C71_undone, C72_addition, C72_evaluation, C72_fields, C72_harmonics, C72_momentum, C72_output_limit, C72_supermomentum, C73_bad_size, C73_none, C73_psi4, C73_rotation, C73_space, C74_accumulates, C74_expansion_refuted, C74_first, C74_no_terms, C74_second_term_refuted, C76_coordinates, C76_eth, C76_supermomentum, C76_transform, C77_collected, C77_interpolate, C77_refused, C77_sampled, C77_sides, C77_solution, C77_truncation, C77_violations, C79_keywords, C79_parts, C83_accepted, C83_close, C83_close_same, C83_close_sign_refuted, C83_close_sizes_refuted, C83_close_symmetric_refuted, C83_constructed, C83_copy, C83_file, C83_many, C83_others, C83_too_long, C84_half_turn_x, C84_half_turn_y, C84_half_turn_z, C84_inertial, C84_odd_spin_refuted, C84_reflection, C84_rotate, C84_turn, C84_violation, C84_violation_refuted, C85_error_degrees, C85_error_multiple, C85_error_same, C85_error_symmetric_refuted, C85_error_units, C85_error_units_refuted, C86_corotating, C86_generators, C86_rate, C86_rotate, C86_rotating, C86_rotating_velocity, C86_series, C86_tensor, C86_turned, C86_vector, C86_velocity, C86_velocity_symmetric, C86_with_frame, C86_with_frame_refuted, C87_angular_velocity, C87_psi, C87_psi_degrees, C87_psi_zero, C87_target_quadratic, C87_target_refuted, C87_velocity_same, C88_correction, C88_larger_target, C88_reached, C88_runs, C88_smaller_target, C88_target_point, C88_zero_target_refuted, C91_failures, C91_frames, C91_frames_drawn, C91_keywords_refuted, C91_orientation_refuted, C91_proportional, C91_random, C91_repeatable, C91_rotating_times, C91_stretch, C91_times, C91_uniform_times.

- `ClassicalDedekindReals.sig_forall_dec`, `ClassicalDedekindReals.sig_not_dec`, `Classical_Prop.classic`, `FunctionalExtensionality.functional_extensionality_dep` (216 theorems): C09_change_detected, C09_constant_frame_refuted, C09_frames, C09_given_log_frame, C09_returned_refuted, C09_returned_zero_tolerance, C09_round_trip, C09_words_of_doubles, C09_words_of_others, C09_zero_sample_refuted, C09_zero_tolerance_refuted, C26_between_and_monotone, C26_bump, C26_bump_plateaus, C26_derivative, C26_derivative_not_a_number_refuted, C26_derivative_overflow, C26_slope_is_derivative, C26_to_constant, C26_to_constant_ends, C26_transition, C26_value_overflow, C27_bump_sorted, C27_in_bounds_iff, C27_short_series_refuted, C27_sorted, C31_missing_component, C31_reorder, C31_round_trip, C31_small_ell_max, C31_truncates_at_12, C32_associative, C32_inverse, C32_product, C32_small_ell_max_refuted, C33_boost, C33_minus_one_refuted, C33_multiplicative, C33_rotation, C42_least_squares, C42_least_squares_accel, C42_recovers, C49_each_component, C49_shape, C49_total_error, C49_zero_row_refuted, C55_aberration, C55_boosted_direction, C55_parallel, C57_energy, C57_no_radiation, C58_increasing, C58_inside_horizon, C58_kept, C58_moving_radius_refuted, C58_order, C58_other_types, C58_reads, C58_repeated_times_refuted, C58_samples, C58_static, C58_units, C58_units_of_filter_refuted, C58_units_of_long_steps, C66_aligned, C66_phase_refuted, C66_phase_zero, C66_refused, C66_rotor, C67_corotating, C67_no_tolerance, C67_truncated, C68_frame_refuted, C68_grid, C68_inertial_only, C68_inverse_exists, C68_missing_scalar, C68_rotation, C68_rotation_compose, C68_rotation_is_rotate_basis, C68_round_trip, C68_sampling, C69_frame_refuted, C69_identity, C69_implementations_agree, C69_points, C69_refused, C69_rotation, C69_rotation_compose, C71_frame_refuted, C71_is_transform, C72_aliasing_refuted, C72_commutes, C72_default_output_refuted, C72_energy, C72_flip, C72_grid_multiply, C72_mass_aspect_real, C72_mean, C72_orthogonal, C72_same_as_modes, C72_symmetric, C72_unique, C73_agreement, C73_field, C73_pn_21, C73_pn_22, C73_pn_32, C73_pn_33, C73_pn_equal_masses, C73_pn_masses, C73_pn_order_0, C73_pn_reflection, C73_supertranslated, C73_supertranslation, C74_crowded_refuted, C74_energy_times, C74_file, C74_inverse, C74_mass_ratio_refuted, C74_read, C74_round_trip, C75_catalog_refuted, C75_centred, C75_companion_refuted, C75_companions, C75_directory_refuted, C75_dry, C75_file, C75_inertial_only, C75_masses, C75_rpxmb, C75_twice, C75_uniform, C75_unknown_format, C75_unknown_format_refuted, C75_versions_refuted, C76_initial, C76_leibniz, C76_modes, C76_pipeline, C77_initial, C77_norms, C77_solution_spline, C77_transform, C77_truncator_refuted, C78_rotation, C79_charge_0, C79_charge_1, C79_supertranslation, C79_translation, C79_translation_times, C80_com_fit, C80_rotation, C80_rotation_fixed_direction, C83_close_order_refuted, C85_fixed, C85_frame, C85_frame_time_phase, C85_itself, C85_round, C85_round_time_phase, C85_start, C85_start_delayed, C85_start_refuted, C85_superrest, C85_superrest_instant, C85_superrest_nothing, C87_rotation, C89_best, C89_no_direction, C89_other_sense, C89_quadratic, C89_reached, C89_round, C90_backwards, C90_circling_refuted, C90_defined, C90_inertial, C90_inspiral_frame, C90_inspiral_modes, C90_masses, C90_modes, C90_nutation, C90_opening_rate, C90_precession, C90_precession_refuted, C90_reflection, C90_ringdown, C90_settling, C90_settling_refuted, C90_space, C90_space_iff, C90_vanishing, C94_aliased_refuted, C94_factor, C94_polar, C94_prefix, C94_recovered, C94_shape, C94_unwrapped, C94_zero_refuted, C95_cubic, C95_cubics, C95_derives, C95_dot_of_int_refuted, C95_keeps_constants, C95_matrices, C95_straight, C96_even_average, C96_even_new, C96_simpson, C96_two, C96_uniform, C96_uniform_new, C96_uniform_refuted.

