# Print Assumptions, per theorem of MANIFEST.json

Generated by tools/assumptions.py. 710 theorems. Axioms that occur (all from the Coq standard library):

- **a** `ClassicalDedekindReals.sig_forall_dec`
- **b** `ClassicalDedekindReals.sig_not_dec`
- **c** `Classical_Prop.classic`
- **d** `Description.constructive_definite_description`
- **e** `FunctionalExtensionality.functional_extensionality_dep`

## Closed under the global context (150 theorems)

C01_scatter_slices_cover, C01_scatter_unique_owner, C01_scatter_rejects, C02_scatter_len_is_slice_length, C02_scatter_balanced, C02_scatter_len_all, C03_scatter_slice_all_refuted, C03_rankless_call, C04_klist_scatter_partition, C04_klist_distribute_partition, C04_klist_distribute_refuses_empty_groups, C05_dft_comm_groups, C05_one_root_per_kgroup, C05_rejects_bad_pwgrp_size, C05_rejects_bad_kgroup_count, C05_incl, C06_index_map_domain, C06_index_map_rejects, C06_index_map_injective, C06_index_map_surjective, C06_index_map_value, C07_gspace_accepts, C07_gspace_sorted_permutation, C07_gspace_data_round_trip, C08_g0_first_iff_present, C10_optimal_grid_dimension, C16_gather_scatter_identity, C16_scalar_shape_refuted, C26_no_mixing, C26_same_type, C26_elementwise, C26_results_wellformed, C26_getitem, C26_slice_positions, C26_getitem_in_range, C26_getitem_refuses_basis_axis, C26_setitem, C26_setitem_cuts_basis_refuted, C26_setitem_accepts, C26_reduce_leading, C26_reduce_basis, C26_reduce_basis_refuted, C26_out_no_mixing, C26_inplace, C26_constructors_wellformed, C26_reshape_exactly, C34_assign, C34_refusal_kind, C34_history, C34_numwork_mixing_refuted, C34_seed_shared, C34_initial_values, C36_same_collectives, C36_few_bands_refuted, C36_deadlock_refuted, C37_band_scatter, C39_counters, C40_long_counter_refuted, C42_order_must_be_positive, C43_projector_enumeration, C45_interleaved_roundtrip, C45_interleaved_onto, C45_odd_length_refused, C45_odd_length_refuted, C45_pairs_roundtrip, C45_pairs_inverse, C45_addressed_read_refuted, C45_parse_wfns_blocks, C45_parse_wfns_coefficients, C46_noncollinear_refuted, C48_reorder_refuses, C50_member_trace, C50_nonmember_skips, C50_parent_barrier_agrees, C50_exceptions_propagate, C50_falls_through_iff, C50_constructor_invariant, C50_null_methods_disabled, C51_letter_case, C51_int_language, C66_functional_from_species, C66_names_checked, C71_parallel_equals_serial, C78_density_lookup, C78_density_alias_refuted, C79_labels, C84_stream_used_once, C88_dict_roundtrip, C88_header_copy, C89_row_count, C90_dispatch, C91_arguments, C91_requested_layout, C91_acceptance, C91_refused_counts, C91_band_groups_refuted, C92_names, C96_basis_reduction, C96_elementwise, C96_leading_reduction, C96_coinciding_axis_refuted, C96_mixing_refused, C96_unsupported_refuted, C96_data_g0, C96_inplace, C101_in_place, C101_copies, C101_differs_refuted, C101_groups, C103_script, C103_failure, C103_reference, C103_example, C105_exact, C105_spins, C105_atoms_refuted, C105_real_refuted, C105_title, C105_truncated, C105_prefix, C106_index, C106_slice, C106_iteration, C109_same_call_same_class, C109_class_fits_arguments, C109_different_arguments_different_class, C109_spelling_matters, C109_distributed_any_spelling, C109_same_representation, C109_round_trip, C109_round_trip_keyword_refuted, C109_scatter, C109_validation_depends_on_history_refuted, C109_valid_call_succeeds, C113_log_file, C113_old_log, C113_no_log_lost, C113_distinct_stamps, C113_same_second_refuted, C113_message_one_file, C113_warning_one_file_refuted, C113_off_writes_nothing, C113_warning_shown_refuted, C113_old_name, C113_common_file_done, C113_steps_bounded, C113_common_file_refuted, C113_new_file_never_renamed, C113_new_file_done_refuted, C113_lines_kept

## Axioms a (27 theorems)

C16_slices_partition, C16_counts_cover, C17_too_many_ranks_fail, C19_norm2_is_dot, C39_refines_stopwatch, C39_full_table_refuted, C40_short_label, C40_long_label_refuted, C40_long_label_twice_refuted, C43_dij_couples_equal_lm, C48_reorder_entries, C48_reorder_composes, C48_reorder_inverse, C56_recursion_refuted, C87_empty, C89_species, C91_sphere_is_covered, C91_pools_miss_plane_waves_refuted, C96_vdot_mixed, C96_integrate_other_refuted, C104_write, C104_new, C104_getitem_is_view, C104_conj_real_refuted, C104_parts_are_views, C104_reshape, C104_iteration

## Axioms a, e (205 theorems)

C18_singular_axes_refused, C18_cryst_cart_inverse, C18_cryst2cart_is_combination, C18_scaled_units_inverse, C18_constructors, C19_dot_is_cartesian, C19_dot_scaled_units, C19_norm2_positive_definite, C19_cellvol, C21_supercell, C21_supercell_no_duplicates, C21_bad_repeats_refused, C22_numel_scales, C22_numel_exact, C22_plain_valence_refuted, C22_species_refused, C23_mesh_uniform, C23_bad_request_refused, C23_klist_mpgrid_refuted, C24_irreducible_sampling, C24_time_reversal_loses_points_refuted, C24_time_reversal_keeps_octant, C24_time_reversal_loses_points_general_refuted, C24_time_reversal_weights_refuted, C27_odd_refused, C27_spin_refused, C27_fixed_fills, C27_too_few_bands_refuted, C27_no_electrons_refuted, C29_numel_monotone, C29_result_sound, C29_bracket, C29_smearing_energy, C30_unbracketed_diverges_refuted, C30_terminates, C31_ring_holds_latest, C32_first_step, C32_fixed_point, C32_charge_conserved, C32_repeat_refuted, C32_error_estimate, C33_modbro_later_pure, C33_only_rho_in_touched, C33_first_call_refuted, C33_genbro_returns_argument_refuted, C35_stops_and_reports, C35_converged_density, C35_threshold_monotone, C35_threshold_rule, C35_threshold_refuted, C36_density_complete, C39_laps, C44_exact_for_cubics, C44_weights_sum_to_one, C44_error_bound_attained, C45_parse_wfns_refuted, C45_parse_wfns_exact, C48_sorted_permutation, C48_lengths, C48_separated_keys, C48_order_independent, C48_close_keys_are_ties_refuted, C48_reorder_product, C51_namelist_read, C51_namelist_object, C51_float_language, C51_unknown_key_rejected, C51_malformed_rejected, C51_inline_comment_rejected, C51_logicals_refuted, C51_string_case_refuted, C51_comma_in_string_refuted, C51_blank_line, C51_missing_index, C51_card_read, C51_kpoints_card, C51_cell_card, C51_required_sections, C51_card_d_exponent_refuted, C51_unknown_section, C51_fuel, C51_field_types, C51_card_count, C52_folded_range, C52_folded_exact, C52_unit_cell_refuted, C52_shift_is_a_lattice_vector, C52_unique_partner, C52_wrapped_list_refuted, C53_mesh_points, C53_mesh_wrap_is_lattice_shift, C53_default_origin_refuted, C55_k_tpiba_refused_refuted, C55_k_tpiba_wrong_refuted, C55_k_tpiba_exact, C56_transparent, C57_least_residual, C57_mixers_agree, C58_all_ranks_same, C58_singular_blocks_refuted, C63_gradient_coefficients, C63_divergence_coefficients, C63_div_grad_is_laplacian, C63_nonnegative_axis_refuted, C63_inner_axis_refuted, C69_simpson_odd_mesh, C69_simpson_even_mesh_refuted, C69_quartic_is_integral, C69_table_entry, C70_overlap, C70_overlap_hermitian, C70_aliasing_refuted, C70_last_occurrence, C72_index_q0, C72_index_q0_errors, C73_upf_read, C73_dij_square, C73_sections_present, C73_no_projectors_refuted, C73_logical_spelling_refuted, C73_missing_attribute_refuted, C73_projector_count_refuted, C74_unknown_unit_refused, C75_values, C75_epsilon_inp, C75_epsilon_options_refuted, C75_sigma_inp, C75_sigma_required, C75_bad_value, C75_names_legal, C75_unterminated, C75_scale_and_metal_refuted, C77_bra_kpoint, C78_static_sum, C78_static_sum_refuted, C79_linearised, C79_returned_columns, C79_primed_columns_refuted, C79_other_processes_refuted, C80_positions, C80_charge_centre, C80_interrupted_file, C80_file_lost_refuted, C83_passes_iff_same, C83_root_never_objects, C83_disagreement_hangs_refuted, C83_missing_mass_refuted, C83_needs_pseudopotential, C85_clipping, C86_band_energy, C86_total_minus_hwf, C86_converged_energies, C89_load, C89_reject, C89_two_spins, C89_inner_products, C89_tolerance, C94_tables, C94_truncated, C94_second_spin_refuted, C94_long_row, C96_vdot, C96_integrate, C97_sample_count, C98_inner_products, C100_load, C100_comments, C100_vxc_read, C100_vxc_refused, C102_positions, C102_accepted, C102_one_coordinate_refuted, C102_refusals, C102_valence, C106_points, C106_accepted, C106_one_coordinate_refuted, C106_zero_weights_refuted, C106_new, C106_qpoints, C107_eigenvalues, C111_k_points, C111_missing_k_point, C111_density, C111_spin_density_refuted, C111_q_points_from_data, C111_q_points_from_scf, C111_flagged_point_ignored_refuted, C111_spheres_aligned, C111_zero_at_same_place, C112_same_operator_as_h_psi, C115_lattice, C115_lattice_class_refuted, C115_basisatoms, C115_gkspace, C115_kpts, C115_close_symmetric_refuted, C116_each_coefficient, C116_loads, C116_centred_basis_always_refused, C116_library_gspace_always_refused, C116_up_files_never_read_refuted, C116_charge_density_never_read_refuted, C117_split, C117_after_fixed

## Axioms a, b, e (270 theorems)

C09_gspace_is_sphere, C09_caller_order_by_length, C09_gspace_total, C09_gspace_refuses_bad_cutoff, C09_gkspace_is_sphere, C09_default_grid_refused_finding, C11_minimal_grid_contains_sphere, C11_default_grid_complete, C12_any_grid_accepted, C12_small_grid_check_refuted, C13_g2r_is_fourier_sum, C13_r2g_is_projection_on_plane_waves, C13_roundtrip_gspace, C13_roundtrip_gkspace_scales, C13_roundtrip_gkspace_identity_refuted, C14_sticks_equal_full, C15_full_history_independent, C15_sticks_history_independent, C15_result_without_arr_out_refuted, C15_shared_array_shows_newest, C17_distributed_equals_serial, C19_norm_is_sqrt, C20_reciprocal_dual, C20_reciprocal_exists, C20_reciprocal_round_trip, C20_reciprocal_volume, C25_default_grid_closed, C25_group_average, C25_real_space_average, C25_invariant, C25_idempotent, C25_symmetric_unchanged, C25_charge_kept, C25_density_stays_nonnegative, C25_operations_are_a_group, C25_filter_keeps_group, C25_filter_keeps_group_cubic, C25_filter_group_refuted, C25_history_refuted, C25_same_grid_again, C25_filter_distance, C25_distributed, C37_workspace, C37_iterations, C37_expansion, C38_converged, C38_upper_bound, C38_monotone, C38_every_exit, C38_vectors_stale, C38_ksham_is_hermitian, C41_cell_of_the_manual, C41_unknown_ibrav, C41_missing_parameter, C41_traditional_constants, C41_triclinic_refuted, C41_triclinic_cell, C41_cell_parameters_card, C41_traditional_input_refuted, C42_taylor_is_truncated_exponential, C42_norm_first_order, C42_norm_fourth_order, C42_spin_polarised_refuted, C42_noncollinear_refuted, C43_rows_carry_their_label, C43_operator_is_kleinman_bylander, C43_diagonal, C43_operator_hermitian, C43_translation, C43_periodic_images, C44_in_range, C44_out_of_range_refused, C45_init_from_hdf5, C45_unknown_vector, C45_repeated_vector_refuted, C46_h_psi_is_matrix_product, C46_linear, C46_hermitian, C46_expectation_real, C47_hermitian, C47_negative_semidefinite, C47_routes_agree, C47_routes_agree_refuted, C47_epsilon_defined, C47_epsilon_positive, C49_hartree_is_the_coulomb_sum, C49_potential_is_linear_in_the_total_density, C49_energy_nonnegative, C49_energy_is_quadratic, C49_other_spin_counts_rejected, C49_potential_has_zero_average, C49_real_density_has_real_potential, C49_poisson_equation, C52_momentum_conserved, C54_parseval, C59_preconditioner_divisor, C59_preconditioner_value, C59_preconditioner_diagonal, C59_scf_preconditioner_diagonal_refuted, C60_exact_start_refuted, C61_density_of_normalised_orbitals, C61_density_integrates_to_electrons, C61_band_list_not_normalised_refuted, C61_no_band_raises, C62_etrs_taylor_step, C62_etrs_split_step_refuted, C63_gradient_is_the_derivative, C64_ewald_sum, C64_atom_order_irrelevant, C64_translation_invariant, C64_all_images_in_axis_aligned_cells, C64_all_images_in_skewed_cells_refuted, C64_equivalent_positions_refuted, C65_radial_transform, C65_continuous_at_zero, C65_radial_transform_any_mesh_refuted, C65_atomic_density, C65_total_charge, C65_real_density, C65_translation, C65_atom_order_irrelevant, C65_local_potential, C65_core_correction_refuted, C66_energy_and_potential, C66_functional_order_irrelevant, C66_core_correction_refuted, C66_mixed_families_refuted, C66_bad_shape_rejected, C66_spin_consistent, C67_own_celldm_independent, C67_history_independence_refuted, C68_grid_is_least_smooth, C68_grid_holds_density_sphere, C68_boundary_refuted, C69_bessel_well_defined, C69_spherical_jn_accuracy, C69_order_limit, C72_body_unchanged, C72_q0, C72_nonq0, C72_bare_identity, C72_fixedeps_nonq0, C72_fixedeps_nonq0_refuted, C74_atoms, C74_cell_and_cutoffs, C74_bands, C74_smearing, C74_magnetization, C74_automatic_kpoints, C74_explicit_kpoints_refuted, C74_input_dft_refuted, C74_fallback_refuted, C74_nbnd_ignored_refuted, C74_if_pos_refuted, C74_accepts, C74_validated, C74_functional, C76_schedule_independent, C76_exchange_formula, C76_exchange_negative, C76_screened_formula, C76_screening_signs, C76_needs_empty_band, C76_repeated_kpoint_refuted, C77_minus_q_found, C77_minus_q_wrapped_refuted, C77_g_map_is_a_permutation, C77_momentum_conserved, C77_transfer_is_minus_q, C77_element_labels, C78_modes, C78_branches_agree, C78_dropped, C78_static_limit, C78_skipped_contributes_refuted, C78_pole_refuted, C78_schedule_independent, C78_mode_parameters, C78_self_energy_formula, C78_modes_defined, C79_exact_hole_bands_refuted, C79_exact_hole_formula, C80_dipole_is_first_moment, C80_density, C80_response, C80_direction_checked, C80_write_freq_refuted, C80_kick, C80_zero_kick, C80_origin_independent, C81_refused, C81_name_ignored_without_factor, C81_default_step, C81_energies, C81_polynomial_damping, C81_real_dipole, C81_linear, C84_coefficients, C84_bounded, C84_more_bands, C84_more_bands_refuted, C84_spin_channels_equal, C84_kgroups, C84_plane_wave_ranks_repeat_refuted, C84_noncollinear_refuted, C85_polarised_start, C85_short_magnetisations_refuted, C85_unpolarised_start, C85_refusals, C85_normalised_charge, C85_moment, C86_double_counting, C87_roundtrip, C87_two_roundtrips, C87_conjugated_refuted, C87_negligible_row_refuted, C92_same_transforms, C92_fourier_sum, C92_distributed, C92_distributed_cupy_refuted, C93_refused, C93_scipy_sees_hamiltonian, C93_primme_sees_hamiltonian, C93_lowest_eigenpairs, C93_threshold_ignored_refuted, C93_preconditioner, C95_schedule_independent, C95_exact_formula, C95_first_band_ignored_refuted, C95_later_kpoints_refuted, C95_exact_sign, C95_complete_bands, C95_report, C96_norm2, C97_neighbourhood, C98_h_psi, C98_density, C99_g2r_given, C99_r2g_given, C99_g2r_new, C99_r2g_new, C99_uneven_output_lost, C99_refused, C99_container_to_r, C99_container_to_g, C99_container_roundtrip, C108_basis_exists, C110_expectation_value, C110_matrix_element, C110_between_extremes, C110_independent_of_norm_and_phase, C110_constant_shift, C110_one_row_per_local_kpoint, C110_spin_down_orbitals_ignored_refuted, C110_spin_channels_added_refuted, C111_dielectric_at_q0, C111_dielectric_elsewhere, C112_half_step_is_exponential, C112_species_in_turn, C112_unitary, C112_time_reversal, C112_no_projectors, C112_step_norm, C112_step, C114_means_close, C114_close_means_equal, C114_reflexive_symmetric, C114_chain, C114_transitive_refuted, C114_unit_refuted

## Axioms a, b, c, e (57 theorems)

C28_fermi_dirac, C28_gaussian, C28_cold_refuted, C29_entropy_sign, C29_count_fd_gauss, C29_cold_count_refuted, C29_entropy_fd_gauss, C29_cold_entropy_refuted, C29_unknown_smearing, C30_degenerate_bands_refuted, C30_all_smearings_terminate, C30_outside_never_returns, C30_degenerate_exact, C42_eigenstate_phase_error, C44_error_bound, C65_quadrature_exact_on_cubics, C66_potential_is_energy_derivative, C69_projector_radial_factor, C71_averages_are_averages, C71_cell_volume, C71_sphere_average, C71_oneoverq_average, C71_shifted_sphere_average, C71_shifted_at_origin, C82_entropy_slope, C82_level_derivative, C82_grand_potential, C82_returned_free_energy, C90_conversion, C90_zgemm, C90_accumulate, C90_accumulate_refuted, C90_h_psi_error, C90_h_psi_rounded_refuted, C97_no_neighbour_refused, C97_gamma_value, C97_shifted_value, C97_short_shift_refuted, C97_box, C97_single_point, C100_round_trip, C100_columns, C107_energies, C107_sum, C107_status, C107_refuses, C108_time_reversal, C108_periodic, C108_translation, C108_levels_opposite_k, C108_levels_periodic, C108_levels_translation, C108_hamiltonian_exists, C108_hermitian, C114_dual_refuted, C114_dual_back_refuted, C117_after_fermi_dirac

## Axioms a, b, c, d, e (1 theorems)

C38_last_iteration_refuted

