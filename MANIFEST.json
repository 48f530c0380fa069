{
 "claims": [
  {
   "property": "C01",
   "status": "proved",
   "theorems": [
    "C01_slices_tile_coadd"
   ],
   "note": ""
  },
  {
   "property": "C02",
   "status": "proved",
   "theorems": [
    "C02_stamps_inside_coadd"
   ],
   "note": ""
  },
  {
   "property": "C03",
   "status": "proved",
   "theorems": [
    "C03_inexact_tilings_rejected"
   ],
   "note": ""
  },
  {
   "property": "C04",
   "status": "proved",
   "theorems": [
    "C04_symmetrize_weight_exact",
    "C04_symmetrize_weight_angle",
    "C04_symmetrize_weight_nonsquare"
   ],
   "note": ""
  },
  {
   "property": "C05",
   "status": "proved",
   "theorems": [
    "C05_symmetrize_bmask_exact",
    "C05_symmetrize_bmask_angle",
    "C05_symmetrize_bmask_monotone",
    "C05_symmetrize_bmask_nonsquare"
   ],
   "note": ""
  },
  {
   "property": "C06",
   "status": "proved",
   "theorems": [
    "C06_three_applications_symmetric",
    "C06_one_application_not_symmetric"
   ],
   "note": ""
  },
  {
   "property": "C07",
   "status": "proved",
   "theorems": [
    "C07_full_edge_detected",
    "C07_mixed_edge_not_detected",
    "C07_slice_has_flags"
   ],
   "note": ""
  },
  {
   "property": "C08",
   "status": "proved",
   "theorems": [
    "C08_masked_fraction",
    "C08_masked_fraction_grows_with_flags",
    "C08_masked_fraction_ignores_ignored",
    "C08_masked_fraction_everything_ignored"
   ],
   "note": ""
  },
  {
   "property": "C09",
   "status": "proved",
   "theorems": [
    "C09_support_is_nearby_good_pixels"
   ],
   "note": ""
  },
  {
   "property": "C10",
   "status": "proved",
   "theorems": [
    "C10_work_arrays_suffice"
   ],
   "note": ""
  },
  {
   "property": "C11",
   "status": "proved",
   "theorems": [
    "C11_interpolation_keeps_good_pixels",
    "C11_image_and_noises_interpolated_alike"
   ],
   "note": ""
  },
  {
   "property": "C12",
   "status": "proved",
   "theorems": [
    "C12_bad_values_ignored_one_image",
    "C12_bad_values_ignored_image_and_noises"
   ],
   "note": ""
  },
  {
   "property": "C13",
   "status": "proved",
   "theorems": [
    "C13_refuses_exactly_hopeless_one_image",
    "C13_refuses_exactly_hopeless_image_and_noises",
    "C13_nothing_bad",
    "C13_fill_without_isolated_pixels_fails",
    "C13_otherwise_returns_one_image",
    "C13_otherwise_returns_image_and_noises"
   ],
   "note": ""
  },
  {
   "property": "C14",
   "status": "proved",
   "theorems": [
    "C14_edge_copy_consistent",
    "C14_too_small_fails"
   ],
   "note": ""
  },
  {
   "property": "C15",
   "status": "proved",
   "theorems": [
    "C15_wrapped_exact_arithmetic",
    "C15_wrapped_is_functional",
    "C15_double_terminates_iff",
    "C15_double_range",
    "C15_double_exact",
    "C15_nonfinite_unchanged",
    "C15_arrays_elementwise"
   ],
   "note": ""
  },
  {
   "property": "C16",
   "status": "proved",
   "theorems": [
    "C16_jacobian_double",
    "C16_jacobian_of_affine_maps_double",
    "C16_inversion_residual_double",
    "C16_inversion_residual_zero_double",
    "C16_jacobian_ignores_branch",
    "C16_jacobian_exact_for_affine_maps",
    "C16_inversion_residual_ignores_branch",
    "C16_inversion_residual_zero_iff"
   ],
   "note": ""
  },
  {
   "property": "C17",
   "status": "proved",
   "theorems": [
    "C17_rejects_exactly_singular",
    "C17_maps_affinely",
    "C17_round_trips",
    "C17_origin",
    "C17_jacobian_is_derivative",
    "C17_double_rejection",
    "C17_round_trip_double"
   ],
   "note": ""
  },
  {
   "property": "C18",
   "status": "proved",
   "theorems": [
    "C18_bounds_are_padded_bounding_box",
    "C18_positions_on_the_image_are_contained",
    "C18_corners_are_contained",
    "C18_pixel_edges_need_the_buffer",
    "C18_positions_on_the_image_are_contained_double"
   ],
   "note": ""
  },
  {
   "property": "C19",
   "status": "proved",
   "theorems": [
    "C19_denominator_positive",
    "C19_even",
    "C19_zeros",
    "C19_positive_near_zero",
    "C19_not_exactly_one_at_zero",
    "C19_double_zeros",
    "C19_accuracy",
    "C19_kernel_accuracy",
    "C19_accuracy_double",
    "C19_kernel_accuracy_double"
   ],
   "note": ""
  },
  {
   "property": "C20",
   "status": "proved",
   "theorems": [
    "C20_value_is_the_kernel_sum",
    "C20_kernel_sum_is_unique",
    "C20_positions_are_independent",
    "C20_succeeds_up_to_size_3",
    "C20_linear",
    "C20_local",
    "C20_shift_covariant",
    "C20_integer_positions",
    "C20_value_is_the_kernel_sum_double",
    "C20_value_is_the_true_kernel_sum_double",
    "C20_any_order_double",
    "C20_source_order_double",
    "C20_integer_positions_double",
    "C20_integer_positions_need_finite_neighbours"
   ],
   "note": ""
  },
  {
   "property": "C21",
   "status": "proved",
   "theorems": [
    "C21_edge_iff_no_support",
    "C21_edge_iff_no_support_double",
    "C21_truncated_kernel_is_not_flagged"
   ],
   "note": ""
  },
  {
   "property": "C22",
   "status": "proved",
   "theorems": [
    "C22_two_at_once",
    "C22_two_accepts_any_size"
   ],
   "note": ""
  },
  {
   "property": "C23",
   "status": "proved",
   "theorems": [
    "C23_every_pixel_has_its_own_draw",
    "C23_fill_weight",
    "C23_epoch_noise",
    "C23_zero_chunk_size",
    "C23_epoch_noise_double",
    "C23_epoch_noise_single"
   ],
   "note": ""
  },
  {
   "property": "C24",
   "status": "proved",
   "theorems": [
    "C24_reproducible",
    "C24_chunk_size_irrelevant_for_full_width_chunks",
    "C24_narrow_chunks_change_the_image"
   ],
   "note": ""
  },
  {
   "property": "C25",
   "status": "proved",
   "theorems": [
    "C25_no_loss_at_any_crash_point",
    "C25_arrives",
    "C25_nothing_else",
    "C25_paths"
   ],
   "note": ""
  },
  {
   "property": "C26",
   "status": "proved",
   "theorems": [
    "C26_done_forever",
    "C26_missing_file",
    "C26_not_atomic",
    "C26_incomplete_visible"
   ],
   "note": ""
  },
  {
   "property": "C27",
   "status": "proved",
   "theorems": [
    "C27_original_never_changed",
    "C27_copy_is_complete",
    "C27_missing_original",
    "C27_cleanup",
    "C27_no_staging",
    "C27_other_file_removed_refuted"
   ],
   "note": ""
  },
  {
   "property": "C28",
   "status": "proved",
   "theorems": [
    "C28_own_output",
    "C28_outcome",
    "C28_uncompressed_file",
    "C28_exception_propagates",
    "C28_stale_output_refuted"
   ],
   "note": ""
  },
  {
   "property": "C29",
   "status": "proved",
   "theorems": [
    "C29_only_valid_slices",
    "C29_none_means_all",
    "C29_string",
    "C29_bad_string",
    "C29_not_a_number",
    "C29_range",
    "C29_range_members",
    "C29_range_too_long",
    "C29_others",
    "C29_negative_step_refuted",
    "C29_negative_step_past_the_end"
   ],
   "note": ""
  },
  {
   "property": "C30",
   "status": "proved",
   "theorems": [
    "C30_partition",
    "C30_disjoint",
    "C30_bad_n_chunks"
   ],
   "note": ""
  },
  {
   "property": "C31",
   "status": "proved",
   "theorems": [
    "C31_same_output",
    "C31_same_outcome",
    "C31_all_complete"
   ],
   "note": ""
  },
  {
   "property": "C32",
   "status": "proved",
   "theorems": [
    "C32_no_deadlock",
    "C32_bounded",
    "C32_ends",
    "C32_failures_are_reported",
    "C32_applies_to_runs",
    "C32_negative_n_chunks_hangs",
    "C32_killed_worker_can_hang"
   ],
   "note": ""
  },
  {
   "property": "C33",
   "status": "proved",
   "theorems": [
    "C33_same_results",
    "C33_seed_is_the_ith_draw",
    "C33_same_seeds",
    "C33_plan_exists"
   ],
   "note": ""
  },
  {
   "property": "C34",
   "status": "proved",
   "theorems": [
    "C34_regions_disjoint",
    "C34_contents",
    "C34_run_contents",
    "C34_extensions"
   ],
   "note": ""
  },
  {
   "property": "C35",
   "status": "proved",
   "theorems": [
    "C35_negative_raises",
    "C35_otherwise_exact",
    "C35_never_negative"
   ],
   "note": ""
  },
  {
   "property": "C36",
   "status": "proved",
   "theorems": [
    "C36_every_epoch_recorded_once",
    "C36_image_ids_recorded"
   ],
   "note": ""
  },
  {
   "property": "C37",
   "status": "proved",
   "theorems": [
    "C37_verdicts_exact",
    "C37_used_images_acceptable",
    "C37_masks_symmetrised_with_angles",
    "C37_masks_symmetrised_once",
    "C37_selection_does_not_fail"
   ],
   "note": ""
  },
  {
   "property": "C38",
   "status": "proved",
   "theorems": [
    "C38_weights_normalised",
    "C38_weights_normalised_double",
    "C38_unknown_weighting_fails"
   ],
   "note": ""
  },
  {
   "property": "C39",
   "status": "proved",
   "theorems": [
    "C39_coadd_exact",
    "C39_coadd_succeeds",
    "C39_coadd_is_weighted_mean",
    "C39_coadd_between_inputs",
    "C39_masked_fraction_in_unit_interval",
    "C39_coadd_order_independent",
    "C39_coadd_is_weighted_mean_double",
    "C39_masked_fraction_double",
    "C39_psf_sums_to_one_double"
   ],
   "note": ""
  },
  {
   "property": "C40",
   "status": "proved",
   "theorems": [
    "C40_pixel_mask_exact",
    "C40_unmarked_pixels_unchanged_f64",
    "C40_zero_weight_unchanged_pixel_refuted",
    "C40_copied_edge_pixel_refuted"
   ],
   "note": ""
  },
  {
   "property": "C41",
   "status": "proved",
   "theorems": [
    "C41_masks_of_the_nearest_pixel",
    "C41_masks_for_all_positions",
    "C41_unrepresentable_is_outside",
    "C41_position_outside_gets_first_row_refuted",
    "C41_masks_of_the_nearest_pixel_double",
    "C41_just_below_one_half_refuted"
   ],
   "note": ""
  },
  {
   "property": "C42",
   "status": "proved",
   "theorems": [
    "C42_nearest_coadd_pixel",
    "C42_nearest_coadd_pixel_double",
    "C42_needs_a_slice",
    "C42_unrepresentable_is_outside"
   ],
   "note": ""
  },
  {
   "property": "C43",
   "status": "proved",
   "theorems": [
    "C43_slice_bounds",
    "C43_slice_bounds_unique",
    "C43_not_smaller_than_the_box",
    "C43_slice_bounds_double",
    "C43_not_smaller_than_the_box_double"
   ],
   "note": ""
  },
  {
   "property": "C44",
   "status": "proved",
   "theorems": [
    "C44_accepted_bounds_are_inside",
    "C44_accepted_slices_are_read_completely",
    "C44_accepted_slices_can_be_read",
    "C44_slices_are_square",
    "C44_unchecked_bounds_lose_pixels"
   ],
   "note": ""
  },
  {
   "property": "C45",
   "status": "proved",
   "theorems": [
    "C45_scale_is_positive",
    "C45_signal_to_noise_is_kept",
    "C45_signal_to_noise_is_kept_double",
    "C45_common_zero_point"
   ],
   "note": ""
  },
  {
   "property": "C46",
   "status": "proved",
   "theorems": [
    "C46_tape_bumps",
    "C46_tape_bump_layout",
    "C46_first_row_and_column_not_masked",
    "C46_idempotent",
    "C46_cached_reads_agree_with_fresh_reads",
    "C46_mixed_use_refuted",
    "C46_first_row_and_column_are_missed"
   ],
   "note": ""
  },
  {
   "property": "C47",
   "status": "proved",
   "theorems": [
    "C47_caching_is_transparent",
    "C47_cache_is_bounded",
    "C47_hash_collision_refuted"
   ],
   "note": ""
  },
  {
   "property": "C48",
   "status": "proved",
   "theorems": [
    "C48_bits_of_the_flags",
    "C48_range",
    "C48_cuts_can_be_switched_off",
    "C48_nan_statistics_pass"
   ],
   "note": ""
  },
  {
   "property": "C49",
   "status": "proved",
   "theorems": [
    "C49_flags_are_only_added",
    "C49_flags_that_are_due",
    "C49_idempotent",
    "C49_section_is_needed"
   ],
   "note": ""
  },
  {
   "property": "C50",
   "status": "proved",
   "theorems": [
    "C50_accepts_exactly_the_consistent_tiles",
    "C50_reports_inconsistency",
    "C50_no_coadd_file",
    "C50_two_tiles_and_absent_key",
    "C50_order_does_not_matter",
    "C50_tile_and_band_are_unique"
   ],
   "note": ""
  },
  {
   "property": "C51",
   "status": "proved",
   "theorems": [
    "C51_ids",
    "C51_image_table",
    "C51_table_or_assertion",
    "C51_no_sources",
    "C51_wcs_errors",
    "C51_extension_kept_refuted"
   ],
   "note": ""
  },
  {
   "property": "C52",
   "status": "proved",
   "theorems": [
    "C52_values",
    "C52_absent",
    "C52_keys",
    "C52_lower_case"
   ],
   "note": ""
  },
  {
   "property": "C53",
   "status": "proved",
   "theorems": [
    "C53_stamps_are_centred",
    "C53_even_stamps_are_refused",
    "C53_coadd_layout",
    "C53_coadd_even_sizes_are_refused",
    "C53_coadd_centre_within_half_a_pixel",
    "C53_stamps_are_centred_double",
    "C53_coadd_layout_double",
    "C53_just_below_half_refuted"
   ],
   "note": ""
  },
  {
   "property": "C54",
   "status": "proved",
   "theorems": [
    "C54_psf_images",
    "C54_psf_images_exist",
    "C54_bad_stamps_are_refused",
    "C54_stored_psf",
    "C54_resampled_psf",
    "C54_psf_images_double",
    "C54_resampled_psf_double",
    "C54_needs_a_psf",
    "C54_resampled_psf_kernel_double"
   ],
   "note": ""
  },
  {
   "property": "C55",
   "status": "proved",
   "theorems": [
    "C55_width",
    "C55_flux_scale",
    "C55_pixel_order",
    "C55_positive",
    "C55_at_most_the_image",
    "C55_wider_images_are_wider",
    "C55_empty",
    "C55_default",
    "C55_width_double",
    "C55_flux_scale_double"
   ],
   "note": ""
  },
  {
   "property": "C56",
   "status": "proved",
   "theorems": [
    "C56_positions",
    "C56_grid_covers_the_image",
    "C56_table_exists",
    "C56_zero_step",
    "C56_entries",
    "C56_forward_at_the_nodes",
    "C56_inverse_at_the_nodes",
    "C56_positions_double",
    "C56_grid_covers_the_image_double",
    "C56_forward_at_the_nodes_double",
    "C56_number_of_lines_double"
   ],
   "note": ""
  },
  {
   "property": "C57",
   "status": "proved",
   "theorems": [
    "C57_area_nonnegative",
    "C57_flat_area",
    "C57_affine_area",
    "C57_celestial_area",
    "C57_area_table",
    "C57_table_exists",
    "C57_lookup_is_half_a_pixel_off",
    "C57_lookup_at_the_node_refuted",
    "C57_affine_area_double"
   ],
   "note": ""
  },
  {
   "property": "C58",
   "status": "proved",
   "theorems": [
    "C58_names_are_equal_iff_ranges_are",
    "C58_fits_paths_are_used",
    "C58_name",
    "C58_bad_ranges_are_refused",
    "C58_tags_are_distinguished_refuted"
   ],
   "note": ""
  },
  {
   "property": "C59",
   "status": "proved",
   "theorems": [
    "C59_effective_epochs_bounded",
    "C59_effective_epochs_double"
   ],
   "note": ""
  },
  {
   "property": "C60",
   "status": "proved",
   "theorems": [
    "C60_seed_in_range",
    "C60_command"
   ],
   "note": ""
  },
  {
   "property": "C61",
   "status": "proved",
   "theorems": [
    "C61_adds_exactly",
    "C61_succeeds_iff_free",
    "C61_second_call_raises",
    "C61_number_is_an_attribute_refuted",
    "C61_numbers_are_protected_refuted"
   ],
   "note": ""
  },
  {
   "property": "C62",
   "status": "proved",
   "theorems": [
    "C62_not_finite_is_bad",
    "C62_far_from_the_median_is_bad",
    "C62_order_does_not_matter",
    "C62_no_samples",
    "C62_flag_of_set_psf",
    "C62_far_from_the_median_is_bad_double",
    "C62_order_does_not_matter_double"
   ],
   "note": ""
  },
  {
   "property": "C63",
   "status": "proved",
   "theorems": [
    "C63_same_kernel_for_all_images",
    "C63_edge_pixels_are_zero",
    "C63_resampling_succeeds",
    "C63_same_kernel_for_all_images_double",
    "C63_edge_pixels_are_zero_double"
   ],
   "note": ""
  },
  {
   "property": "C64",
   "status": "proved",
   "theorems": [
    "C64_setters_are_required",
    "C64_interpolation_needs_a_slice",
    "C64_interpolated_images",
    "C64_masks_are_of_the_current_slice_refuted"
   ],
   "note": ""
  },
  {
   "property": "C65",
   "status": "proved",
   "theorems": [
    "C65_loaded",
    "C65_errors",
    "C65_psf_errors_are_not_fatal"
   ],
   "note": ""
  },
  {
   "property": "C66",
   "status": "proved",
   "theorems": [
    "C66_uncompressed_file_is_kept",
    "C66_temporary_directory"
   ],
   "note": ""
  },
  {
   "property": "C67",
   "status": "proved",
   "theorems": [
    "C67_constant_images",
    "C67_no_amplification",
    "C67_constant_not_preserved",
    "C67_constant_images_double",
    "C67_no_amplification_double",
    "C67_constant_not_preserved_double"
   ],
   "note": ""
  },
  {
   "property": "C68",
   "status": "proved",
   "theorems": [
    "C68_object_data_describe_the_slices",
    "C68_succeeds",
    "C68_fails_only_for_a_reason",
    "C68_width_from_the_header"
   ],
   "note": ""
  },
  {
   "property": "C69",
   "status": "proved",
   "theorems": [
    "C69_mask_is_the_stars",
    "C69_overlapping_slices_agree",
    "C69_faint_stars_ignored",
    "C69_catalogue_positions",
    "C69_mask_is_the_stars_double",
    "C69_overlapping_slices_agree_double",
    "C69_radius_polynomial_double"
   ],
   "note": ""
  },
  {
   "property": "C70",
   "status": "proved",
   "theorems": [
    "C70_order_permutes",
    "C70_order_is_valid",
    "C70_cells_stay_together",
    "C70_order_succeeds",
    "C70_order_fails_only_for_a_reason",
    "C70_cells_stay_together_double",
    "C70_one_cell_double"
   ],
   "note": ""
  },
  {
   "property": "C71",
   "status": "proved",
   "theorems": [
    "C71_lists_of_flags",
    "C71_images_rejected_by_list",
    "C71_repeated_flag_refuted"
   ],
   "note": ""
  },
  {
   "property": "C72",
   "status": "proved",
   "theorems": [
    "C72_results_are_labelled",
    "C72_file_contents",
    "C72_file_is_weighted_mean",
    "C72_file_is_weighted_mean_double",
    "C72_star_mask",
    "C72_slice_succeeds",
    "C72_shape_needed"
   ],
   "note": ""
  },
  {
   "property": "C73",
   "status": "proved",
   "theorems": [
    "C73_position_to_sky",
    "C73_sky_to_position",
    "C73_arrays_elementwise",
    "C73_answer_shape",
    "C73_bad_arguments",
    "C73_bad_wcs",
    "C73_round_trip_from_image",
    "C73_round_trip_from_sky",
    "C73_affine_undoes",
    "C73_jacobian",
    "C73_jacobian_one_position",
    "C73_affine_jacobian_is_derivative",
    "C73_affine_pixel_area",
    "C73_pixel_area_is",
    "C73_affine_round_trip_double",
    "C73_affine_pixel_area_double"
   ],
   "note": ""
  },
  {
   "property": "C74",
   "status": "proved",
   "theorems": [
    "C74_constructed",
    "C74_construction_succeeds",
    "C74_piff_and_pixmappy_belong_together",
    "C74_unknown_wcs_name",
    "C74_unknown_psf_name",
    "C74_flat_galsim_refused",
    "C74_own_positions_contained",
    "C74_corners_contained",
    "C74_own_positions_contained_double"
   ],
   "note": ""
  },
  {
   "property": "C75",
   "status": "proved",
   "theorems": [
    "C75_source_entry",
    "C75_source_succeeds",
    "C75_source_needs_keys",
    "C75_recorded_scale_is_applied",
    "C75_coadd_entry",
    "C75_coadd_entry_values",
    "C75_whole_tile",
    "C75_idempotent",
    "C75_no_campaign"
   ],
   "note": ""
  },
  {
   "property": "C76",
   "status": "proved",
   "theorems": [
    "C76_file_opened_only_after_checks",
    "C76_complete_file_or_exception",
    "C76_succeeds",
    "C76_no_exception_means_written",
    "C76_clean",
    "C76_clean_needs_stars_refuted",
    "C76_campaign_needed",
    "C76_files_are_distinct",
    "C76_file_name",
    "C76_file_needs_the_directory"
   ],
   "note": ""
  },
  {
   "property": "C77",
   "status": "proved",
   "theorems": [
    "C77_texts_recorded_in_full",
    "C77_zero_point",
    "C77_tile_information_kept",
    "C77_outcome"
   ],
   "note": ""
  },
  {
   "property": "C78",
   "status": "proved",
   "theorems": [
    "C78_extensions",
    "C78_names_are_distinct",
    "C78_keywords",
    "C78_one_tile_per_slice",
    "C78_dither_seed"
   ],
   "note": ""
  },
  {
   "property": "C79",
   "status": "proved",
   "theorems": [
    "C79_unusable_input_changes_nothing",
    "C79_output",
    "C79_succeeds",
    "C79_shape_is_optional_refuted",
    "C79_names_are_distinct"
   ],
   "note": ""
  },
  {
   "property": "C80",
   "status": "proved",
   "theorems": [
    "C80_seeds_drawn_in_order",
    "C80_seeds_in_range",
    "C80_seeds_are_stable"
   ],
   "note": ""
  },
  {
   "property": "C81",
   "status": "proved",
   "theorems": [
    "C81_answers_of_the_images",
    "C81_kept_images",
    "C81_fitting_images_are_kept",
    "C81_kept_slices_are_complete",
    "C81_selection_succeeds",
    "C81_inputs_can_be_built",
    "C81_images_are_examined_one_by_one",
    "C81_flagged_images_are_not_touched",
    "C81_tested_model_is_drawn",
    "C81_tested_model_is_drawn_refuted",
    "C81_kept_images_double",
    "C81_kept_slices_are_complete_double"
   ],
   "note": ""
  },
  {
   "property": "C82",
   "status": "proved",
   "theorems": [
    "C82_psf_sums_to_one_double",
    "C82_slice_succeeds",
    "C82_file_from_the_pixels",
    "C82_stars_are_not_counted",
    "C82_psf_sums_to_one",
    "C82_stars_are_not_counted_double",
    "C82_file_from_the_pixels_double"
   ],
   "note": ""
  },
  {
   "property": "C83",
   "status": "proved",
   "theorems": [
    "C83_what_a_run_works_with",
    "C83_unusable_input_changes_nothing",
    "C83_recorded",
    "C83_temporary_directory",
    "C83_changes_only_the_output",
    "C83_prepared_tile_is_accepted"
   ],
   "note": ""
  },
  {
   "property": "C84",
   "status": "proved",
   "theorems": [
    "C84_history_does_not_matter",
    "C84_processes_agree",
    "C84_answers",
    "C84_squares_real",
    "C84_squares_float",
    "C84_needs_hashes_refuted",
    "C84_needs_own_masks_refuted"
   ],
   "note": ""
  },
  {
   "property": "C85",
   "status": "proved",
   "theorems": [
    "C85_caches_change_nothing",
    "C85_caches_hide_no_errors",
    "C85_same_output",
    "C85_all_complete",
    "C85_same_outcome",
    "C85_ends",
    "C85_bounded"
   ],
   "note": ""
  },
  {
   "property": "C86",
   "status": "proved",
   "theorems": [
    "C86_what_the_slices_are_made_from",
    "C86_images_meet_conditions",
    "C86_outcomes",
    "C86_ways_agree",
    "C86_all_complete",
    "C86_same_file",
    "C86_slices_in_file",
    "C86_one_process",
    "C86_hash_of_the_id"
   ],
   "note": ""
  },
  {
   "property": "C87",
   "status": "proved",
   "theorems": [
    "C87_catalogue_of_the_tile",
    "C87_found_if_there",
    "C87_only_one",
    "C87_version_refuted",
    "C87_tile_refuted",
    "C87_download",
    "C87_download_fails",
    "C87_rooted_path_refuted",
    "C87_blank_refuted",
    "C87_recorded_catalogue",
    "C87_geometry_table",
    "C87_geometry_query"
   ],
   "note": ""
  },
  {
   "property": "C88",
   "status": "proved",
   "theorems": [
    "C88_equal_objects",
    "C88_equality",
    "C88_affine_keys",
    "C88_kept_keys",
    "C88_assignment_refuted",
    "C88_image_texts",
    "C88_hashes_of_a_run",
    "C88_image_information"
   ],
   "note": ""
  },
  {
   "property": "C89",
   "status": "proved",
   "theorems": [
    "C89_cell_of_point",
    "C89_answer_exists",
    "C89_not_a_number",
    "C89_infinite_points"
   ],
   "note": ""
  },
  {
   "property": "C90",
   "status": "proved",
   "theorems": [
    "C90_header_contents",
    "C90_result",
    "C90_spelling_is_irrelevant",
    "C90_upper_case_headers_unchanged"
   ],
   "note": ""
  },
  {
   "property": "C91",
   "status": "proved",
   "theorems": [
    "C91_any_order_double",
    "C91_orders",
    "C91_exact",
    "C91_numpy_order"
   ],
   "note": ""
  },
  {
   "property": "C92",
   "status": "proved",
   "theorems": [
    "C92_conversion",
    "C92_special_values",
    "C92_arithmetic",
    "C92_double_images",
    "C92_coadd_single",
    "C92_masked_fraction",
    "C92_written",
    "C92_masks_written",
    "C92_masks_fit",
    "C92_double_slices",
    "C92_file_contents",
    "C92_file_single"
   ],
   "note": ""
  },
  {
   "property": "C93",
   "status": "proved",
   "theorems": [
    "C93_workers_do_not_disturb_each_other",
    "C93_other_files_are_left_alone",
    "C93_nothing_is_left_without_a_directory",
    "C93_file_stays_until_the_directory_goes",
    "C93_a_removed_directory_stays_removed",
    "C93_a_worker_finishes",
    "C93_equal_names_mix_images_refuted",
    "C93_killed_worker_leaves_its_directory_refuted"
   ],
   "note": ""
  },
  {
   "property": "C94",
   "status": "proved",
   "theorems": [
    "C94_separate_runs_do_as_alone",
    "C94_output_at_every_moment",
    "C94_other_files_are_left_alone",
    "C94_different_names_are_separate",
    "C94_private_tmpdirs_are_separate",
    "C94_a_run_can_end",
    "C94_a_single_run_is_the_program",
    "C94_a_rerun_repairs",
    "C94_shared_tmpdir_mixes_the_outputs_refuted",
    "C94_new_tmpdir_raises_refuted",
    "C94_parallel_ranges"
   ],
   "note": ""
  }
 ]
}