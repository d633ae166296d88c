# Axioms per theorem

What `Print Assumptions` lists for each `Cnn_...` theorem and example. All are axioms of the
Coq standard library; none is declared here.

* `-` closed under the global context
* `A` `ClassicalDedekindReals.sig_forall_dec`
* `B` `ClassicalDedekindReals.sig_not_dec`
* `C` `Classical_Prop.classic`
* `F` `FunctionalExtensionality.functional_extensionality_dep`

**C01** -: `C01_C06_instance`, `C01_hypotheses_met`, `C01_persists`, `C01_returns`, `C01_saturated_exactly`

**C02** -: `C02_dilation`, `C02_instance`, `C02_small_images_fail`, `C02_small_instance`

**C03** -: `C03_only_adds`, `C03_pixel_dq`

**C04** -: `C04_ad_floor`

**C05** -: `C05_instance`, `C05_no_sat_check`

**C06** -: `C06_no_read_pattern`, `C06_partial_saturation`

**C07** -: `C07_at_least_one`, `C07_bounded`, `C07_decimal`, `C07_decimal_example`, `C07_instance`, `C07_recognised`, `C07_unrecognised_is_one`, `C07_zero_request_refuted`

**C08** -: `C08_partition`, `C08_partition_instance`, `C08_slices_cover`, `C08_slicing_transparent`, `C08_suppression_lost`, `C08_suppression_off`, `C08_suppression_refuted`, `C08_transparent_instance`, `C08_zero_slices_refuted`

**C09** -: `C09_direct_subtraction`, `C09_instance`, `C09_one_group_dark_raises`

**C10** -: `C10_averaged_dark`, `C10_coarse_dark_refuted`, `C10_exactly_instance`, `C10_instance`, `C10_mean_of_available`, `C10_segment_refuted`, `C10_single_frame_exactly`

**C100** -: `C100_fallback_refuted`, `C100_intensity`, `C100_spectral_refuted`; ABF: `C100_given_scale`, `C100_input_area`, `C100_output_area`, `C100_product_ratio`, `C100_ratio`, `C100_ratio_example`

**C101** -: `C101_centre_refuted`; ABF: `C101_example`, `C101_far_edge`, `C101_pixel_edges`, `C101_pixmap`

**C102** -: `C102_exact`, `C102_once`; ABF: `C102_example`, `C102_level`

**C103** -: `C103_example`, `C103_missing`, `C103_positions`

**C104** -: `C104_example`, `C104_isolated_refuted`, `C104_not_dnu_refuted`, `C104_only_rnoise`, `C104_rnoise`, `C104_unflagged`, `C104_unflagged_pixel`; ABF: `C104_exposure`, `C104_real_example`, `C104_rnoise_real`

**C105** -: `C105_case`, `C105_case_example`, `C105_chargeloss_refuted`, `C105_example`, `C105_likely`, `C105_names`, `C105_ols`; F: `C105_short_likely`

**C106** -: `C106_documented_refuted`, `C106_example`, `C106_names_needed`

**C107** ABCF: `C107_recovers`; ABF: `C107_example`, `C107_first_group`, `C107_masks`, `C107_readtimes`, `C107_unusable_refuted`

**C108** -: `C108_all_saturated_refuted`, `C108_example`, `C108_miri_refuted`, `C108_no_result`, `C108_no_result_example`; F: `C108_own_pixel`

**C109** -: `C109_error_refuted`, `C109_example`, `C109_unflagged_refuted`; ABF: `C109_flagged`, `C109_no_difference`

**C11** -: `C11_instance`, `C11_skip_and_dq`

**C110** -: `C110_dq_words`, `C110_example`, `C110_noise`, `C110_single_ramp`, `C110_single_refuted`, `C110_unit`, `C110_unit_refuted`; F: `C110_pixelwise`

**C111** -: `C111_cas22`, `C111_cas22_dq`, `C111_cas22_example`, `C111_example`, `C111_fewer_jumps`; ABF: `C111_cas22_intercept`

**C112** -: `C112_first_example`, `C112_rate`, `C112_rate_example`; ABF: `C112_mean`, `C112_mean_example`, `C112_mean_nan`, `C112_mean_nan_ex`, `C112_poisson`, `C112_poisson_example`, `C112_poisson_nan`, `C112_poisson_nan_ex`

**C113** -: `C113_cut_raises`, `C113_empty_raises`, `C113_no_overlap`, `C113_region`; ABF: `C113_ragged_refuted`, `C113_region_example`, `C113_run_example`, `C113_several_polygons_refuted`

**C114** -: `C114_box`, `C114_neither`; ABF: `C114_example`; AF: `C114_mod_example`, `C114_ra_360_refuted`, `C114_ra_range`

**C115** -: `C115_one_group_refuted`; ABF: `C115_example`, `C115_pedestal`

**C116** -: `C116_example`, `C116_nan_ignored_refuted`, `C116_nan_is_zero`

**C117** -: `C117_example`, `C117_grows_again`, `C117_idempotent`, `C117_idempotent_refuted`; F: `C117_references`

**C118** -: `C118_brighter`, `C118_example`, `C118_floor`

**C119** -: `C119_cas22_example`, `C119_detection_example`, `C119_rounding_refuted`; ABF: `C119_cas22`, `C119_cas22_nan`, `C119_cas22_nan_ex`, `C119_cas22_pixel`, `C119_detection`, `C119_find_crs`, `C119_likely`, `C119_likely_example`

**C12** -: `C12_instance`, `C12_polynomial`, `C12_zeroframe`; ABF: `C12_exact_polynomial`

**C120** -: `C120_cut_refuted`; ABF: `C120_chargeloss`, `C120_example`, `C120_units`

**C121** -: `C121_count`, `C121_example`, `C121_find_crs`

**C122** -: `C122_amplitude_refuted`, `C122_cores`, `C122_cores_example`, `C122_cores_showers_refuted`, `C122_defined`, `C122_defined_example`, `C122_events_refuted`, `C122_flags`, `C122_groups`, `C122_groups_example`, `C122_jump_on_dnu_refuted`, `C122_skipped_count_refuted`; ABF: `C122_units`, `C122_units_example`

**C123** ABF: `C123_even_pattern`, `C123_example`, `C123_time_unit`

**C124** -: `C124_defined`, `C124_integrations_alone`, `C124_only_adds`, `C124_plain`, `C124_snowballs_left_out`, `C124_threshold_off`; ABCF: `C124_line`, `C124_line_ex`, `C124_line_zeroframe`; ABF: `C124_pixels_alone_ex`; F: `C124_fitted`, `C124_pixels_alone`, `C124_saturated_fitted_refuted`, `C124_snow`

**C125** ABCF: `C125_units_ex`; ABF: `C125_units`

**C126** -: `C126_threshold_refuted`; ABF: `C126_flat_ex`, `C126_flat_threshold`, `C126_pixel`, `C126_time`

**C127** -: `C127_used`; ABF: `C127_bounds`, `C127_missing`, `C127_product_bounds`, `C127_product_uniform`, `C127_scales`, `C127_uniform`

**C128** ABF: `C128_mirrored`, `C128_resampled_ex`, `C128_resampled_threshold`, `C128_resampled_unit`, `C128_resampled_zero`, `C128_threshold`, `C128_threshold_ex`, `C128_transposed`, `C128_unit`, `C128_upside_down`, `C128_zero`

**C129** ABF: `C129_ex`, `C129_local`, `C129_local_ex`, `C129_unit`

**C13** -: `C13_flags`, `C13_infinite_sample_refuted`, `C13_inverse_only_refuted`, `C13_passthrough_double`, `C13_passthrough_single`, `C13_raises_exactly`, `C13_reuse_loses_flag_refuted`, `C13_reuse_same_values`; ABF: `C13_readlevel_passthrough`

**C130** ABF: `C130_detects`, `C130_example`, `C130_follows_unit`, `C130_half`, `C130_keeps`, `C130_majority`, `C130_median`, `C130_missing`, `C130_order`, `C130_order_example`, `C130_unit`

**C131** ABF: `C131_additive`, `C131_additive_example`, `C131_example`, `C131_frames`, `C131_matching`, `C131_matching_example`; F: `C131_cutout`

**C132** -: `C132_dip_one_pass`, `C132_dip_refuted`; ABF: `C132_example`, `C132_iterative`, `C132_single_pass`, `C132_steady`

**C133** ABCF: `C133_example`; ABF: `C133_rate_unchanged`

**C134** -: `C134_casertano`, `C134_casertano_example`, `C134_jump_example`, `C134_least_squares`, `C134_least_squares_example`, `C134_one_group_refuted`; F: `C134_jump`

**C135** -: `C135_drop_refuted`, `C135_found_example`; ABCF: `C135_one_step_example`; ABF: `C135_one_step`, `C135_rate_when_found`

**C136** ABF: `C136_bounds`, `C136_chisq_missing`, `C136_example`, `C136_missing`, `C136_one`, `C136_one_example`

**C137** -: `C137_exposure_refuted`, `C137_poisson_refuted`; ABF: `C137_best`, `C137_more`

**C138** -: `C138_after_jump_refuted`, `C138_clipping_refuted`, `C138_example`, `C138_iteration_refuted`, `C138_neighbours_refuted`, `C138_same_example`; F: `C138_keeps`, `C138_neighbours`, `C138_same`

**C139** ABF: `C139_accepts`, `C139_units`

**C14** -: `C14_instance`, `C14_rows_independent`, `C14_saturated_unchanged`, `C14_tile_height`

**C140** ABCF: `C140_equal_example`, `C140_example`; ABF: `C140_between`, `C140_equal`

**C15** -: `C15_disk_equals_memory`, `C15_disk_median_of_appended`, `C15_ex`, `C15_sections`, `C15_used_once`

**C16** -: `C16_acceptance_limit`, `C16_accepts_n_default_refuted`, `C16_accepts_n_refuted`, `C16_default_buffer`, `C16_ex_default`, `C16_large_buffer_accepts_one`, `C16_rejects_extra_refuted`

**C17** -: `C17_abs_deriv`, `C17_abs_deriv_ex`, `C17_abs_deriv_nan`, `C17_flag_crs`, `C17_flag_crs_ex`, `C17_flag_crs_never_nan`, `C17_infinite_error_refuted`, `C17_infinite_pixel_refuted`; ABF: `C17_abs_deriv_exact`, `C17_flag_crs_exact`

**C18** -: `C18_after_jump`, `C18_after_jump_example`, `C18_example`, `C18_propagate`, `C18_strategy_irrelevant`

**C19** -: `C19_border_rows`, `C19_example`, `C19_four_neighbours`

**C20** -: `C20_example`, `C20_no_jump_on_unusable`, `C20_only_jump_changes`

**C21** -: `C21_after_jump_refuted`, `C21_example`, `C21_minimum_groups_refuted`, `C21_multi_equals_single`, `C21_reassembly`, `C21_rows_example`, `C21_rows_once_in_order`, `C21_sigma_clip_refuted`, `C21_slice_skip_refuted`

**C22** -: `C22_example`, `C22_group_count_refuted`, `C22_skip_iff`, `C22_too_few_groups`

**C23** -: `C23_clip`, `C23_example`, `C23_iterative_search`, `C23_never_readmitted`, `C23_one_per_round_refuted`, `C23_stops_for_good`, `C23_terminates`

**C24** -: `C24_core_size`, `C24_core_size_example`, `C24_defined`, `C24_every_group_count_refuted`, `C24_example`, `C24_expansion_example`, `C24_extend_exact`, `C24_jump_only_inside`, `C24_keeps_flags_refuted`, `C24_saturation`, `C24_snowball_covered`, `C24_subimage_exact`, `C24_two_groups_fail`; ABF: `C24_ellipse_in_subimage`, `C24_expansion`

**C25** -: `C25_integrations_independent`, `C25_persistence`

**C26** -: `C26_example`, `C26_maximal_runs`, `C26_runs`, `C26_time_order`

**C27** -: `C27_accounts`, `C27_example`, `C27_no_detection`

**C28** -: `C28_example`, `C28_zero_read_noise_refuted`; ABCF: `C28_linear_pixel_nan_ex`, `C28_pow_example`; ABF: `C28_estimator`, `C28_linear_pixel`, `C28_linear_pixel_nan`, `C28_linear_ramp`, `C28_shift`

**C29** -: `C29_table`; ABF: `C29_exponent_example`, `C29_ramp_exponent`, `C29_table_real`

**C30** -: `C30_example`, `C30_members`, `C30_ordered_disjoint`, `C30_runs_exist`, `C30_saturated_example`, `C30_saturated_first`, `C30_segments`

**C31** -: `C31_large_variance_refuted`; ABCF: `C31_example`, `C31_nan_ex`; ABF: `C31_exposure_slope`, `C31_integration_slope`, `C31_nan`

**C32** -: `C32_compress_example`, `C32_compress_groups`, `C32_compress_integrations`, `C32_example`, `C32_exposure_flags`, `C32_integration_flags`, `C32_zeroframe_saturation_refuted`

**C33** -: `C33_all_jump_refuted`, `C33_chargeloss_variance_refuted`, `C33_example`, `C33_exposure_invalid`, `C33_integration_invalid`, `C33_other_flags`

**C34** -: `C34_example`, `C34_one_group_example`, `C34_one_group_exposure`, `C34_suppression_exact`, `C34_suppression_not_applied`

**C35** -: `C35_discard`, `C35_example`, `C35_fit_example`, `C35_jump_cleared`, `C35_refused_but_changed_refuted`; F: `C35_fit`

**C36** -: `C36_data_left_swapped_refuted`, `C36_data_survives_iff`, `C36_fitted_as_native`, `C36_gain_readnoise_restored`, `C36_native_untouched`, `C36_zeroframe_misread_refuted`

**C37** ABCF: `C37_any_covariance`, `C37_best_linear_unbiased`, `C37_gls`, `C37_gls_ex`, `C37_minimises_chisq`

**C38** -: `C38_masked_nan_refuted`; ABCF: `C38_constant_rate`, `C38_constant_rate_ex`, `C38_masked_ignored`, `C38_masked_ignored_ex`

**C39** -: `C39_ex`, `C39_fit_filled`, `C39_jump_flags`, `C39_monotone`, `C39_only_removes`, `C39_pixel_alone`, `C39_rounds_suffice`, `C39_three_left`, `C39_wide_flags_refuted`

**C40** -: `C40_pattern_after`, `C40_read_pattern_refuted`, `C40_second_call_ex`, `C40_second_call_fails`

**C41** ABF: `C41_ex`, `C41_match`

**C42** -: `C42_order_refuted`, `C42_raises_iff`; ABF: `C42_ex`, `C42_global`, `C42_permutation`

**C43** ABF: `C43_ex`, `C43_members`, `C43_subtract`

**C44** -: `C44_after_finalize`, `C44_empty_refuted`, `C44_history`, `C44_order_refuted`, `C44_reset_midway_refuted`, `C44_reset_pointings_refuted`, `C44_reset_same_group_refuted`; ABF: `C44_order`, `C44_product`, `C44_reset_partial`

**C45** -: `C45_missing`, `C45_no_time`, `C45_no_time_example`, `C45_no_time_no_arrays`, `C45_ratio_order_refuted`, `C45_stale_refuted`, `C45_unbound_refuted`; ABF: `C45_combined`, `C45_inverse`, `C45_order`

**C46** -: `C46_bad`, `C46_bad_time_refuted`, `C46_good_ieee`, `C46_negative_refuted`, `C46_type_refuted`; ABF: `C46_good`

**C47** -: `C47_left_refuted`, `C47_no_box`, `C47_right_refuted`; ABF: `C47_range`

**C48** -: `C48_all_good`, `C48_area_positive`, `C48_found`, `C48_terminates`; ABF: `C48_boundary`, `C48_mean`, `C48_start`, `C48_start_example`, `C48_start_whole`

**C49** -: `C49_all_near`, `C49_complete`, `C49_complete_ex`, `C49_directory_float_refuted`, `C49_lookup`, `C49_lookup_ex`, `C49_nested_refuted`, `C49_range`, `C49_range_ex`; ABCF: `C49_cone`, `C49_cone_ex`; ABF: `C49_directory`, `C49_directory_ex`

**C50** -: `C50_trim_ex`, `C50_zero_all`, `C50_zero_refuted`; A: `C50_trim_partial`

**C51** ABF: `C51_ex`, `C51_matrix`, `C51_rotation`

**C52** -: `C52_shape_ex`; ABF: `C52_bbox_of_shape`, `C52_below_refuted`, `C52_crpix`, `C52_default_box_partial`, `C52_ex`, `C52_outside_refuted`, `C52_shape`, `C52_small`

**C53** -: `C53_ex`, `C53_ex2`, `C53_flat_refuted`, `C53_infinite_refuted`, `C53_keyword`, `C53_keyword_truncates_refuted`, `C53_nan`, `C53_nan2`, `C53_nan_ex`, `C53_polygons`; AF: `C53_precision`, `C53_precision_ex`

**C54** ABF: `C54_direction`, `C54_ex`, `C54_inverse`

**C55** -: `C55_zeroframe`

**C56** ABF: `C56_instance`, `C56_readlevel_recovers_ramp`

**C57** -: `C57_ex`, `C57_never_nan`, `C57_resampled_flags`

**C58** -: `C58_even_kernel_shape`, `C58_ex`, `C58_medfilt`

**C59** -: `C59_edge_exemption_refuted`; ABF: `C59_edge_exemption_square_partial`, `C59_example`

**C60** -: `C60_count`, `C60_count_example`, `C60_example`, `C60_first_good`, `C60_first_good_example`, `C60_shower_exact`, `C60_shower_keeps_pixel_usable`, `C60_shower_only_adds_jump`, `C60_too_few_differences`

**C61** -: `C61_example`, `C61_flagged_groups_masked_refuted`, `C61_masked_exactly_partial`

**C62** -: `C62_jump_on_saturated_refuted`

**C63** -: `C63_bad_gain`, `C63_example`

**C64** -: `C64_refit`

**C65** -: `C65_buffer_irrelevant`, `C65_pixels_independent`, `C65_wrong_length`

**C66** -: `C66_unmeasured`, `C66_unmeasured_example`, `C66_unmeasured_zero`; ABF: `C66_combination`, `C66_combination_example`, `C66_combination_nan`, `C66_combination_nan_ex`

**C67** -: `C67_in_order_example`; ABF: `C67_covariance`, `C67_difference_variance`, `C67_poisson_variance`, `C67_tau`, `C67_tau_example`, `C67_unordered_refuted`

**C68** -: `C68_example`, `C68_nan_hides_jump_refuted`, `C68_no_split`, `C68_split_iff`; ABF: `C68_reads_example`, `C68_split_reads`, `C68_statistic`

**C69** -: `C69_chargeloss_refuted`, `C69_exposure_error_any`, `C69_exposure_error_ex`, `C69_two_segments_refuted`; ABCF: `C69_example`; ABF: `C69_exposure_error`, `C69_integration_error`

**C70** ABCF: `C70_example`, `C70_nan_ex`; ABF: `C70_nan`, `C70_weighted_mean`

**C71** ABF: `C71_example`, `C71_readnoise_after_call`, `C71_second_call_refuted`

**C72** ABF: `C72_covariance`, `C72_ex`; ACF: `C72_positive_definite`

**C73** ABCF: `C73_ex`, `C73_variance_parts`

**C74** -: `C74_uncoupled_refuted`; ABCF: `C74_ex`, `C74_one_omitted`, `C74_two_omitted_partial`

**C75** ABCF: `C75_ex`, `C75_scale_immaterial`; ABF: `C75_scale_choice`

**C76** ABF: `C76_combined`, `C76_constant`, `C76_ex`

**C77** ABF: `C77_ex`, `C77_recovers`

**C78** ABF: `C78_ex`, `C78_global`, `C78_local`

**C79** ABF: `C79_border`, `C79_ex`, `C79_step_refuted`

**C80** ABF: `C80_ex`, `C80_group`, `C80_group_own`, `C80_image`, `C80_own`

**C81** -: `C81_enable_var_refuted`; ABF: `C81_from_var`, `C81_scales`

**C82** -: `C82_ratio`

**C83** -: `C83_boxes_restored`, `C83_boxes_used`, `C83_boxes_used_example`, `C83_disable_refuted`, `C83_fallback`, `C83_full`, `C83_order`, `C83_range`, `C83_range_example`, `C83_thin_refuted`; ABF: `C83_affine`, `C83_grid`; AF: `C83_spacing_refuted`, `C83_tenth_refuted`

**C84** -: `C84_absolute`, `C84_relative`, `C84_relative_errors`; ABF: `C84_absolute_ex`, `C84_absolute_unbounded_refuted`, `C84_errors_ex`, `C84_limit`, `C84_limit_ex`, `C84_relative_ex`

**C85** -: `C85_parse`, `C85_parse_ex`, `C85_parse_ex2`, `C85_source`, `C85_source_ex`

**C86** -: `C86_bbox`; ABF: `C86_bbox_ex`

**C87** ABF: `C87_displacement`, `C87_displacement_ex`, `C87_rows`, `C87_rows_ex`

**C88** ABF: `C88_scale`, `C88_scale_ex`, `C88_value`, `C88_value_ex`

**C89** ABCF: `C89_direction`, `C89_ex`, `C89_grouping`, `C89_single`, `C89_uninitialised_refuted`

**C90** ABCF: `C90_duplicate_refuted`, `C90_rectilinear`, `C90_rectilinear_ex`, `C90_rotation`, `C90_rotation_ex`, `C90_straight`, `C90_straight_ex`, `C90_vanishes`, `C90_vanishes_ex`

**C91** -: `C91_axis_refuted`, `C91_empty_slots`, `C91_entries`, `C91_example`, `C91_planes`; ABF: `C91_mean_example`, `C91_weighted_mean`

**C92** -: `C92_one_group`; ABCF: `C92_example`, `C92_zero_time_refuted`; ABF: `C92_exact`, `C92_least_squares`

**C93** -: `C93_example`, `C93_saturated`, `C93_unusable`; ABCF: `C93_units_refuted`; ABF: `C93_formula`, `C93_zero_time_partial`

**C94** -: `C94_crs`, `C94_example`

**C95** ABCF: `C95_example`, `C95_units_refuted`; ABF: `C95_sigmas`, `C95_two_groups`, `C95_units`

**C96** -: `C96_selection_refuted`; ABF: `C96_agrees_partial`, `C96_bounds`, `C96_core_refuted`, `C96_example`, `C96_mirrored`

**C97** -: `C97_missing_irrelevant`, `C97_odd_kernel_refuted`; ABF: `C97_example`, `C97_flat`, `C97_range`, `C97_weighted_mean`

**C98** ABF: `C98_quiet`, `C98_quiet_example`, `C98_reported`, `C98_reported_example`

**C99** -: `C99_no_coverage`, `C99_uncovered`; ABF: `C99_best_kept`, `C99_between`, `C99_between_example`, `C99_even_coverage`, `C99_even_coverage_example`, `C99_outlier`, `C99_outlier_example`, `C99_scaling`, `C99_scaling_example`

