{
 "claims": [
  {
   "property": "C01",
   "status": "proved",
   "theorems": [
    "C01_merge_copy_appends",
    "C01_empty_iff_no_pairs"
   ],
   "note": ""
  },
  {
   "property": "C02",
   "status": "proved",
   "theorems": [
    "C02_move_and_copy_same_lists"
   ],
   "note": "Element types are arbitrary."
  },
  {
   "property": "C03",
   "status": "proved",
   "theorems": [
    "C03_what_fits",
    "C03_roundtrip_of_what_fits",
    "C03_version_bytes",
    "C03_roundtrip",
    "C03_truncated_rejected",
    "C03_unknown_version_rejected",
    "C03_never_undefined"
   ],
   "note": "MRPT wire formats are assumed (codec_ok for geometry types, concrete formats for integers, strings, containers); objects must fit them."
  },
  {
   "property": "C04",
   "status": "proved",
   "theorems": [
    "C04_centroids_are_inlier_means",
    "C04_invalid_outliers_throw"
   ],
   "note": ""
  },
  {
   "property": "C05",
   "status": "proved",
   "theorems": [
    "C05_matcher_runs_in_window"
   ],
   "note": ""
  },
  {
   "property": "C06",
   "status": "proved",
   "theorems": [
    "C06_run_matchers_concatenates"
   ],
   "note": ""
  },
  {
   "property": "C07",
   "status": "proved",
   "theorems": [
    "C07_pairings_within_bound",
    "C07_pipeline_pairs_are_genuine"
   ],
   "note": "Exact rationals in place of floats; the nearest-neighbour search of the map is assumed correct (nn_correct), shown satisfiable by a brute-force instance. Holds for any match state, flags, pose function and subsampling."
  },
  {
   "property": "C08",
   "status": "proved",
   "theorems": [
    "C08_no_global_point_twice"
   ],
   "note": "Any list of distance-threshold / inlier-ratio matchers, any starting match state."
  },
  {
   "property": "C09",
   "status": "proved",
   "theorems": [
    "C09_matched_local_points_skipped",
    "C09_marked_local_points_skipped"
   ],
   "note": "Any sequence of the two point matchers."
  },
  {
   "property": "C10",
   "status": "proved",
   "theorems": [
    "C10_in_range_points_are_paired"
   ],
   "note": "Build without TBB."
  },
  {
   "property": "C11",
   "status": "proved",
   "theorems": [
    "C11_inlier_ratio_keeps_best",
    "C11_kept_count_in_range"
   ],
   "note": "One-layer level: candidates, rounding, best-first selection, removal of reused global points, one pairing per local point. std::multimap modelled as sorted insertion."
  },
  {
   "property": "C12",
   "status": "proved",
   "theorems": [
    "C12_layers_and_weights",
    "C12_weight_blocks_partition",
    "C12_missing_listed_layer_is_an_error"
   ],
   "note": "Blocks, weights, missing layers; for both matchers."
  },
  {
   "property": "C13",
   "status": "proved",
   "theorems": [
    "C13_subsampling"
   ],
   "note": "Any rearrangement as the shuffle."
  },
  {
   "property": "C14",
   "status": "proved",
   "theorems": [
    "C14_parallel_equals_sequential",
    "C14_schedule_independent",
    "C14_parallel_pairs_within_bound",
    "C14_every_schedule_terminates",
    "C14_radius_search_same_without_angle"
   ],
   "note": "All interleavings of atomic accesses (the real accesses are unsynchronised)."
  },
  {
   "property": "C15",
   "status": "proved",
   "theorems": [
    "C15_bitfield_is_a_set",
    "C15_out_of_range_is_ub",
    "C15_initialize_from"
   ],
   "note": "Both bit-field representations, all histories of marks and queries."
  },
  {
   "property": "C16",
   "status": "proved",
   "theorems": [
    "C16_calls_during_a_whole_run",
    "C16_finished_is_for_the_whole_run",
    "C16_solver_runs_iff_allowed",
    "C16_latch_is_permanent"
   ],
   "note": ""
  },
  {
   "property": "C17",
   "status": "proved",
   "theorems": [
    "C17_first_success_wins",
    "C17_false_iff_all_fail"
   ],
   "note": ""
  },
  {
   "property": "C18",
   "status": "proved",
   "theorems": [
    "C18_budget_and_reason",
    "C18_reason_is_defined"
   ],
   "note": ""
  },
  {
   "property": "C19",
   "status": "proved",
   "theorems": [
    "C19_returned_pose",
    "C19_pose_after_solver_error"
   ],
   "note": "The failing-solver case is characterised too."
  },
  {
   "property": "C20",
   "status": "proved",
   "theorems": [
    "C20_stall_criterion"
   ],
   "note": "Any norms of pose differences that are non-negative."
  },
  {
   "property": "C21",
   "status": "proved",
   "theorems": [
    "C21_checkpoint_and_hook_stop"
   ],
   "note": ""
  },
  {
   "property": "C22",
   "status": "proved",
   "theorems": [
    "C22_final_pairings_and_quality"
   ],
   "note": ""
  },
  {
   "property": "C23",
   "status": "proved",
   "theorems": [
    "C23_quality_is_weighted_mean",
    "C23_weighted_mean_within_range",
    "C23_hard_discard_gives_zero",
    "C23_bad_weight_throws"
   ],
   "note": ""
  },
  {
   "property": "C24",
   "status": "proved",
   "theorems": [
    "C24_paired_ratio"
   ],
   "note": ""
  },
  {
   "property": "C25",
   "status": "proved",
   "theorems": [
    "C25_log_numbering",
    "C25_numbers_distinct"
   ],
   "note": "Lock order as the order of calls."
  },
  {
   "property": "C26",
   "status": "proved",
   "theorems": [
    "C26_weights_of_every_pair",
    "C26_normalised_weights_sum_to_one",
    "C26_first_pass",
    "C26_no_spurious_failure"
   ],
   "note": "Reals (exact arithmetic). The outliers-at-block-start case is C80, uncovered pairs C81."
  },
  {
   "property": "C27",
   "status": "proved",
   "theorems": [
    "C27_kernels_down_weight",
    "C27_none_is_one",
    "C27_kernels_vanish"
   ],
   "note": "The two kernels of create_robust_kernel: weight 1 at zero error, in (0,1], non-increasing, tending to 0; real-number model."
  },
  {
   "property": "C28",
   "status": "proved",
   "theorems": [
    "C28_point2point",
    "C28_point2line",
    "C28_point2plane",
    "C28_plane2plane"
   ],
   "note": "Real-number model of error_point2point/line/plane and plane2plane; the point-to-line norm needs a unit director and the point-to-plane norm a nonzero normal, as the code's callers provide."
  },
  {
   "property": "C29",
   "status": "proved",
   "theorems": [
    "C29_point2point",
    "C29_point2line",
    "C29_point2plane",
    "C29_plane2plane",
    "C29_line2line_parallel"
   ],
   "note": "Exact affine identities over the reals; the line-to-line term is treated separately in C75-C77."
  },
  {
   "property": "C30",
   "status": "proved",
   "theorems": [
    "C30_normal_equations_of_every_iteration",
    "C30_first_iteration_sequential"
   ],
   "note": "TBB build: every iteration, all schedules; sequential build: first iteration (see C93 for the rest). Prior term and individual weights under TBB are excluded (C94, C95)."
  },
  {
   "property": "C31",
   "status": "proved",
   "theorems": [
    "C31_every_component_in_its_slot",
    "C31_fallback_without_pairings",
    "C31_estimate_with_pairings"
   ],
   "note": "Residuals are abstract functions of pairing and pose; the numerical Jacobian and inverse are a parameter."
  },
  {
   "property": "C32",
   "status": "proved",
   "theorems": [
    "C32_horn_needs_three_pairs",
    "C32_horn_true_means_three_pairs"
   ],
   "note": "eval_centroids requires a point pair (C88)."
  },
  {
   "property": "C33",
   "status": "proved",
   "theorems": [
    "C33_selection",
    "C33_plane_projection",
    "C33_plane_tolerance",
    "C33_line_projection",
    "C33_when_refused"
   ],
   "note": "Selection and projections, plus the effect of the code's 1e-4 tolerance on non-unit normals."
  },
  {
   "property": "C34",
   "status": "proved",
   "theorems": [
    "C34_what_fits",
    "C34_roundtrip",
    "C34_old_versions",
    "C34_rejects"
   ],
   "note": "All versions 0-5; layer objects and derived-class data external; metadata as text."
  },
  {
   "property": "C35",
   "status": "proved",
   "theorems": [
    "C35_merging_gives_the_union",
    "C35_sizes_add_up"
   ],
   "note": "Layers are pointers into a heap, so sharing is modelled; mrpt's insertAnotherMap/changeCoordinatesReference move the coordinates, the other fields are arbitrary"
  },
  {
   "property": "C36",
   "status": "proved",
   "theorems": [
    "C36_size",
    "C36_clear",
    "C36_empty"
   ],
   "note": ""
  },
  {
   "property": "C37",
   "status": "proved",
   "theorems": [
    "C37_exact_content",
    "C37_one_value_per_stamp_in_order",
    "C37_time_ordered"
   ],
   "note": "Stamps are integers of a fine tick (no rounding); all histories."
  },
  {
   "property": "C38",
   "status": "proved",
   "theorems": [
    "C38_empty_when_nothing_close",
    "C38_reconstruction"
   ],
   "note": "Any history of insertions; integration step abstract."
  },
  {
   "property": "C39",
   "status": "proved",
   "theorems": [
    "C39_realize_uses_latest_values",
    "C39_constants_keep_their_value",
    "C39_use_throws_iff_not_realized"
   ],
   "note": "Formulas are abstract (well-formedness, variables, value); the exprtk library is not modelled. No axioms."
  },
  {
   "property": "C40",
   "status": "proved",
   "theorems": [
    "C40_bounding_box_routes",
    "C40_partition",
    "C40_rejects"
   ],
   "note": "Exact rationals for floats; distinct names are distinct layers."
  },
  {
   "property": "C41",
   "status": "proved",
   "theorems": [
    "C41_range_routes",
    "C41_range_unrealized_rejected",
    "C41_intensity_routes",
    "C41_ring_routes"
   ],
   "note": "Distances compared in the reals (axioms of Coq's Reals); thresholds of the range filter non-negative."
  },
  {
   "property": "C42",
   "status": "proved",
   "theorems": [
    "C42_full_grid",
    "C42_full_grid_exactly_one",
    "C42_full_grid_min_distance",
    "C42_single_grid",
    "C42_voxel_geometry"
   ],
   "note": ""
  },
  {
   "property": "C43",
   "status": "proved",
   "theorems": [
    "C43_first_point",
    "C43_other_methods"
   ],
   "note": ""
  },
  {
   "property": "C44",
   "status": "proved",
   "theorems": [
    "C44_distinct_bounded",
    "C44_disabled",
    "C44_number_of_points"
   ],
   "note": ""
  },
  {
   "property": "C45",
   "status": "proved",
   "theorems": [
    "C45_delete_exact",
    "C45_delete_checked",
    "C45_delete_checked_result",
    "C45_others_untouched"
   ],
   "note": ""
  },
  {
   "property": "C46",
   "status": "proved",
   "theorems": [
    "C46_shift_methods",
    "C46_reference_at_zero",
    "C46_normalize",
    "C46_no_timestamps"
   ],
   "note": ""
  },
  {
   "property": "C47",
   "status": "proved",
   "theorems": [
    "C47_normalised_and_monotone",
    "C47_memory_is_exact_range",
    "C47_affine_on_history",
    "C47_reversed_fixed_range_reverses",
    "C47_needs_intensity"
   ],
   "note": "Exact rationals; C47_reversed_fixed_range_reverses shows the min<=max hypothesis is needed."
  },
  {
   "property": "C48",
   "status": "proved",
   "theorems": [
    "C48_pipeline_in_order",
    "C48_stops_at_first_failure",
    "C48_null_entry"
   ],
   "note": ""
  },
  {
   "property": "C49",
   "status": "proved",
   "theorems": [
    "C49_one_corrected_point_per_input_point",
    "C49_completes",
    "C49_skipping_copies_every_point",
    "C49_empty_input",
    "C49_iterations_never_conflict",
    "C49_constant_twist"
   ],
   "note": "FilterDeskew's parallel loop, one memory access at a time in any interleaving; so3exp and find_closest (mrpt) are arbitrary functions"
  },
  {
   "property": "C50",
   "status": "proved",
   "theorems": [
    "C50_exactly_the_requested_key_frames",
    "C50_own_pose_and_twist",
    "C50_filters_follow_handled_observations",
    "C50_former_contents_ignored"
   ],
   "note": "The run's calls are recorded as events; filters and maps inserted by mrpt are arbitrary functions; loading of the YAML pipeline is not modelled"
  },
  {
   "property": "C51",
   "status": "proved",
   "theorems": [
    "C51_reported_iterations"
   ],
   "note": ""
  },
  {
   "property": "C52",
   "status": "proved",
   "theorems": [
    "C52_iteration_details"
   ],
   "note": ""
  },
  {
   "property": "C53",
   "status": "proved",
   "theorems": [
    "C53_align_succeeds"
   ],
   "note": "Components arbitrary but never failing."
  },
  {
   "property": "C54",
   "status": "partial",
   "theorems": [
    "C54_layer_weights_lost_refuted",
    "C54_weights_where"
   ],
   "note": "Refuted in general: push_back ignores point_weights, so run_matchers always returns none. C54_weights_where: the weights survive exactly when the matchers attach none."
  },
  {
   "property": "C55",
   "status": "proved",
   "theorems": [
    "C55_matching_never_out_of_range",
    "C55_no_limit_layer_succeeds"
   ],
   "note": "Whole runs from a fresh MatchState; invariant: every layer has a bit field of its size."
  },
  {
   "property": "C56",
   "status": "proved",
   "theorems": [
    "C56_pairings_never_exceed_potential",
    "C56_potential_counts_local_points"
   ],
   "note": "Distance-threshold and inlier-ratio matchers."
  },
  {
   "property": "C57",
   "status": "proved",
   "theorems": [
    "C57_old_version"
   ],
   "note": ""
  },
  {
   "property": "C58",
   "status": "proved",
   "theorems": [
    "C58_what_fits",
    "C58_parameters_roundtrip",
    "C58_old_versions"
   ],
   "note": "External value codecs arbitrary."
  },
  {
   "property": "C59",
   "status": "proved",
   "theorems": [
    "C59_what_fits",
    "C59_weights_roundtrip",
    "C59_weights_truncated_and_versions",
    "C59_old_version_keeps_kernel"
   ],
   "note": "All versions; truncation; never undefined."
  },
  {
   "property": "C60",
   "status": "proved",
   "theorems": [
    "C60_what_fits_results",
    "C60_what_fits",
    "C60_log_roundtrip_of_what_fits",
    "C60_results_roundtrip",
    "C60_results_rejects",
    "C60_log_roundtrip",
    "C60_log_rejects"
   ],
   "note": "Parameters up to C58."
  },
  {
   "property": "C61",
   "status": "proved",
   "theorems": [
    "C61_load_reports"
   ],
   "note": "Any reader."
  },
  {
   "property": "C62",
   "status": "proved",
   "theorems": [
    "C62_georeferencing"
   ],
   "note": "metric_map_t resets it before reading, so C34 holds."
  },
  {
   "property": "C63",
   "status": "proved",
   "theorems": [
    "C63_occupancy_routes"
   ],
   "note": ""
  },
  {
   "property": "C64",
   "status": "partial",
   "theorems": [
    "C64_in_place_never_ends_refuted",
    "C64_bounding_box_where",
    "C64_range_where"
   ],
   "note": "Refuted: bounding box and range filters re-read the growing input size at every step, so in-place use never returns once a point is routed to the input. For intensity and ring filters in-place use is covered by C41 (points appended once). In-place use is proved to terminate exactly when no point is routed to the input layer (C64_*_where)."
  },
  {
   "property": "C65",
   "status": "proved",
   "theorems": [
    "C65_bbox_accepts",
    "C65_range_accepts"
   ],
   "note": ""
  },
  {
   "property": "C66",
   "status": "proved",
   "theorems": [
    "C66_bbox_error_keeps_layers",
    "C66_range_error_keeps_layers"
   ],
   "note": ""
  },
  {
   "property": "C67",
   "status": "partial",
   "theorems": [
    "C67_offset_sign_refuted",
    "C67_offset_where"
   ],
   "note": "Refuted for the shift methods (the offset is subtracted; C46 gives the exact value -offset). C67_offset_where: Normalize puts the earliest point at the offset; the shift methods do so iff the offset is 0."
  },
  {
   "property": "C68",
   "status": "partial",
   "theorems": [
    "C68_std_map_flavour_reports_nothing_refuted",
    "C68_reported_where"
   ],
   "note": "Refuted: with the flag off nothing is ever reported (processing writes the other container). C68_reported_where: all points are reported iff the robin-map flag is on or there are no points."
  },
  {
   "property": "C69",
   "status": "partial",
   "theorems": [
    "C69_std_map_flavour_drops_everything_refuted",
    "C69_one_per_voxel_where"
   ],
   "note": "Refuted: all methods but FirstPoint write no point with the std::map flavour. C69_one_per_voxel_where: one point per voxel iff FirstPoint, robin map, or empty input."
  },
  {
   "property": "C70",
   "status": "partial",
   "theorems": [
    "C70_small_input_copied_then_throws_refuted",
    "C70_succeeds_where"
   ],
   "note": "Refuted for methods other than FirstPoint: copies the cloud, then throws. C70_succeeds_where: success iff FirstPoint or exactly one input layer is not small."
  },
  {
   "property": "C71",
   "status": "partial",
   "theorems": [
    "C71_missing_optional_input_throws_refuted",
    "C71_missing_as_if_not_listed"
   ],
   "note": "Refuted: throws when no input exists."
  },
  {
   "property": "C72",
   "status": "partial",
   "theorems": [
    "C72_target_not_reached_refuted",
    "C72_two_voxels_refuted",
    "C72_target_reached_where"
   ],
   "note": "Refuted: exact result for two voxels; 11 of 20 points on a concrete cloud. C72_target_reached_where gives the condition under which the target count is reached."
  },
  {
   "property": "C73",
   "status": "partial",
   "theorems": [
    "C73_no_dense_voxel_undefined_refuted",
    "C73_no_dense_voxel_where"
   ],
   "note": "Refuted: out-of-range read. C73_no_dense_voxel_where: nothing is added, without undefined behaviour, iff the output already had the target number of points."
  },
  {
   "property": "C74",
   "status": "partial",
   "theorems": [
    "C74_point_pairs_dropped_refuted",
    "C74_only_point_pairs_gives_nothing_refuted",
    "C74_output_where"
   ],
   "note": "Refuted: the function builds its output from the line/plane pairings only, so existing point pairs are dropped. C74_output_where: every output pair comes from a line or plane pairing, at most one each."
  },
  {
   "property": "C75",
   "status": "partial",
   "theorems": [
    "C75_aligned_lines_not_recognised_refuted",
    "C75_direction_residual_refuted",
    "C75_zero_where"
   ],
   "note": "Refuted: the code rotates the local director with R transposed. C75_zero_where: coinciding lines give zero when the rotation and its transpose agree on the local director."
  },
  {
   "property": "C76",
   "status": "partial",
   "theorems": [
    "C76_line2line_jacobian_wrong_refuted",
    "C76_norm_derivative_sign_refuted",
    "C76_translation_where",
    "C76_direction_rows_exact"
   ],
   "note": "Refuted: the Jacobian is not the derivative of the code's residual, and the derivative of the norm has the wrong sign. C76_translation_where: the translation part is the derivative."
  },
  {
   "property": "C77",
   "status": "partial",
   "theorems": [
    "C77_parallel_lines_components_unset_refuted",
    "C77_all_set_where"
   ],
   "note": "Refuted: only the first component is written for parallel lines. C77_all_set_where: all components are set iff the computed angle reaches the threshold."
  },
  {
   "property": "C78",
   "status": "proved",
   "theorems": [
    "C78_cauchy_weight_from_loss",
    "C78_gm_weight_from_scaled_loss"
   ],
   "note": "Real-number model."
  },
  {
   "property": "C79",
   "status": "partial",
   "theorems": [
    "C79_documented_where",
    "C79_gm_weight_not_from_documented_loss_refuted"
   ],
   "note": "Refuted for every c other than 1: the documented loss has c^2 and no factor c. C79_documented_where: agreement iff c = 1 or the error is 0."
  },
  {
   "property": "C80",
   "status": "partial",
   "theorems": [
    "C80_weights_where",
    "C80_outlier_at_block_start_shifts_weights_refuted"
   ],
   "note": "Refuted: three one-pair blocks with pair 1 an outlier; pair 2 gets the weight of block 1. C80_weights_where: right if the blocks cover the points and no block after the first starts with an outlier."
  },
  {
   "property": "C81",
   "status": "partial",
   "theorems": [
    "C81_defined_where",
    "C81_uncovered_pairs_read_past_the_end_refuted"
   ],
   "note": "Refuted: the block iterator is dereferenced at end (UB) for every uncovered pair. C81_defined_where: never undefined if the blocks cover the points and no later block starts with an outlier."
  },
  {
   "property": "C82",
   "status": "partial",
   "theorems": [
    "C82_no_such_pairs_where",
    "C82_zero_class_weight_fails_refuted"
   ],
   "note": "Refuted: the assertion wi > 0 throws for every set holding such a pair. C82_no_such_pairs_where: with no such pair a zero weight gives the same result as any other."
  },
  {
   "property": "C83",
   "status": "partial",
   "theorems": [
    "C83_ratio_where",
    "C83_pt2pt_weight_used_with_blocks_refuted"
   ],
   "note": "Refuted: the block weight is multiplied by the class weight. C83_ratio_where: among point pairs the block weights decide alone; against lines the documented ratio holds iff the class weight is 1 (or the line weight 0)."
  },
  {
   "property": "C84",
   "status": "proved",
   "theorems": [
    "C84_horn_rotation_is_optimal"
   ],
   "note": "Assumes the contract of Eigen's symmetric eigen-solver for the matrix of the run (spectral); exact real arithmetic."
  },
  {
   "property": "C85",
   "status": "proved",
   "theorems": [
    "C85_horn_is_least_squares"
   ],
   "note": "Assumes the contract of Eigen's symmetric eigen-solver for the matrix of the run (spectral); exact real arithmetic."
  },
  {
   "property": "C86",
   "status": "proved",
   "theorems": [
    "C86_horn_recovers_the_pose"
   ],
   "note": "Assumes the contract of Eigen's symmetric eigen-solver for the matrix of the run (spectral); exact real arithmetic."
  },
  {
   "property": "C87",
   "status": "partial",
   "theorems": [
    "C87_failure_resets_the_pose_refuted",
    "C87_pose_kept_where"
   ],
   "note": "Refuted: the pose is reset to identity before solving. C87_pose_kept_where gives the domain on which it holds."
  },
  {
   "property": "C88",
   "status": "partial",
   "theorems": [
    "C88_no_points_throws_refuted",
    "C88_succeeds_where"
   ],
   "note": "Refuted: eval_centroids_robust throws for every set without point pairs. C88_succeeds_where gives the domain on which it holds."
  },
  {
   "property": "C89",
   "status": "partial",
   "theorems": [
    "C89_weighted_optimum_refuted",
    "C89_weighted_optimum_where"
   ],
   "note": "Refuted by a concrete pairing: the centroids are unweighted. C89_weighted_optimum_where gives the domain on which it holds."
  },
  {
   "property": "C90",
   "status": "proved",
   "theorems": [
    "C90_olae_recovers_the_pose"
   ],
   "note": "Exact real arithmetic; linear solver is any function solving non-singular 3x3 systems (Cramer's rule is shown to be one)."
  },
  {
   "property": "C91",
   "status": "partial",
   "theorems": [
    "C91_tied_determinants_give_a_wrong_pose_refuted"
   ],
   "note": "Refuted: quarter turn about x of six axis points; plain and x systems tie, the code takes the singular z system. C90 is the domain on which it holds (one system with strictly largest determinant)."
  },
  {
   "property": "C92",
   "status": "partial",
   "theorems": [
    "C92_single_pair_half_turn_refuted"
   ],
   "note": "Refuted: every single point pair gives true and a half turn about z. C90 is the domain on which the result is right."
  },
  {
   "property": "C93",
   "status": "partial",
   "theorems": [
    "C93_sequential_build_overshoots_refuted",
    "C93_sequential_build_accumulates"
   ],
   "note": "The accumulation is proved for every run, the overshoot on a concrete run. C30_first_iteration_sequential: the first inner iteration of that build is right."
  },
  {
   "property": "C94",
   "status": "partial",
   "theorems": [
    "C94_second_iteration_uses_last_weight_refuted",
    "C94_equal_weights_where"
   ],
   "note": "Refuted by a concrete run. C94_equal_weights_where: right in every iteration if all blocks carry the same weight; C30: or without blocks."
  },
  {
   "property": "C95",
   "status": "partial",
   "theorems": [
    "C95_result_depends_on_the_schedule_refuted"
   ],
   "note": "Refuted by two runs. C94_equal_weights_where and C30 hold for every schedule: equal weights or none."
  },
  {
   "property": "C96",
   "status": "partial",
   "theorems": [
    "C96_lost_update_stops_too_early_refuted",
    "C96_error_where"
   ],
   "note": "Refuted with an explicit interleaving semantics of the racing additions. C96_error_where: if no addition is lost the error tested is the weighted sum of squares in every iteration."
  },
  {
   "property": "C97",
   "status": "proved",
   "theorems": [
    "C97_missing_guess_is_an_error",
    "C97_exact_start_is_returned"
   ],
   "note": "Exponential map and linear solver are parameters."
  },
  {
   "property": "C98",
   "status": "proved",
   "theorems": [
    "C98_steps_minimise_the_linearised_error"
   ],
   "note": "Hypothesis: the linear solver solved the systems of this run."
  },
  {
   "property": "C99",
   "status": "partial",
   "theorems": [
    "C99_tail_slots_never_set_refuted"
   ],
   "note": "Refuted for every such pairing set. C31 is the domain on which it holds (no line pairs together with plane pairs)."
  },
  {
   "property": "C100",
   "status": "partial",
   "theorems": [
    "C100_z_not_assigned_refuted"
   ],
   "note": "Refuted for every pose. The theorem also proves that the other five coordinates are right."
  },
  {
   "property": "C101",
   "status": "proved",
   "theorems": [
    "C101_realize_is_defined",
    "C101_failed_realize_changes_nothing"
   ],
   "note": "As C39."
  },
  {
   "property": "C102",
   "status": "partial",
   "theorems": [
    "C102_declaring_after_attaching_refuted"
   ],
   "note": "Refuted by a concrete history. C101 is the domain on which it holds."
  },
  {
   "property": "C103",
   "status": "partial",
   "theorems": [
    "C103_retry_after_undefined_variable_refuted"
   ],
   "note": "Refuted for any value an uncompiled expression may evaluate to. C39/C101 are the domain on which it holds (no failed realize before)."
  },
  {
   "property": "C104",
   "status": "partial",
   "theorems": [
    "C104_points_at_the_origin_lose_their_fields_refuted"
   ],
   "note": "The opposite is proved for every point at the origin. C49 proves it for every point not at the origin."
  },
  {
   "property": "C105",
   "status": "partial",
   "theorems": [
    "C105_precise_mode_ignores_linear_velocity_refuted",
    "C105_precise_mode_ignores_the_twist_refuted"
   ],
   "note": "The opposite is proved. C49_constant_twist proves the translation for the other mode."
  },
  {
   "property": "C106",
   "status": "proved",
   "theorems": [
    "C106_no_motion_model_throws",
    "C106_no_times_throws",
    "C106_unrealized_throws",
    "C106_missing_input_throws"
   ],
   "note": ""
  },
  {
   "property": "C107",
   "status": "partial",
   "theorems": [
    "C107_failed_call_leaves_blank_points_refuted",
    "C107_missing_input_accepted_refuted"
   ],
   "note": "The opposite is proved. C49_completes and C106 give the calls that succeed or throw."
  },
  {
   "property": "C108",
   "status": "partial",
   "theorems": [
    "C108_failed_merge_keeps_the_lines_refuted",
    "C108_failed_merge_keeps_the_layer_refuted",
    "C108_planes_where",
    "C108_layer_where"
   ],
   "note": "Refuted: the opposite is proved. C108_planes_where and C108_layer_where give the domain on which it holds."
  },
  {
   "property": "C109",
   "status": "partial",
   "theorems": [
    "C109_planes_cannot_be_moved_refuted",
    "C109_other_layers_cannot_be_merged_refuted",
    "C109_null_dereference_refuted",
    "C109_merges_where"
   ],
   "note": "Refuted: the opposite is proved. C109_merges_where gives the domain on which it holds."
  },
  {
   "property": "C110",
   "status": "partial",
   "theorems": [
    "C110_a_map_with_an_empty_layer_is_not_empty_refuted",
    "C110_points_of_voxel_maps_not_counted_refuted",
    "C110_empty_where"
   ],
   "note": "Refuted: the opposite is proved. C110_empty_where gives the domain on which it holds."
  },
  {
   "property": "C111",
   "status": "partial",
   "theorems": [
    "C111_changes_show_in_the_clone_refuted",
    "C111_independent_where"
   ],
   "note": "Refuted: the opposite is proved. C111_independent_where gives the domain on which it holds."
  },
  {
   "property": "C112",
   "status": "proved",
   "theorems": [
    "C112_georef_yaml",
    "C112_other_types_rejected"
   ],
   "note": "Values are exact numbers (the text of a number is not modelled)"
  },
  {
   "property": "C113",
   "status": "partial",
   "theorems": [
    "C113_rotation_lost_refuted",
    "C113_rotation_kept_where"
   ],
   "note": "Refuted: the opposite is proved. C113_rotation_kept_where gives the domain on which it holds."
  },
  {
   "property": "C114",
   "status": "proved",
   "theorems": [
    "C114_point_clouds_are_appended"
   ],
   "note": ""
  },
  {
   "property": "C115",
   "status": "proved",
   "theorems": [
    "C115_skipped_observations_have_no_effect",
    "C115_only_the_target_layer_changes"
   ],
   "note": ""
  },
  {
   "property": "C116",
   "status": "partial",
   "theorems": [
    "C116_stale_twist_refuted",
    "C116_default_twist_where"
   ],
   "note": "Refuted: the opposite is proved. C116_default_twist_where gives the domain on which it holds."
  },
  {
   "property": "C117",
   "status": "partial",
   "theorems": [
    "C117_largest_end_index_processes_nothing_refuted",
    "C117_end_index_where"
   ],
   "note": "Refuted: the opposite is proved. C117_end_index_where gives the domain on which it holds."
  },
  {
   "property": "C118",
   "status": "partial",
   "theorems": [
    "C118_final_filters_cannot_use_variables_refuted",
    "C118_final_filters_run_where",
    "C118_no_formulas_where"
   ],
   "note": "Refuted: the opposite is proved. C118_final_filters_run_where and C118_no_formulas_where give the domain on which it holds."
  },
  {
   "property": "C119",
   "status": "proved",
   "theorems": [
    "C119_no_generators_throws"
   ],
   "note": ""
  },
  {
   "property": "C120",
   "status": "proved",
   "theorems": [
    "C120_imu_readings"
   ],
   "note": ""
  },
  {
   "property": "C121",
   "status": "partial",
   "theorems": [
    "C121_unusable_imu_creates_the_layer_refuted",
    "C121_existing_layer_where"
   ],
   "note": "Refuted: the opposite is proved. C121_existing_layer_where gives the domain on which it holds."
  },
  {
   "property": "C122",
   "status": "partial",
   "theorems": [
    "C122_skipped_observation_creates_the_layer_refuted",
    "C122_existing_layer_where"
   ],
   "note": "Refuted: the opposite is proved. C122_existing_layer_where gives the domain on which it holds."
  },
  {
   "property": "C123",
   "status": "proved",
   "theorems": [
    "C123_sensory_frames",
    "C123_sensory_frame_no_generators",
    "C123_all_generators_see_every_observation",
    "C123_no_generators"
   ],
   "note": ""
  },
  {
   "property": "C124",
   "status": "partial",
   "theorems": [
    "C124_move_equals_copy_refuted"
   ],
   "note": "Refuted by a concrete pair of objects (Pairings.cpp:123-141). C02_move_and_copy_same_lists: the two differ only in the counter, and not if the moved-from one has none."
  },
  {
   "property": "C125",
   "status": "partial",
   "theorems": [
    "C125_skip_for_all_flags_refuted",
    "C125_local_once_where"
   ],
   "note": "Refuted: DistanceThreshold.cpp:115-120 marks nothing with allowMatchAlreadyMatchedGlobalPoints=true. C125_local_once_where: it holds when every matcher marks its local points."
  },
  {
   "property": "C126",
   "status": "partial",
   "theorems": [
    "C126_angular_threshold_refuted",
    "C126_angular_where"
   ],
   "note": "Refuted: the early exit uses only the metric threshold (DistanceThreshold.cpp:73-75). C126_angular_where: layer pairs whose boxes meet honour the whole bound; C10 covers the metric part always."
  },
  {
   "property": "C127",
   "status": "partial",
   "theorems": [
    "C127_tail_never_selected_refuted",
    "C127_selected_where"
   ],
   "note": "Refuted for every input: only indices below the limit are shuffled (Matcher_Points_Base.cpp:224-232). C127_selected_where: exactly the first points, as many as the limit, are ever selected."
  },
  {
   "property": "C128",
   "status": "partial",
   "theorems": [
    "C128_one_range_no_global_twice_partial",
    "C128_forbidden_global_reuse_refuted"
   ],
   "note": "Refuted with two workers; each worker alone never reuses a point (proved). Without parallelism C08 proves it."
  },
  {
   "property": "C129",
   "status": "partial",
   "theorems": [
    "C129_builds_differ_with_angle_refuted"
   ],
   "note": "Refuted by a concrete cloud. C14_radius_search_same_without_angle proves it without angular threshold."
  },
  {
   "property": "C130",
   "status": "partial",
   "theorems": [
    "C130_returned_pose_refuted"
   ],
   "note": "Refuted: solvers reset their output first. C19 proves it when the last solve succeeds."
  },
  {
   "property": "C131",
   "status": "partial",
   "theorems": [
    "C131_stall_refuted"
   ],
   "note": "Refuted by a concrete run. C20_stall_criterion is the criterion that holds."
  },
  {
   "property": "C132",
   "status": "partial",
   "theorems": [
    "C132_numbers_distinct_refuted"
   ],
   "note": "Refuted after 2^32 calls. C25_numbers_distinct proves it below 2^32 calls."
  },
  {
   "property": "C133",
   "status": "partial",
   "theorems": [
    "C133_past_the_end_refuted"
   ],
   "note": "Refuted: undefined behaviour exactly when no later sample exists (LocalVelocityBuffer.cpp:96-106)."
  },
  {
   "property": "C134",
   "status": "partial",
   "theorems": [
    "C134_reported_iterations_refuted"
   ],
   "note": "Refuted; the exact relation is C51."
  },
  {
   "property": "C135",
   "status": "partial",
   "theorems": [
    "C135_align_no_ub_refuted"
   ],
   "note": "Refuted: ICP.cpp:236. C53 is the domain on which it holds."
  },
  {
   "property": "C136",
   "status": "partial",
   "theorems": [
    "C136_limit_reads_out_of_range_refuted",
    "C136_out_of_range_where"
   ],
   "note": "Refuted for every input with overlapping boxes. C136_out_of_range_where: undefined exactly when the limit takes effect and the boxes meet, success otherwise."
  },
  {
   "property": "C137",
   "status": "partial",
   "theorems": [
    "C137_old_version_refuted",
    "C137_old_version_where"
   ],
   "note": "Refuted: Pairings.cpp:51. C137_old_version_where: the counter is reset exactly when the object had none."
  },
  {
   "property": "C138",
   "status": "partial",
   "theorems": [
    "C138_checkpoints_lost_refuted",
    "C138_parameters_back_where"
   ],
   "note": "Refuted: never written, read as the defaults. C138_parameters_back_where: they come back iff the checkpoints are the default ones and the environment does not force debug files."
  },
  {
   "property": "C139",
   "status": "partial",
   "theorems": [
    "C139_load_throws_refuted",
    "C139_loads_where"
   ],
   "note": "Refuted: LogRecord.h:87-92. C139_loads_where: every readable file is delivered."
  },
  {
   "property": "C140",
   "status": "partial",
   "theorems": [
    "C140_georeferencing_not_reset_refuted",
    "C140_georeferencing_where"
   ],
   "note": "Refuted: metricmap.cpp:836-844. C140_georeferencing_where: right iff something was stored or the argument was empty."
  },
  {
   "property": "C141",
   "status": "partial",
   "theorems": [
    "C141_only_high_rejected_refuted",
    "C141_empty_cloud_throws_refuted",
    "C141_accepted_where",
    "C141_filtered_where"
   ],
   "note": "Refuted: FilterByIntensity.cpp:37-42 tests \"low\" twice and \"high\" never; empty clouds throw. C141_accepted_where / C141_filtered_where give the exact accepted configurations and result."
  },
  {
   "property": "C142",
   "status": "partial",
   "theorems": [
    "C142_error_after_partial_deletion_refuted",
    "C142_deleted_where",
    "C142_nothing_lost_where"
   ],
   "note": "Refuted. C142_deleted_where: on an error exactly the layers listed before the first missing one are gone; C142_nothing_lost_where: nothing is lost iff the first listed layer is the missing one."
  },
  {
   "property": "C143",
   "status": "proved",
   "theorems": [
    "C143_point_to_plane_exact",
    "C143_point_to_plane_succeeds"
   ],
   "note": "exact set of pairings and marks; success with room"
  },
  {
   "property": "C144",
   "status": "proved",
   "theorems": [
    "C144_point_to_line_exact",
    "C144_point_to_line_succeeds"
   ],
   "note": "exact set of pairings and marks; success from three points on"
  },
  {
   "property": "C145",
   "status": "partial",
   "theorems": [
    "C145_line_of_near_points_refuted",
    "C145_line_of_near_points_where"
   ],
   "note": "Refuted: all the knn neighbours are fitted. C145_line_of_near_points_where: holds when minimumLinePoints >= knn."
  },
  {
   "property": "C146",
   "status": "partial",
   "theorems": [
    "C146_two_point_lines_refuted"
   ],
   "note": "Refuted: minimumLinePoints = 2 is accepted and throws. C144_point_to_line_succeeds: it never fails with minimumLinePoints >= 3."
  },
  {
   "property": "C147",
   "status": "proved",
   "theorems": [
    "C147_adaptive_exact",
    "C147_adaptive_succeeds"
   ],
   "note": "complete characterisation of the result, including when it fails"
  },
  {
   "property": "C148",
   "status": "partial",
   "theorems": [
    "C148_nothing_in_range_refuted"
   ],
   "note": "Refuted: empty optionals are dereferenced. C147_adaptive_succeeds: no failure if some local point has a global point in range."
  },
  {
   "property": "C149",
   "status": "partial",
   "theorems": [
    "C149_global_points_reused_refuted",
    "C149_marked_before_where"
   ],
   "note": "Refuted: global points are never marked. C149_marked_before_where: points marked before the call are not taken."
  },
  {
   "property": "C150",
   "status": "partial",
   "theorems": [
    "C150_plane_distance_refuted",
    "C150_plane_distance_where"
   ],
   "note": "Refuted: the distance is that of the untransformed point. C150_plane_distance_where: the bound holds for the point in the local map."
  },
  {
   "property": "C151",
   "status": "proved",
   "theorems": [
    "C151_mean_and_covariance",
    "C151_by_indices",
    "C151_covariance_laws"
   ],
   "note": "mean, covariance, laws; the eigen-decomposition itself is a parameter"
  },
  {
   "property": "C152",
   "status": "proved",
   "theorems": [
    "C152_curvature_classes",
    "C152_thinning_unique",
    "C152_class_unique",
    "C152_partition",
    "C152_rejects",
    "C152_rejects_channel"
   ],
   "note": "FilterCurvature, all clouds with ring ids up to 4998"
  },
  {
   "property": "C153",
   "status": "partial",
   "theorems": [
    "C153_no_ub_refuted",
    "C153_no_ub_below_65535"
   ],
   "note": "refuted for ring id 65535; proved below"
  },
  {
   "property": "C154",
   "status": "partial",
   "theorems": [
    "C154_near_border_refuted",
    "C154_near_border_judged_by_previous"
   ],
   "note": "refuted for gaps after the point; proved for gaps before it"
  },
  {
   "property": "C155",
   "status": "proved",
   "theorems": [
    "C155_pole_classes",
    "C155_rejects",
    "C155_rejects_output"
   ],
   "note": "FilterPoleDetector, any visiting order"
  },
  {
   "property": "C156",
   "status": "partial",
   "theorems": [
    "C156_outputs_cover_refuted",
    "C156_outputs_cover_judged"
   ],
   "note": "refuted; exact content of the outputs proved"
  },
  {
   "property": "C157",
   "status": "partial",
   "theorems": [
    "C157_columns_bounded_refuted",
    "C157_columns_bounded_positive"
   ],
   "note": "refuted at the axes; proved for non-negative coordinates"
  },
  {
   "property": "C158",
   "status": "partial",
   "theorems": [
    "C158_no_ub_refuted",
    "C158_ub_exactly"
   ],
   "note": "refuted; exact condition proved"
  },
  {
   "property": "C159",
   "status": "proved",
   "theorems": [
    "C159_one_point_per_voxel",
    "C159_rejects",
    "C159_missing_input_ignored"
   ],
   "note": "FilterDecimateVoxelsQuadratic: exact output for every visiting order and all draws, plus refusals."
  },
  {
   "property": "C160",
   "status": "partial",
   "theorems": [
    "C160_channels_kept_refuted",
    "C160_plain_output"
   ],
   "note": "Refuted for outputs with channels; plain outputs proved."
  },
  {
   "property": "C161",
   "status": "partial",
   "theorems": [
    "C161_inverse_refuted",
    "C161_inverse_where"
   ],
   "note": "Refuted for negative coordinates within the radius; proved elsewhere."
  },
  {
   "property": "C162",
   "status": "proved",
   "theorems": [
    "C162_lattice_coordinate"
   ],
   "note": "All shape facts of real2grid."
  },
  {
   "property": "C163",
   "status": "partial",
   "theorems": [
    "C163_width_refuted",
    "C163_width_where"
   ],
   "note": "Refuted between radius/2 and radius; proved for non-negative spans within radius/2 or beyond the radius (C162: odd)."
  },
  {
   "property": "C164",
   "status": "partial",
   "theorems": [
    "C164_missing_input_is_an_error_refuted",
    "C164_missing_input_other_output"
   ],
   "note": "Refuted when output and input share the name; proved when they differ."
  },
  {
   "property": "C165",
   "status": "proved",
   "theorems": [
    "C165_merge",
    "C165_merge_clouds",
    "C165_rejects"
   ],
   "note": "The target's insertObservation is an arbitrary function; a version for point clouds is also proved."
  },
  {
   "property": "C166",
   "status": "partial",
   "theorems": [
    "C166_no_ub_refuted",
    "C166_no_ub_without_null_target"
   ],
   "note": "Refuted for null target layers; proved otherwise."
  },
  {
   "property": "C167",
   "status": "proved",
   "theorems": [
    "C167_slice",
    "C167_kept_unique",
    "C167_rejects"
   ],
   "note": "The occupancy grid of mrpt is an arbitrary type with arbitrary operations; the kept voxels are unique."
  },
  {
   "property": "C168",
   "status": "partial",
   "theorems": [
    "C168_rgb_sliced_refuted",
    "C168_rgb_gives_empty_grid"
   ],
   "note": "Refuted; exact behaviour proved: an empty grid."
  },
  {
   "property": "C169",
   "status": "proved",
   "theorems": [
    "C169_edges_planes",
    "C169_rejects"
   ],
   "note": "Exact contents of the four layers and of the planes for an arbitrary eigen-solver."
  },
  {
   "property": "C170",
   "status": "partial",
   "theorems": [
    "C170_centroids_match_refuted",
    "C170_centroids_match_if_no_planes"
   ],
   "note": "Refuted for maps with planes; proved for maps without."
  },
  {
   "property": "C171",
   "status": "partial",
   "theorems": [
    "C171_accepts_refuted",
    "C171_throws_exactly"
   ],
   "note": "Refuted; exact condition of the exception proved."
  },
  {
   "property": "C172",
   "status": "partial",
   "theorems": [
    "C172_ends_refuted",
    "C172_ends_if_positive"
   ],
   "note": "Refuted for decimation 0; proved otherwise."
  },
  {
   "property": "C173",
   "status": "partial",
   "theorems": [
    "C173_container_refuted",
    "C173_std_map_finds_nothing"
   ],
   "note": "Refuted; the other container gives empty outputs, proved."
  },
  {
   "property": "C174",
   "status": "partial",
   "theorems": [
    "C174_full_covers_refuted",
    "C174_full_covers_where"
   ],
   "note": "Refuted; exact set of sampled voxels proved."
  },
  {
   "property": "C175",
   "status": "partial",
   "theorems": [
    "C175_exception_safe_refuted",
    "C175_other_layers_kept"
   ],
   "note": "Refuted; what is preserved on failure proved."
  },
  {
   "property": "C176",
   "status": "proved",
   "theorems": [
    "C176_corners",
    "C176_rejects"
   ],
   "note": ""
  },
  {
   "property": "C177",
   "status": "partial",
   "theorems": [
    "C177_earlier_points_kept_refuted",
    "C177_where"
   ],
   "note": "Refuted: the layer is replaced (C177_where: the result does not depend on what it held)."
  },
  {
   "property": "C178",
   "status": "proved",
   "theorems": [
    "C178_other_observations"
   ],
   "note": ""
  },
  {
   "property": "C179",
   "status": "proved",
   "theorems": [
    "C179_significant_pixels"
   ],
   "note": ""
  },
  {
   "property": "C180",
   "status": "partial",
   "theorems": [
    "C180_defined_refuted",
    "C180_where"
   ],
   "note": "Refuted: undefined exactly when the scan has fewer than 8 columns or the range falls over a window (C180_where)."
  },
  {
   "property": "C181",
   "status": "partial",
   "theorems": [
    "C181_earlier_points_kept_refuted",
    "C181_where"
   ],
   "note": "Refuted: the layer is replaced (C181_where)."
  },
  {
   "property": "C182",
   "status": "partial",
   "theorems": [
    "C182_planes_layer_refuted",
    "C182_where"
   ],
   "note": "Refuted: the edges object is stored under the planes name; both layers are always the same (C182_where)."
  },
  {
   "property": "C183",
   "status": "partial",
   "theorems": [
    "C183_no_planes_layer_refuted",
    "C183_where"
   ],
   "note": "Refuted: null pointer without planes layer; with both layers undefined exactly when a row's last difference is negative and there are more than two blocks (C183_where)."
  },
  {
   "property": "C184",
   "status": "proved",
   "theorems": [
    "C184_edge_blocks",
    "C184_rejects"
   ],
   "note": ""
  },
  {
   "property": "C185",
   "status": "proved",
   "theorems": [
    "C185_quality_in_unit_interval",
    "C185_layer_required",
    "C185_nothing_visible"
   ],
   "note": "Real numbers; erf(x/sqrt 2) is any function phi with phi 0 = 0, values in [0,1] and positive for positive arguments."
  },
  {
   "property": "C186",
   "status": "partial",
   "theorems": [
    "C186_registered_gives_one_refuted",
    "C186_registered_where"
   ],
   "note": "Refuted: the code moves the global cloud by the pose and the local cloud by its inverse. Proved where the pose is that of the global cloud in the local frame (the inverse of the documented meaning)."
  },
  {
   "property": "C187",
   "status": "partial",
   "theorems": [
    "C187_only_points_in_view_refuted",
    "C187_left_of_the_image_refuted",
    "C187_in_view_where"
   ],
   "note": "Refuted: points behind the camera and points up to one pixel left of or above the image are drawn. Proved where there are none."
  },
  {
   "property": "C188",
   "status": "proved",
   "theorems": [
    "C188_nearest_range",
    "C188_mean_of_pixels"
   ],
   "note": ""
  },
  {
   "property": "C189",
   "status": "partial",
   "theorems": [
    "C189_defined_for_every_cloud_refuted",
    "C189_defined_where"
   ],
   "note": "Refuted: a point on the plane of the camera (x = 0), or coordinates outside int, give an undefined conversion. The exact domain is proved."
  },
  {
   "property": "C190",
   "status": "proved",
   "theorems": [
    "C190_zero_or_inside",
    "C190_zero_iff_nothing_compared",
    "C190_layer_required",
    "C190_evaluate"
   ],
   "note": ""
  },
  {
   "property": "C191",
   "status": "proved",
   "theorems": [
    "C191_identical_maps"
   ],
   "note": "The geometry of Bonxai cells is any pair of functions with cell(position(c)) = c."
  },
  {
   "property": "C192",
   "status": "proved",
   "theorems": [
    "C192_agreement_above_half",
    "C192_contradiction_below_half"
   ],
   "note": ""
  },
  {
   "property": "C193",
   "status": "partial",
   "theorems": [
    "C193_symmetric_refuted",
    "C193_symmetric_where"
   ],
   "note": "Refuted: the code places global voxels with the resolution of the local map. Proved for maps of the same resolution."
  },
  {
   "property": "C194",
   "status": "proved",
   "theorems": [
    "C194_matchers_as_configured",
    "C194_solvers_as_configured",
    "C194_quality_as_configured"
   ],
   "note": "The class registry, the initialisation of each class and the YAML scalar conversions are arbitrary functions."
  },
  {
   "property": "C195",
   "status": "partial",
   "theorems": [
    "C195_rejected_keeps_list_refuted",
    "C195_rejected_where",
    "C195_rejected_quality_where"
   ],
   "note": "Refuted: the list is cleared first and the objects before the rejected entry stay. Exact content after a rejection proved (_where)."
  },
  {
   "property": "C196",
   "status": "proved",
   "theorems": [
    "C196_disabled_entries_have_no_effect"
   ],
   "note": "Also for entries whose class, plugin or params would be rejected."
  },
  {
   "property": "C197",
   "status": "proved",
   "theorems": [
    "C197_pipeline_as_configured"
   ],
   "note": "The equivalence gives existence and uniqueness of the pipeline described."
  },
  {
   "property": "C198",
   "status": "partial",
   "theorems": [
    "C198_params_section_where",
    "C198_params_section_is_honoured_refuted"
   ],
   "note": "Refuted: the section is ignored when \"derived\" is present. Proved where there is no \"derived\"."
  },
  {
   "property": "C199",
   "status": "proved",
   "theorems": [
    "C199_parameters_as_given"
   ],
   "note": "Both directions: what is accepted and with which result."
  },
  {
   "property": "C200",
   "status": "proved",
   "theorems": [
    "C200_saved_parameters_load"
   ],
   "note": "Full equality of the parameters is false because of the checkpoints (C201)."
  },
  {
   "property": "C201",
   "status": "partial",
   "theorems": [
    "C201_checkpoints_survive_saving_refuted",
    "C201_checkpoints_where"
   ],
   "note": "Refuted: save_to does not write them. Proved where the reader already has them."
  },
  {
   "property": "C202",
   "status": "proved",
   "theorems": [
    "C202_filters_as_configured",
    "C202_filters_of_a_file",
    "C202_generators_as_configured"
   ],
   "note": "Empty pipelines included."
  },
  {
   "property": "C203",
   "status": "partial",
   "theorems": [
    "C203_accepted_pipelines_can_be_evaluated_refuted",
    "C203_evaluable_where"
   ],
   "note": "Refuted: an empty list and zero weights are accepted. Proved where some entry is enabled and the weights are positive."
  },
  {
   "property": "C204",
   "status": "proved",
   "theorems": [
    "C204_plugin_resolution"
   ],
   "note": "File system and environment arbitrary."
  },
  {
   "property": "C205",
   "status": "partial",
   "theorems": [
    "C205_generator_plugin_is_loaded_refuted",
    "C205_generator_where"
   ],
   "note": "Refuted: only the class is looked up, although CHANGELOG.rst says all pipeline modules have the field. Proved where the class is already known."
  },
  {
   "property": "C206",
   "status": "proved",
   "theorems": [
    "C206_accepted_documents",
    "C206_written_buffer_is_read_back",
    "C206_absent_sections_keep",
    "C206_only_maps"
   ],
   "note": "The text formats of stamps, twists and numbers are parameters; what is assumed of them is the record Readable, met by a concrete instance."
  },
  {
   "property": "C207",
   "status": "partial",
   "theorems": [
    "C207_no_entry_is_lost_refuted",
    "C207_entries_kept_where"
   ],
   "note": "Refuted: stamps equal at the printed precision collapse. Proved where the printed stamps differ."
  },
  {
   "property": "C208",
   "status": "partial",
   "theorems": [
    "C208_rejected_document_changes_nothing_refuted",
    "C208_rejected_where"
   ],
   "note": "Refuted: fields are assigned as they are read. Proved where the rejection is at the first field."
  },
  {
   "property": "C209",
   "status": "proved",
   "theorems": [
    "C209_second_pass_uses_only_the_inliers"
   ],
   "note": "Eigen decomposition contract as a hypothesis on the matrix of the run; point weights: if given, no block starts at an outlier (C80)."
  },
  {
   "property": "C210",
   "status": "partial",
   "theorems": [
    "C210_reported_outlier_moves_the_pose_refuted",
    "C210_first_pass_outliers_have_no_influence_where"
   ],
   "note": "Refuted: pairs rejected by the second scale test are reported as outliers but stay in the centroids. C210_first_pass_outliers_have_no_influence_where: it does hold for pairs that fail the first test."
  },
  {
   "property": "C211",
   "status": "proved",
   "theorems": [
    "C211_cut_keeps_the_range"
   ],
   "note": ""
  },
  {
   "property": "C212",
   "status": "proved",
   "theorems": [
    "C212_cut_then_join"
   ],
   "note": ""
  },
  {
   "property": "C213",
   "status": "proved",
   "theorems": [
    "C213_trim_keeps_the_box"
   ],
   "note": "The corners are accepted by the box constructor."
  },
  {
   "property": "C214",
   "status": "proved",
   "theorems": [
    "C214_tf_moves_every_keyframe",
    "C214_tf_twice",
    "C214_relative_poses_kept"
   ],
   "note": "Contract of mrpt changeCoordinatesReference() on the mean as a hypothesis."
  },
  {
   "property": "C215",
   "status": "proved",
   "theorems": [
    "C215_join_concatenates"
   ],
   "note": ""
  },
  {
   "property": "C216",
   "status": "proved",
   "theorems": [
    "C216_level_is_a_rotation"
   ],
   "note": "Contracts of changeCoordinatesReference() and of the optimiser as hypotheses; the latter is met, e.g., by the constant zero (ex_hyps)."
  },
  {
   "property": "C217",
   "status": "partial",
   "theorems": [
    "C217_usage_exit_codes",
    "C217_failures_exit_with_1",
    "C217_exit_code_ignores_write_errors_refuted",
    "C217_unwritten_output_exits_with_0_refuted",
    "C217_exit_code_where"
   ],
   "note": "Refuted: the results of saveToFile(), saveToTextFile_TUM() and saveToRawLogFile() are ignored, so the exit code does not depend on which files can be written. C217_exit_code_where: it holds if every file can be written."
  },
  {
   "property": "C218",
   "status": "proved",
   "theorems": [
    "C218_info_reports_the_map"
   ],
   "note": ""
  },
  {
   "property": "C219",
   "status": "partial",
   "theorems": [
    "C219_unstamped_observation_is_first_refuted",
    "C219_first_time_where"
   ],
   "note": "Refuted: an observation with an invalid time stamp counts as one of the epoch. C219_first_time_where: it holds if every observation has a valid stamp."
  },
  {
   "property": "C220",
   "status": "proved",
   "theorems": [
    "C220_export_keyframes"
   ],
   "note": "Simplification: if the loop fails midway, the partial twist file is not modelled."
  },
  {
   "property": "C221",
   "status": "partial",
   "theorems": [
    "C221_same_stamp_loses_a_keyframe_refuted",
    "C221_every_keyframe_where"
   ],
   "note": "Refuted: of two keyframes with the same stamp only the last has a row. C221_every_keyframe_where: it holds for distinct stamps."
  },
  {
   "property": "C222",
   "status": "partial",
   "theorems": [
    "C222_frame_without_twist_has_no_row_refuted",
    "C222_twist_rows_where"
   ],
   "note": "Refuted: a frame without twist (or without stamp) has no row. C222_twist_rows_where: it holds if every frame has both, row i being that of frame i."
  },
  {
   "property": "C223",
   "status": "proved",
   "theorems": [
    "C223_export_rawlog"
   ],
   "note": ""
  },
  {
   "property": "C224",
   "status": "partial",
   "theorems": [
    "C224_level_does_not_level_refuted",
    "C224_level_where"
   ],
   "note": "Refuted by a path on a plane that misses the origin: the target height is that of the first keyframe before the rotation. C224_level_where: an ideal optimiser levels the path if some rotation brings every keyframe to the height of the first one."
  },
  {
   "property": "C225",
   "status": "partial",
   "theorems": [
    "C225_null_observation_is_dereferenced_refuted",
    "C225_no_null_where"
   ],
   "note": "Refuted: a null observation before the first time stamp of its keyframe is dereferenced. C225_no_null_where: it holds if no observation is null."
  },
  {
   "property": "C226",
   "status": "proved",
   "theorems": [
    "C226_format_by_extension",
    "C226_bad_georeferencing_file",
    "C226_inject_sets_only_the_georeferencing"
   ],
   "note": ""
  },
  {
   "property": "C227",
   "status": "proved",
   "theorems": [
    "C227_extract_then_inject"
   ],
   "note": "For the binary format; see C112/C113 for the YAML form."
  },
  {
   "property": "C228",
   "status": "partial",
   "theorems": [
    "C228_load_tells",
    "C228_unreadable_map_is_replaced_refuted",
    "C228_bad_map_where"
   ],
   "note": "Refuted for stream constructors that do not throw (both behaviours are quantified over): the result of loading is ignored. C228_bad_map_where: it holds if the file can be opened or the constructor throws."
  },
  {
   "property": "C229",
   "status": "partial",
   "theorems": [
    "C229_unwritable_map_exits_with_0_refuted",
    "C229_exit_code_where"
   ],
   "note": "Refuted: the result of save_to_file() is ignored. C229_exit_code_where: it holds if the map can be written or the stream constructor throws."
  },
  {
   "property": "C230",
   "status": "partial",
   "theorems": [
    "C230_interrupted_injection_loses_the_map_refuted",
    "C230_crash_points_where"
   ],
   "note": "Refuted: the map is overwritten in place. C230_crash_points_where: the only bad point is between truncation and completion of the write; all other files are intact."
  },
  {
   "property": "C231",
   "status": "proved",
   "theorems": [
    "C231_rename_layer"
   ],
   "note": ""
  },
  {
   "property": "C232",
   "status": "partial",
   "theorems": [
    "C232_rename_ignored_with_pipeline_refuted",
    "C232_pipeline_where"
   ],
   "note": "Refuted: with --pipeline the option --rename-layer is ignored. C232_pipeline_where and C231: each of them alone takes effect."
  },
  {
   "property": "C233",
   "status": "proved",
   "theorems": [
    "C233_filter_exit_code_and_crash_points",
    "C233_unreadable_input_fails"
   ],
   "note": ""
  },
  {
   "property": "C234",
   "status": "partial",
   "theorems": [
    "C234_interrupted_filter_in_place_loses_the_map_refuted",
    "C234_input_intact_where"
   ],
   "note": "Refuted if the output file is the input file. C234_input_intact_where: it holds if they differ."
  },
  {
   "property": "C235",
   "status": "proved",
   "theorems": [
    "C235_mm2txt_exports_the_layers"
   ],
   "note": ""
  },
  {
   "property": "C236",
   "status": "partial",
   "theorems": [
    "C236_unreadable_map_exits_with_0_refuted",
    "C236_bad_map_where"
   ],
   "note": "Refuted for stream constructors that do not throw: the result of loading is ignored. C236_bad_map_where: it holds if the file can be opened or the constructor throws."
  },
  {
   "property": "C237",
   "status": "partial",
   "theorems": [
    "C237_unwritten_text_exits_with_0_refuted",
    "C237_exit_code_where"
   ],
   "note": "Refuted: the results of the writing functions are ignored. C237_exit_code_where: it holds if the files can be written."
  },
  {
   "property": "C238",
   "status": "proved",
   "theorems": [
    "C238_xyz_one_point_per_row",
    "C238_xyzi_one_point_per_row",
    "C238_xyzrgb_one_point_per_row",
    "C238_xyzrgb_normalized_one_point_per_row"
   ],
   "note": ""
  },
  {
   "property": "C239",
   "status": "partial",
   "theorems": [
    "C239_ring_and_time_are_lost_refuted",
    "C239_xyzirt_where"
   ],
   "note": "Refuted: the cloud is of a class without ring and time. C239_xyzirt_where: coordinates and intensities are right."
  },
  {
   "property": "C240",
   "status": "partial",
   "theorems": [
    "C240_layer_option_is_ignored_refuted",
    "C240_layer_option_of_kitti2mm_is_ignored_refuted",
    "C240_raw_layer_where"
   ],
   "note": "Refuted: the layer is always \"raw\". C240_raw_layer_where: it holds for --layer raw."
  },
  {
   "property": "C241",
   "status": "partial",
   "theorems": [
    "C241_column_beyond_the_row_refuted",
    "C241_columns_where"
   ],
   "note": "Refuted: a column beyond the row reads the next row or beyond the matrix. C241_columns_where: no undefined behaviour if the columns exist."
  },
  {
   "property": "C242",
   "status": "partial",
   "theorems": [
    "C242_mm_anywhere_in_the_path_refuted",
    "C242_icplog_anywhere_in_the_path_refuted",
    "C242_input_kind_where"
   ],
   "note": "Refuted: \".mm\" and \".icplog\" are looked for anywhere in the path. C242_input_kind_where: it holds if they only occur as extensions."
  },
  {
   "property": "C243",
   "status": "proved",
   "theorems": [
    "C243_rawlog_entry"
   ],
   "note": ""
  },
  {
   "property": "C244",
   "status": "partial",
   "theorems": [
    "C244_negative_index_is_undefined_refuted",
    "C244_fraction_is_truncated_refuted"
   ],
   "note": "Refuted: a fraction is truncated and a negative number is converted to size_t, which is undefined. C243_rawlog_entry covers the valid indices."
  },
  {
   "property": "C245",
   "status": "partial",
   "theorems": [
    "C245_errors",
    "C245_single_point_is_rejected_refuted",
    "C245_load_xyz_where"
   ],
   "note": "Refuted: a single point is rejected. C245_load_xyz_where: it holds otherwise."
  },
  {
   "property": "C246",
   "status": "proved",
   "theorems": [
    "C246_one_frame_per_observation"
   ],
   "note": ""
  },
  {
   "property": "C247",
   "status": "partial",
   "theorems": [
    "C247_other_layers_are_dropped_refuted",
    "C247_all_layers_where"
   ],
   "note": "Refuted: layers that are not point clouds are dropped. C247_all_layers_where: it holds if all are point clouds."
  },
  {
   "property": "C248",
   "status": "proved",
   "theorems": [
    "C248_failure_keeps_the_frames_before"
   ],
   "note": ""
  },
  {
   "property": "C249",
   "status": "proved",
   "theorems": [
    "C249_bad_weight_is_an_error",
    "C249_overall_quality_in_unit_interval",
    "C249_unanimous_evaluators",
    "C249_overflowing_weights_give_NaN"
   ],
   "note": "C249_overflowing_weights_give_NaN shows that the condition on the sum is needed."
  },
  {
   "property": "C250",
   "status": "proved",
   "theorems": [
    "C250_paired_ratio_in_unit_interval",
    "C250_more_pairings_never_lower_it",
    "C250_one_only_if_all_paired"
   ],
   "note": ""
  },
  {
   "property": "C251",
   "status": "partial",
   "theorems": [
    "C251_empty_channel_is_an_error",
    "C251_numbers_in_unit_interval_where",
    "C251_numbers_in_unit_interval_refuted",
    "C251_fixed_range"
   ],
   "note": "Refuted: a width of at most 2^-128 (or one that overflows) gives NaN. C251_numbers_in_unit_interval_where: the exact condition; C251_fixed_range: with a fixed range."
  },
  {
   "property": "C252",
   "status": "proved",
   "theorems": [
    "C252_order_is_kept"
   ],
   "note": ""
  },
  {
   "property": "C253",
   "status": "partial",
   "theorems": [
    "C253_brightest_gets_almost_one",
    "C253_brightest_gets_one_where",
    "C253_brightest_gets_one_refuted"
   ],
   "note": "Refuted: with intensities 0 and 41 the brightest gets 1 - 2^-24. C253_brightest_gets_almost_one: at least 1 - 2^-24 always; C253_brightest_gets_one_where: exactly 1 if the width is a power of two."
  },
  {
   "property": "C254",
   "status": "proved",
   "theorems": [
    "C254_empty_channel_is_an_error",
    "C254_earliest_becomes_zero"
   ],
   "note": ""
  },
  {
   "property": "C255",
   "status": "partial",
   "theorems": [
    "C255_time_differences_kept_where",
    "C255_time_differences_kept_refuted"
   ],
   "note": "Refuted: rounding. C254 bounds the error; C255_time_differences_kept_where: exact if the stamps are positive and the latest is at most twice the earliest."
  },
  {
   "property": "C256",
   "status": "proved",
   "theorems": [
    "C256_middle_zero_is_inside"
   ],
   "note": ""
  },
  {
   "property": "C257",
   "status": "proved",
   "theorems": [
    "C257_normalized_stamps_in_unit_interval"
   ],
   "note": ""
  },
  {
   "property": "C258",
   "status": "proved",
   "theorems": [
    "C258_earliest_is_zero_is_idempotent"
   ],
   "note": ""
  },
  {
   "property": "C259",
   "status": "proved",
   "theorems": [
    "C259_index_defined_iff",
    "C259_index_monotone",
    "C259_index_odd"
   ],
   "note": ""
  },
  {
   "property": "C260",
   "status": "partial",
   "theorems": [
    "C260_index_of_a_coordinate_or_the_next",
    "C260_index_of_a_coordinate_where",
    "C260_index_of_a_coordinate_refuted"
   ],
   "note": "Refuted: with resolution 0.1f the coordinate 0.5 lies below 5 resolutions and has index 5. C260_index_of_a_coordinate_where: it holds except in the last 2^-24 part of the voxel; C260_index_of_a_coordinate_or_the_next: there it is the next index at worst."
  },
  {
   "property": "C261",
   "status": "proved",
   "theorems": [
    "C261_same_voxel_is_close"
   ],
   "note": ""
  },
  {
   "property": "C262",
   "status": "partial",
   "theorems": [
    "C262_mean_error_bound",
    "C262_mean_of_equal_points_where",
    "C262_mean_of_equal_points_refuted"
   ],
   "note": "Refuted: the mean of seven points at 3 is above 3. C262_mean_error_bound: the error bound; C262_mean_of_equal_points_where: exact for one or two points."
  },
  {
   "property": "C263",
   "status": "proved",
   "theorems": [
    "C263_kept_pairings_are_available",
    "C263_larger_ratio_keeps_no_fewer"
   ],
   "note": ""
  },
  {
   "property": "C264",
   "status": "partial",
   "theorems": [
    "C264_cauchy_weight_in_unit_interval_where",
    "C264_geman_mcclure_weight_in_unit_interval_where",
    "C264_kernel_weight_in_unit_interval_refuted"
   ],
   "note": "Refuted: NaN if the square of the parameter underflows or overflows. The _where theorems: exactly then."
  },
  {
   "property": "C265",
   "status": "proved",
   "theorems": [
    "C265_kernel_full_weight_without_error",
    "C265_kernel_weight_never_grows_with_the_error"
   ],
   "note": ""
  },
  {
   "property": "C266",
   "status": "partial",
   "theorems": [
    "C266_clearly_inside_is_inside",
    "C266_clearly_outside_is_outside",
    "C266_point_beyond_the_range_is_outside_refuted"
   ],
   "note": "Refuted if the square of the range overflows: with a maximum of 2^70 everything beyond 2^64 counts as inside. C266_clearly_outside_is_outside: it holds if it does not overflow; C266_clearly_inside_is_inside: always."
  },
  {
   "property": "C267",
   "status": "proved",
   "theorems": [
    "C267_residual_is_the_relative_pose",
    "C267_normal_equations_with_prior"
   ],
   "note": "MRPT's logarithm and jacob_dDinvP1invP2_de1e2 are parameters."
  },
  {
   "property": "C268",
   "status": "proved",
   "theorems": [
    "C268_steps_with_prior"
   ],
   "note": ""
  },
  {
   "property": "C269",
   "status": "partial",
   "theorems": [
    "C269_satisfied_pairs_hide_the_prior_refuted",
    "C269_where"
   ],
   "note": "refuted: C269_satisfied_pairs_hide_the_prior_refuted holds for every prior and both builds; C269_where: with pairs whose error exceeds maxCost the prior takes part in the step."
  },
  {
   "property": "C270",
   "status": "proved",
   "theorems": [
    "C270_gradient"
   ],
   "note": ""
  },
  {
   "property": "C271",
   "status": "partial",
   "theorems": [
    "C271_reconfigured_where",
    "C271_old_formula_comes_back_refuted"
   ],
   "note": "refuted: C271_old_formula_comes_back_refuted (for every pair of values); C271_reconfigured_where: exact if no formula with variables was ever declared for the variable, with no restriction on the history."
  },
  {
   "property": "C272",
   "status": "partial",
   "theorems": [
    "C272_given_formula",
    "C272_left_out_where",
    "C272_left_out_changes_value_refuted"
   ],
   "note": "refuted: C272_left_out_changes_value_refuted; C272_left_out_where gives the exact set of kept values (exact numbers; the number parser of the expression library reads decimals exactly)."
  },
  {
   "property": "C273",
   "status": "proved",
   "theorems": [
    "C273_weights_as_configured",
    "C273_weighted_solver_as_configured"
   ],
   "note": ""
  },
  {
   "property": "C274",
   "status": "proved",
   "theorems": [
    "C274_weights_round_trip"
   ],
   "note": ""
  },
  {
   "property": "C275",
   "status": "partial",
   "theorems": [
    "C275_failed_load_where",
    "C275_failed_load_refuted"
   ],
   "note": "refuted: C275_failed_load_refuted (for every configuration without robust_kernel whose first entries are readable); C275_failed_load_where bounds what a failed load can change."
  },
  {
   "property": "C276",
   "status": "proved",
   "theorems": [
    "C276_matcher_window"
   ],
   "note": ""
  },
  {
   "property": "C277",
   "status": "proved",
   "theorems": [
    "C277_solver_window"
   ],
   "note": ""
  },
  {
   "property": "C278",
   "status": "proved",
   "theorems": [
    "C278_matcher_base_as_configured"
   ],
   "note": ""
  },
  {
   "property": "C279",
   "status": "partial",
   "theorems": [
    "C279_empty_list_matches_by_name_refuted",
    "C279_listed_only_where"
   ],
   "note": "refuted: C279_empty_list_matches_by_name_refuted (for every accepted configuration with an empty list); C279_listed_only_where for non-empty lists."
  },
  {
   "property": "C280",
   "status": "proved",
   "theorems": [
    "C280_adaptive_as_configured"
   ],
   "note": ""
  },
  {
   "property": "C281",
   "status": "proved",
   "theorems": [
    "C281_line_as_configured"
   ],
   "note": ""
  },
  {
   "property": "C282",
   "status": "partial",
   "theorems": [
    "C282_voxel_evaluator_as_configured",
    "C282_paired_ratio_where",
    "C282_documented_configuration_refuted"
   ],
   "note": "refuted: C282_documented_configuration_refuted (for every configuration without `threshold` and without reuse); C282_paired_ratio_where for accepted ones."
  },
  {
   "property": "C283",
   "status": "partial",
   "theorems": [
    "C283_accepted_ratio_throws_refuted",
    "C283_inlier_ratio_where"
   ],
   "note": "refuted: C283_accepted_ratio_throws_refuted (for every ratio outside the interval and every pair of layers); C283_inlier_ratio_where characterises acceptance."
  },
  {
   "property": "C284",
   "status": "proved",
   "theorems": [
    "C284_accepted_configurations"
   ],
   "note": ""
  },
  {
   "property": "C285",
   "status": "proved",
   "theorems": [
    "C285_ini_as_configured"
   ],
   "note": ""
  },
  {
   "property": "C286",
   "status": "partial",
   "theorems": [
    "C286_missing_class_accepted_refuted",
    "C286_with_class_where"
   ],
   "note": "refuted: C286_missing_class_accepted_refuted (for every accepted definition without class); C286_with_class_where."
  },
  {
   "property": "C287",
   "status": "partial",
   "theorems": [
    "C287_old_sections_stay_refuted",
    "C287_named_entries_where"
   ],
   "note": "refuted: C287_old_sections_stay_refuted (for every pair of configurations); C287_named_entries_where for any number of calls."
  },
  {
   "property": "C288",
   "status": "partial",
   "theorems": [
    "C288_dangling_formula_refuted",
    "C288_first_initialize_where"
   ],
   "note": "refuted: C288_dangling_formula_refuted (every section, key and formula of one variable); C288_first_initialize_where."
  },
  {
   "property": "C289",
   "status": "proved",
   "theorems": [
    "C289_ready_iff_initialised"
   ],
   "note": ""
  },
  {
   "property": "C290",
   "status": "proved",
   "theorems": [
    "C290_decimate_as_configured",
    "C290_delete_as_configured",
    "C290_listed_layers_are_deleted"
   ],
   "note": ""
  },
  {
   "property": "C291",
   "status": "partial",
   "theorems": [
    "C291_rejected_configuration_where",
    "C291_rejected_configuration_refuted"
   ],
   "note": "refuted: C291_rejected_configuration_refuted (every such configuration, every map); C291_rejected_configuration_where says exactly when it stays usable."
  },
  {
   "property": "C292",
   "status": "proved",
   "theorems": [
    "C292_ring_as_configured",
    "C292_ring_accepts",
    "C292_listed_rings_are_selected"
   ],
   "note": ""
  },
  {
   "property": "C293",
   "status": "proved",
   "theorems": [
    "C293_box_as_configured",
    "C293_configured_box_selects"
   ],
   "note": ""
  },
  {
   "property": "C294",
   "status": "proved",
   "theorems": [
    "C294_range_as_configured",
    "C294_configured_range_selects"
   ],
   "note": ""
  },
  {
   "property": "C295",
   "status": "partial",
   "theorems": [
    "C295_flattening_is_never_switched_off_refuted",
    "C295_twist_is_never_removed_refuted",
    "C295_center_stays_refuted",
    "C295_decimate_again_where"
   ],
   "note": "refuted: C295_flattening_is_never_switched_off_refuted, C295_twist_is_never_removed_refuted, C295_center_stays_refuted; C295_decimate_again_where is an equivalence."
  },
  {
   "property": "C296",
   "status": "proved",
   "theorems": [
    "C296_merge_as_configured",
    "C296_configured_pose",
    "C296_deskew_as_configured",
    "C296_configured_twist",
    "C296_no_twist",
    "C296_merge_frame"
   ],
   "note": ""
  },
  {
   "property": "C297",
   "status": "partial",
   "theorems": [
    "C297_rejected_twist_is_switched_on_refuted",
    "C297_twist_where"
   ],
   "note": "refuted: C297_rejected_twist_is_switched_on_refuted; C297_twist_where."
  },
  {
   "property": "C298",
   "status": "proved",
   "theorems": [
    "C298_intensity_as_configured",
    "C298_timestamps_as_configured",
    "C298_normalize_as_configured",
    "C298_curvature_as_configured",
    "C298_slice_as_configured",
    "C298_poles_as_configured",
    "C298_occupancy_as_configured",
    "C298_adaptive_as_configured",
    "C298_quadratic_as_configured",
    "C298_edges_as_configured",
    "C298_configured_slice",
    "C298_configured_poles",
    "C298_configured_occupancy",
    "C298_configured_timestamps"
   ],
   "note": ""
  },
  {
   "property": "C299",
   "status": "partial",
   "theorems": [
    "C299_ring_without_outputs_refuted",
    "C299_curvature_without_outputs_refuted",
    "C299_occupancy_without_outputs_refuted",
    "C299_outputs_where"
   ],
   "note": "refuted: C299_ring_without_outputs_refuted, C299_curvature_without_outputs_refuted, C299_occupancy_without_outputs_refuted; C299_outputs_where for the others."
  },
  {
   "property": "C300",
   "status": "partial",
   "theorems": [
    "C300_aligned_where",
    "C300_aligned_refuted"
   ],
   "note": "refuted: C300_aligned_refuted (concrete: off by more than 1 m with a perfect matcher); C300_aligned_where gives the pose for every guess and an equivalence."
  },
  {
   "property": "C301",
   "status": "partial",
   "theorems": [
    "C301_failed_match_where",
    "C301_failed_match_refuted"
   ],
   "note": "refuted: C301_failed_match_refuted (every guess); C301_failed_match_where gives the quality for every call."
  },
  {
   "property": "C302",
   "status": "proved",
   "theorems": [
    "C302_runs_exactly_if",
    "C302_voxels_alone_are_rejected"
   ],
   "note": ""
  },
  {
   "property": "C303",
   "status": "proved",
   "theorems": [
    "C303_every_point_takes_part"
   ],
   "note": ""
  },
  {
   "property": "C304",
   "status": "partial",
   "theorems": [
    "C304_no_pairings_no_covariance_refuted"
   ],
   "note": "refuted for every accepted call: C304_no_pairings_no_covariance_refuted."
  },
  {
   "property": "C305",
   "status": "proved",
   "theorems": [
    "C305_record_of_the_call"
   ],
   "note": ""
  },
  {
   "property": "C306",
   "status": "proved",
   "theorems": [
    "C306_sanity_check"
   ],
   "note": ""
  },
  {
   "property": "C307",
   "status": "proved",
   "theorems": [
    "C307_icp_run"
   ],
   "note": ""
  },
  {
   "property": "C308",
   "status": "proved",
   "theorems": [
    "C308_each_rawlog_is_read_once",
    "C308_missing_rawlog"
   ],
   "note": ""
  },
  {
   "property": "C309",
   "status": "partial",
   "theorems": [
    "C309_sm2mm_where",
    "C309_sm2mm_ends_where",
    "C309_plugins_are_ignored_refuted"
   ],
   "note": "refuted: C309_plugins_are_ignored_refuted (every run); C309_sm2mm_where says exactly when a map is written and which."
  },
  {
   "property": "C310",
   "status": "partial",
   "theorems": [
    "C310_incomplete_input_refuted",
    "C310_nothing_read_where"
   ],
   "note": "refuted: C310_incomplete_input_refuted (every partial read that is not empty); C310_nothing_read_where."
  },
  {
   "property": "C311",
   "status": "partial",
   "theorems": [
    "C311_mm_info_where",
    "C311_unreadable_file_refuted"
   ],
   "note": "refuted: C311_unreadable_file_refuted; C311_mm_info_where gives the exact outcome."
  },
  {
   "property": "C312",
   "status": "proved",
   "theorems": [
    "C312_planes_and_lines"
   ],
   "note": ""
  },
  {
   "property": "C313",
   "status": "partial",
   "theorems": [
    "C313_line_options_ignored_refuted",
    "C313_lines_where"
   ],
   "note": "refuted: C313_line_options_ignored_refuted (every map); C313_lines_where."
  },
  {
   "property": "C314",
   "status": "proved",
   "theorems": [
    "C314_every_layer_once",
    "C314_invisible_points",
    "C314_only_the_named_layers"
   ],
   "note": ""
  },
  {
   "property": "C315",
   "status": "partial",
   "theorems": [
    "C315_point_size_of_another_layer_refuted",
    "C315_single_layer_where"
   ],
   "note": "refuted: C315_point_size_of_another_layer_refuted (every pair of layers); C315_single_layer_where."
  },
  {
   "property": "C316",
   "status": "proved",
   "theorems": [
    "C316_color_limits"
   ],
   "note": ""
  },
  {
   "property": "C317",
   "status": "partial",
   "theorems": [
    "C317_drawing_where",
    "C317_drawing_changes_the_map_refuted"
   ],
   "note": "refuted: C317_drawing_changes_the_map_refuted; C317_drawing_where is an equivalence."
  },
  {
   "property": "C318",
   "status": "proved",
   "theorems": [
    "C318_pairings_shown"
   ],
   "note": ""
  },
  {
   "property": "C319",
   "status": "partial",
   "theorems": [
    "C319_other_pairings_not_shown_refuted"
   ],
   "note": "refuted for every set of pairings: C319_other_pairings_not_shown_refuted; C318 has the kinds that are shown."
  },
  {
   "property": "C320",
   "status": "proved",
   "theorems": [
    "C320_horn_despite_outliers"
   ],
   "note": ""
  },
  {
   "property": "C321",
   "status": "proved",
   "theorems": [
    "C321_olae_despite_outliers"
   ],
   "note": ""
  },
  {
   "property": "C322",
   "status": "partial",
   "theorems": [
    "C322_reported_outlier_moves_the_pose_refuted",
    "C322_first_pass_outliers_have_no_influence_where"
   ],
   "note": "refuted: C322_reported_outlier_moves_the_pose_refuted (any linear solver); C322_first_pass_outliers_have_no_influence_where for pairs rejected by the first test."
  },
  {
   "property": "C323",
   "status": "proved",
   "theorems": [
    "C323_registration_recovers_the_pose"
   ],
   "note": "end to end: the models of the matcher (PointMatcherModel), the solver (HornModel), the evaluator (QualityModel) and the loop (IcpModel) composed; exact arithmetic, composePoint exact on the points for the guess and the true pose; no hook, no robust kernel, one layer."
  },
  {
   "property": "C324",
   "status": "proved",
   "theorems": [
    "C324_registration_with_olae_recovers_the_pose"
   ],
   "note": "as C323, with OlaeModel."
  },
  {
   "property": "C325",
   "status": "proved",
   "theorems": [
    "C325_range_of_the_whole_history",
    "C325_outputs_in_unit_interval"
   ],
   "note": "IEEE binary32 arithmetic with Flocq; induction over the history with the memory as invariant."
  },
  {
   "property": "C326",
   "status": "proved",
   "theorems": [
    "C326_the_record"
   ],
   "note": ""
  },
  {
   "property": "C327",
   "status": "partial",
   "theorems": [
    "C327_record_is_safe_where",
    "C327_record_is_safe_refuted"
   ],
   "note": "refuted: a new ICP object with maxIterations = 0 dereferences a null attachedSource() (ICP.cpp 351). The where theorem: no other cause, if the first matcher is attached or an iteration is allowed."
  },
  {
   "property": "C328",
   "status": "proved",
   "theorems": [
    "C328_logging_does_not_change_the_result",
    "C328_same_failures"
   ],
   "note": ""
  },
  {
   "property": "C329",
   "status": "partial",
   "theorems": [
    "C329_maps_untouched_where",
    "C329_maps_untouched_refuted"
   ],
   "note": "refuted: the copy shares the layer objects; holds exactly for functors that make new objects for the layers they change."
  },
  {
   "property": "C330",
   "status": "partial",
   "theorems": [
    "C330_filename_where",
    "C330_label_is_kept_refuted"
   ],
   "note": "refuted for labels with a dollar (std::regex_replace interprets the replacement text, and later passes expand placeholders in it); proved for labels without."
  },
  {
   "property": "C331",
   "status": "partial",
   "theorems": [
    "C331_one_file_per_number_where",
    "C331_same_file_refuted",
    "C331_no_file_is_replaced_where"
   ],
   "note": "refuted when the number is followed by a digit of a label; proved, for arbitrary labels, if it is the first placeholder and is followed by neither a digit nor a dollar (the default format is such)."
  },
  {
   "property": "C332",
   "status": "partial",
   "theorems": [
    "C332_ids_distinguish_refuted",
    "C332_ids_distinguish_where"
   ],
   "note": "refuted: 64-bit identifiers are cut to 32 bits, and no identifier is shown as 0; proved for 32-bit identifiers."
  },
  {
   "property": "C333",
   "status": "partial",
   "theorems": [
    "C333_record_is_a_snapshot_refuted",
    "C333_record_is_a_snapshot_where"
   ],
   "note": "refuted: the record shares the layer objects; the where theorem is an equivalence."
  },
  {
   "property": "C334",
   "status": "proved",
   "theorems": [
    "C334_run_descends",
    "C334_icp_never_gets_worse",
    "C334_exact"
   ],
   "note": "end to end as C323, any evaluators, hook and formulas; coordinates rational, solver over the reals, composePoint accurate up to eps (C334_exact: eps = 0). Per iteration the rounding may cost 4 n eps (threshold + eps). Assumes of the pairs in the run what C85 does: at least three, none within 0.1 mm of the centroids (such pairs are left out by the solver), correct eigenvectors."
  },
  {
   "property": "C335",
   "status": "partial",
   "theorems": [
    "C335_default_options_where",
    "C335_default_options_refuted"
   ],
   "note": "refuted: a local point whose nearest global point is taken by an earlier point is left out, and may be moved away from a perfect position (dense scan against a sparse map). The where theorem: no two local points compete for a global point during the run."
  },
  {
   "property": "C336",
   "status": "partial",
   "theorems": [
    "C336_colour_out_of_range_refuted",
    "C336_colours_where"
   ],
   "note": "refuted: a colour outside 0..255 is converted from float to an unsigned byte out of range, which is undefined behaviour; the where theorem: all colours between 0 and 255 (bounds given exactly). Anchored in the shipped tool."
  },
  {
   "property": "C337",
   "status": "proved",
   "theorems": [
    "C337_other_observations",
    "C337_depth_images",
    "C337_velodyne_scans",
    "C337_custom_maps"
   ],
   "note": "observation insertion itself (MRPT) is a parameter of the model; the theorem says which layer it is applied to, when, and with what effect on the rest of the map"
  },
  {
   "property": "C338",
   "status": "proved",
   "theorems": [
    "C338_unknown_variable",
    "C338_errors_come_from_the_pipeline"
   ],
   "note": "generators and filters are parameters; the trace of calls is explicit"
  },
  {
   "property": "C339",
   "status": "partial",
   "theorems": [
    "C339_compared_error",
    "C339_weighted_error_where",
    "C339_parallel_lines_undefined",
    "C339_weight_squared_refuted",
    "C339_builds_disagree_refuted"
   ],
   "note": "refuted: lines and planes add their error with the squared weight, while point pairs use the weight; point-to-plane pairs use the weight in the TBB build and its square without TBB, so the two builds stop at different iterations. C339_compared_error gives the exact value compared in each iteration (all classes, both builds); the where theorem: no kernel, class weights 0 or 1. Point pairs with the class weight (no individual weights); TBB schedules that lose no addition. C339_parallel_lines_undefined: the iterations that are undefined."
  },
  {
   "property": "C340",
   "status": "proved",
   "theorems": [
    "C340_solvers_ignore_the_order"
   ],
   "note": "proved in exact arithmetic: rounding of the sums, which does depend on the order, is outside the model."
  },
  {
   "property": "C341",
   "status": "proved",
   "theorems": [
    "C341_library_components_ignore_the_order",
    "C341_order_of_the_local_points",
    "C341_default_pipeline"
   ],
   "note": "proved; C341_library_components_ignore_the_order shows that Horn, OLAE and the paired-ratio evaluator are order-free, C341_default_pipeline is the pipeline with one matcher. Exact arithmetic; the subsampling of the local points (maxLocalPointsPerLayer) must not act, since it picks positions."
  },
  {
   "property": "C342",
   "status": "partial",
   "theorems": [
    "C342_default_options_where",
    "C342_default_options_refuted"
   ],
   "note": "refuted: of two local points near one global point the first in the cloud gets it, even if the other one is nearer; the refutation is a run whose pose differs by 5 cm in one iteration. The where theorem: no two local points compete for a global point at the poses of the run (or sharing is allowed)."
  },
  {
   "property": "C343",
   "status": "proved",
   "theorems": [
    "C343_none_iff_empty",
    "C343_summary_shows_the_numbers"
   ],
   "note": "proved for all pairings."
  },
  {
   "property": "C344",
   "status": "partial",
   "theorems": [
    "C344_throws",
    "C344_names_every_layer_refuted",
    "C344_names_every_layer_where",
    "C344_lines_and_planes",
    "C344_empty_map"
   ],
   "note": "refuted in one point: a map whose layers hold no points is not empty() and gets a blank summary without its layers. Proved: when it throws, what it shows of the head, lines, planes and metadata, and - where some layer has a point or a voxel or is of another class - the totals (that of size_points_only()) and each layer."
  },
  {
   "property": "C345",
   "status": "partial",
   "theorems": [
    "C345_results_print",
    "C345_what_is_read_prints_refuted",
    "C345_what_is_read_prints_where"
   ],
   "note": "refuted: the reason byte is not checked when it is read, and print() throws for the values 7..255; the where theorem gives the exact domain (<= 6), and C345_results_print shows that all results of align() print, also after a round trip."
  },
  {
   "property": "C346",
   "status": "proved",
   "theorems": [
    "C346_aligned_pose_is_kept_by_horn",
    "C346_aligned_pose_is_kept_by_olae"
   ],
   "note": "proved in exact arithmetic, relative to the contract of the eigenvector routine resp. the linear solver for the matrix of the run."
  },
  {
   "property": "C347",
   "status": "partial",
   "theorems": [
    "C347_error_never_grows_where",
    "C347_error_never_grows_refuted"
   ],
   "note": "refuted: pairs with an error below a quarter of the largest are left out of the step, however many; 6 pairs are fixed and 7 that fitted are broken, the sum grows from 6 to 7. The where theorem: the errors of each kind are within a factor of four of each other."
  },
  {
   "property": "C348",
   "status": "proved",
   "theorems": [
    "C348_wrong_translation_is_corrected",
    "C348_within_the_limit_the_start_stays"
   ],
   "note": "proved in exact arithmetic, for pairings without individual point weights and without line-to-line pairings; the linear solver is assumed to solve the one system it is given."
  },
  {
   "property": "C349",
   "status": "proved",
   "theorems": [
    "C349_aligned_maps_stay_aligned",
    "C349_registration_with_gauss_newton_corrects_the_translation"
   ],
   "note": "proved in exact arithmetic, relative to the contracts of the nearest neighbour search, the pose difference and the linear solver."
  },
  {
   "property": "C350",
   "status": "proved",
   "theorems": [
    "C350_run_descends",
    "C350_exact"
   ],
   "note": "proved in exact arithmetic for the solver; relative to a correct nearest neighbour search and eigen-decomposition of the systems of the run."
  },
  {
   "property": "C351",
   "status": "partial",
   "theorems": [
    "C351_default_options_where",
    "C351_default_options_refuted"
   ],
   "note": "refuted: with the default options, a run makes the sum of the squared distances grow, because the pairs whose global point is taken are dropped without replacement; C351_default_options_where proves it for the runs in which no kept pair is dropped."
  },
  {
   "property": "C352",
   "status": "proved",
   "theorems": [
    "C352_same_pairs_stop"
   ],
   "note": "proved for the closed-form solvers (Horn, OLAE), whose answer depends on the pairs only; the Gauss-Newton solver starts from the current pose, so the statement does not apply to it."
  },
  {
   "property": "C353",
   "status": "proved",
   "theorems": [
    "C353_one_best_fit_iff"
   ],
   "note": "proved in exact arithmetic; relative to a correct eigen-decomposition."
  },
  {
   "property": "C354",
   "status": "proved",
   "theorems": [
    "C354_ends_by_itself"
   ],
   "note": "proved in exact arithmetic; relative to a correct nearest neighbour search and eigen-decomposition of the systems of the run."
  },
  {
   "property": "C355",
   "status": "partial",
   "theorems": [
    "C355_unevaluated_formulas_refuse_where",
    "C355_box_ignores_it",
    "C355_unevaluated_formulas_refuse_refuted"
   ],
   "note": "refuted as stated: FilterBoundingBox::filter does not call checkAllParametersAreRealized() and runs with the default box (C355_unevaluated_formulas_refuse_refuted, C355_box_ignores_it); proved for the filters by range, occupancy and time stamps, merge, slice, pole, decimation, deskew and the curvature generator (_where)."
  },
  {
   "property": "C356",
   "status": "proved",
   "theorems": [
    "C356_frame_of_the_global_map"
   ],
   "note": "proved in exact arithmetic, for CPose3D's difference of poses (the pose seen from the other), any norms of it, and without hook and checkpoints; relative to a correct nearest neighbour search and eigen-decomposition of the systems of both runs."
  },
  {
   "property": "C357",
   "status": "proved",
   "theorems": [
    "C357_axes_of_the_local_map"
   ],
   "note": "proved as C356, for norms that do not depend on the axes."
  },
  {
   "property": "C358",
   "status": "partial",
   "theorems": [
    "C358_origin_of_the_local_map_where",
    "C358_origin_of_the_local_map_refuted"
   ],
   "note": "refuted as stated, for scans with an off-centre origin: the stalling test looks at the motion of the local origin, so a first correction that only turns the scan about it ends the run at iteration 0, while the same scan in a frame ten metres to the side is matched again. The _where theorem proves what holds for every rigid motion: the two runs have their searches (poses and pairs) in common as long as both last. C357 is the exact domain in which nothing changes (same origin)."
  },
  {
   "property": "C359",
   "status": "proved",
   "theorems": [
    "C359_unit_of_length"
   ],
   "note": "Matcher_Points_DistanceThreshold (relative threshold 0, one pair per point) with Horn's solver; the searches of the run have no ties and one best fit; the sizes of a motion (length, angle) are a function with the scaling property, shown for an example function; quality checkpoints off."
  },
  {
   "property": "C360",
   "status": "proved",
   "theorems": [
    "C360_voxels_in_another_unit",
    "C360_single_voxels_in_another_unit",
    "C360_same_representative"
   ],
   "note": ""
  },
  {
   "property": "C361",
   "status": "proved",
   "theorems": [
    "C361_box_in_another_unit",
    "C361_range_in_another_unit",
    "C361_decimation_in_another_unit"
   ],
   "note": "coordinates as rationals; a layer that is not a cloud is what it converts to; the visiting order of the single-point grid is assumed to depend on the keys only (order_of_keys; the identity is an instance)."
  },
  {
   "property": "C362",
   "status": "partial",
   "theorems": [
    "C362_origin_of_the_voxels_where",
    "C362_origin_of_the_voxels_refuted"
   ],
   "note": "refuted: the index of a coordinate is rounded towards zero (PointCloudToVoxelGrid.h 118), so the voxels on the coordinate planes are twice as wide as the others: two points 40 cm to both sides of the origin share a voxel of one metre there and nowhere else. The _where theorem is the domain: no coordinate changes its sign; then the voxels and their points are the same, the keys moved."
  }
 ]
}