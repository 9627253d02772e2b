{
"C01_empty_iff_no_pairs": [],
"C01_merge_copy_appends": [],
"C02_move_and_copy_same_lists": [],
"C03_never_undefined": [],
"C03_roundtrip": [],
"C03_roundtrip_of_what_fits": [],
"C03_truncated_rejected": [],
"C03_unknown_version_rejected": [],
"C03_version_bytes": [],
"C03_what_fits": [],
"C04_centroids_are_inlier_means": [
"Axioms",
"ClassicalDedekindReals.sig_forall_dec",
"FunctionalExtensionality.functional_extensionality_dep"
],
"C04_invalid_outliers_throw": [
"Axioms",
"ClassicalDedekindReals.sig_forall_dec",
"FunctionalExtensionality.functional_extensionality_dep"
],
"C05_matcher_runs_in_window": [],
"C06_run_matchers_concatenates": [],
"C07_pairings_within_bound": [],
"C07_pipeline_pairs_are_genuine": [],
"C08_no_global_point_twice": [],
"C09_marked_local_points_skipped": [],
"C09_matched_local_points_skipped": [],
"C100_z_not_assigned_refuted": [],
"C101_failed_realize_changes_nothing": [],
"C101_realize_is_defined": [],
"C102_declaring_after_attaching_refuted": [],
"C103_retry_after_undefined_variable_refuted": [],
"C104_points_at_the_origin_lose_their_fields_refuted": [],
"C105_precise_mode_ignores_linear_velocity_refuted": [],
"C105_precise_mode_ignores_the_twist_refuted": [],
"C106_missing_input_throws": [],
"C106_no_motion_model_throws": [],
"C106_no_times_throws": [],
"C106_unrealized_throws": [],
"C107_failed_call_leaves_blank_points_refuted": [],
"C107_missing_input_accepted_refuted": [],
"C108_failed_merge_keeps_the_layer_refuted": [],
"C108_failed_merge_keeps_the_lines_refuted": [],
"C108_layer_where": [],
"C108_planes_where": [],
"C109_merges_where": [],
"C109_null_dereference_refuted": [],
"C109_other_layers_cannot_be_merged_refuted": [],
"C109_planes_cannot_be_moved_refuted": [],
"C10_in_range_points_are_paired": [],
"C110_a_map_with_an_empty_layer_is_not_empty_refuted": [],
"C110_empty_where": [],
"C110_points_of_voxel_maps_not_counted_refuted": [],
"C111_changes_show_in_the_clone_refuted": [],
"C111_independent_where": [],
"C112_georef_yaml": [],
"C112_other_types_rejected": [],
"C113_rotation_kept_where": [],
"C113_rotation_lost_refuted": [],
"C114_point_clouds_are_appended": [],
"C115_only_the_target_layer_changes": [],
"C115_skipped_observations_have_no_effect": [],
"C116_default_twist_where": [],
"C116_stale_twist_refuted": [],
"C117_end_index_where": [],
"C117_largest_end_index_processes_nothing_refuted": [],
"C118_final_filters_cannot_use_variables_refuted": [],
"C118_final_filters_run_where": [],
"C118_no_formulas_where": [],
"C119_no_generators_throws": [],
"C11_inlier_ratio_keeps_best": [],
"C11_kept_count_in_range": [],
"C120_imu_readings": [],
"C121_existing_layer_where": [],
"C121_unusable_imu_creates_the_layer_refuted": [],
"C122_existing_layer_where": [],
"C122_skipped_observation_creates_the_layer_refuted": [],
"C123_all_generators_see_every_observation": [],
"C123_no_generators": [],
"C123_sensory_frame_no_generators": [],
"C123_sensory_frames": [],
"C124_move_equals_copy_refuted": [],
"C125_local_once_where": [],
"C125_skip_for_all_flags_refuted": [],
"C126_angular_threshold_refuted": [],
"C126_angular_where": [],
"C127_selected_where": [],
"C127_tail_never_selected_refuted": [],
"C128_forbidden_global_reuse_refuted": [],
"C128_one_range_no_global_twice_partial": [],
"C129_builds_differ_with_angle_refuted": [],
"C12_layers_and_weights": [],
"C12_missing_listed_layer_is_an_error": [],
"C12_weight_blocks_partition": [],
"C130_returned_pose_refuted": [],
"C131_stall_refuted": [],
"C132_numbers_distinct_refuted": [],
"C133_past_the_end_refuted": [],
"C134_reported_iterations_refuted": [],
"C135_align_no_ub_refuted": [],
"C136_limit_reads_out_of_range_refuted": [],
"C136_out_of_range_where": [],
"C137_old_version_refuted": [],
"C137_old_version_where": [],
"C138_checkpoints_lost_refuted": [],
"C138_parameters_back_where": [],
"C139_load_throws_refuted": [],
"C139_loads_where": [],
"C13_subsampling": [],
"C140_georeferencing_not_reset_refuted": [],
"C140_georeferencing_where": [],
"C141_accepted_where": [],
"C141_empty_cloud_throws_refuted": [],
"C141_filtered_where": [],
"C141_only_high_rejected_refuted": [],
"C142_deleted_where": [],
"C142_error_after_partial_deletion_refuted": [],
"C142_nothing_lost_where": [],
"C143_point_to_plane_exact": [],
"C143_point_to_plane_succeeds": [],
"C144_point_to_line_exact": [],
"C144_point_to_line_succeeds": [],
"C145_line_of_near_points_refuted": [],
"C145_line_of_near_points_where": [],
"C146_two_point_lines_refuted": [],
"C147_adaptive_exact": [],
"C147_adaptive_succeeds": [],
"C148_nothing_in_range_refuted": [],
"C149_global_points_reused_refuted": [],
"C149_marked_before_where": [],
"C14_every_schedule_terminates": [],
"C14_parallel_equals_sequential": [],
"C14_parallel_pairs_within_bound": [],
"C14_radius_search_same_without_angle": [],
"C14_schedule_independent": [],
"C150_plane_distance_refuted": [],
"C150_plane_distance_where": [],
"C151_by_indices": [],
"C151_covariance_laws": [],
"C151_mean_and_covariance": [],
"C152_class_unique": [
"Axioms",
"ClassicalDedekindReals.sig_forall_dec",
"ClassicalDedekindReals.sig_not_dec",
"FunctionalExtensionality.functional_extensionality_dep"
],
"C152_curvature_classes": [
"Axioms",
"ClassicalDedekindReals.sig_forall_dec",
"ClassicalDedekindReals.sig_not_dec",
"FunctionalExtensionality.functional_extensionality_dep"
],
"C152_partition": [
"Axioms",
"ClassicalDedekindReals.sig_forall_dec",
"ClassicalDedekindReals.sig_not_dec",
"FunctionalExtensionality.functional_extensionality_dep"
],
"C152_rejects": [],
"C152_rejects_channel": [],
"C152_thinning_unique": [],
"C153_no_ub_below_65535": [
"Axioms",
"ClassicalDedekindReals.sig_forall_dec",
"ClassicalDedekindReals.sig_not_dec",
"FunctionalExtensionality.functional_extensionality_dep"
],
"C153_no_ub_refuted": [],
"C154_near_border_judged_by_previous": [
"Axioms",
"ClassicalDedekindReals.sig_forall_dec",
"ClassicalDedekindReals.sig_not_dec",
"FunctionalExtensionality.functional_extensionality_dep"
],
"C154_near_border_refuted": [
"Axioms",
"ClassicalDedekindReals.sig_forall_dec",
"ClassicalDedekindReals.sig_not_dec",
"FunctionalExtensionality.functional_extensionality_dep"
],
"C155_pole_classes": [],
"C155_rejects": [],
"C155_rejects_output": [],
"C156_outputs_cover_judged": [],
"C156_outputs_cover_refuted": [],
"C157_columns_bounded_positive": [],
"C157_columns_bounded_refuted": [],
"C158_no_ub_refuted": [],
"C158_ub_exactly": [],
"C159_missing_input_ignored": [],
"C159_one_point_per_voxel": [],
"C159_rejects": [],
"C15_bitfield_is_a_set": [],
"C15_initialize_from": [],
"C15_out_of_range_is_ub": [],
"C160_channels_kept_refuted": [],
"C160_plain_output": [],
"C161_inverse_refuted": [
"Axioms",
"ClassicalDedekindReals.sig_forall_dec",
"ClassicalDedekindReals.sig_not_dec",
"FunctionalExtensionality.functional_extensionality_dep"
],
"C161_inverse_where": [
"Axioms",
"ClassicalDedekindReals.sig_forall_dec",
"ClassicalDedekindReals.sig_not_dec",
"FunctionalExtensionality.functional_extensionality_dep"
],
"C162_lattice_coordinate": [],
"C163_width_refuted": [],
"C163_width_where": [],
"C164_missing_input_is_an_error_refuted": [],
"C164_missing_input_other_output": [],
"C165_merge": [],
"C165_merge_clouds": [],
"C165_rejects": [],
"C166_no_ub_refuted": [],
"C166_no_ub_without_null_target": [],
"C167_kept_unique": [],
"C167_rejects": [],
"C167_slice": [],
"C168_rgb_gives_empty_grid": [],
"C168_rgb_sliced_refuted": [],
"C169_edges_planes": [],
"C169_rejects": [],
"C16_calls_during_a_whole_run": [],
"C16_finished_is_for_the_whole_run": [],
"C16_latch_is_permanent": [],
"C16_solver_runs_iff_allowed": [],
"C170_centroids_match_if_no_planes": [],
"C170_centroids_match_refuted": [],
"C171_accepts_refuted": [],
"C171_throws_exactly": [],
"C172_ends_if_positive": [],
"C172_ends_refuted": [],
"C173_container_refuted": [],
"C173_std_map_finds_nothing": [],
"C174_full_covers_refuted": [],
"C174_full_covers_where": [],
"C175_exception_safe_refuted": [],
"C175_other_layers_kept": [],
"C176_corners": [
"Axioms",
"ClassicalDedekindReals.sig_forall_dec",
"ClassicalDedekindReals.sig_not_dec",
"FunctionalExtensionality.functional_extensionality_dep"
],
"C176_rejects": [],
"C177_earlier_points_kept_refuted": [],
"C177_where": [],
"C178_other_observations": [],
"C179_significant_pixels": [],
"C17_false_iff_all_fail": [],
"C17_first_success_wins": [],
"C180_defined_refuted": [],
"C180_where": [],
"C181_earlier_points_kept_refuted": [],
"C181_where": [],
"C182_planes_layer_refuted": [],
"C182_where": [],
"C183_no_planes_layer_refuted": [],
"C183_where": [],
"C184_edge_blocks": [],
"C184_rejects": [],
"C185_layer_required": [
"Axioms",
"ClassicalDedekindReals.sig_forall_dec",
"ClassicalDedekindReals.sig_not_dec",
"FunctionalExtensionality.functional_extensionality_dep"
],
"C185_nothing_visible": [
"Axioms",
"ClassicalDedekindReals.sig_forall_dec",
"ClassicalDedekindReals.sig_not_dec",
"FunctionalExtensionality.functional_extensionality_dep"
],
"C185_quality_in_unit_interval": [
"Axioms",
"ClassicalDedekindReals.sig_forall_dec",
"ClassicalDedekindReals.sig_not_dec",
"FunctionalExtensionality.functional_extensionality_dep"
],
"C186_registered_gives_one_refuted": [
"Axioms",
"ClassicalDedekindReals.sig_forall_dec",
"ClassicalDedekindReals.sig_not_dec",
"FunctionalExtensionality.functional_extensionality_dep"
],
"C186_registered_where": [
"Axioms",
"ClassicalDedekindReals.sig_forall_dec",
"ClassicalDedekindReals.sig_not_dec",
"FunctionalExtensionality.functional_extensionality_dep"
],
"C187_in_view_where": [],
"C187_left_of_the_image_refuted": [],
"C187_only_points_in_view_refuted": [],
"C188_mean_of_pixels": [
"Axioms",
"ClassicalDedekindReals.sig_forall_dec",
"ClassicalDedekindReals.sig_not_dec",
"FunctionalExtensionality.functional_extensionality_dep"
],
"C188_nearest_range": [],
"C189_defined_for_every_cloud_refuted": [
"Axioms",
"ClassicalDedekindReals.sig_forall_dec",
"ClassicalDedekindReals.sig_not_dec",
"FunctionalExtensionality.functional_extensionality_dep"
],
"C189_defined_where": [
"Axioms",
"ClassicalDedekindReals.sig_forall_dec",
"ClassicalDedekindReals.sig_not_dec",
"FunctionalExtensionality.functional_extensionality_dep"
],
"C18_budget_and_reason": [],
"C18_reason_is_defined": [],
"C190_evaluate": [
"Axioms",
"ClassicalDedekindReals.sig_forall_dec",
"ClassicalDedekindReals.sig_not_dec",
"FunctionalExtensionality.functional_extensionality_dep"
],
"C190_layer_required": [
"Axioms",
"ClassicalDedekindReals.sig_forall_dec",
"ClassicalDedekindReals.sig_not_dec",
"FunctionalExtensionality.functional_extensionality_dep"
],
"C190_zero_iff_nothing_compared": [
"Axioms",
"ClassicalDedekindReals.sig_forall_dec",
"ClassicalDedekindReals.sig_not_dec",
"FunctionalExtensionality.functional_extensionality_dep"
],
"C190_zero_or_inside": [
"Axioms",
"ClassicalDedekindReals.sig_forall_dec",
"ClassicalDedekindReals.sig_not_dec",
"FunctionalExtensionality.functional_extensionality_dep"
],
"C191_identical_maps": [
"Axioms",
"ClassicalDedekindReals.sig_forall_dec",
"ClassicalDedekindReals.sig_not_dec",
"Classical_Prop.classic",
"FunctionalExtensionality.functional_extensionality_dep"
],
"C192_agreement_above_half": [
"Axioms",
"ClassicalDedekindReals.sig_forall_dec",
"ClassicalDedekindReals.sig_not_dec",
"Classical_Prop.classic",
"FunctionalExtensionality.functional_extensionality_dep"
],
"C192_contradiction_below_half": [
"Axioms",
"ClassicalDedekindReals.sig_forall_dec",
"ClassicalDedekindReals.sig_not_dec",
"Classical_Prop.classic",
"FunctionalExtensionality.functional_extensionality_dep"
],
"C193_symmetric_refuted": [
"Axioms",
"ClassicalDedekindReals.sig_forall_dec",
"ClassicalDedekindReals.sig_not_dec",
"Classical_Prop.classic",
"FunctionalExtensionality.functional_extensionality_dep"
],
"C193_symmetric_where": [
"Axioms",
"ClassicalDedekindReals.sig_forall_dec",
"ClassicalDedekindReals.sig_not_dec",
"FunctionalExtensionality.functional_extensionality_dep"
],
"C194_matchers_as_configured": [],
"C194_quality_as_configured": [],
"C194_solvers_as_configured": [],
"C195_rejected_keeps_list_refuted": [],
"C195_rejected_quality_where": [],
"C195_rejected_where": [],
"C196_disabled_entries_have_no_effect": [],
"C197_pipeline_as_configured": [],
"C198_params_section_is_honoured_refuted": [],
"C198_params_section_where": [],
"C199_parameters_as_given": [],
"C19_pose_after_solver_error": [],
"C19_returned_pose": [],
"C200_saved_parameters_load": [],
"C201_checkpoints_survive_saving_refuted": [],
"C201_checkpoints_where": [],
"C202_filters_as_configured": [],
"C202_filters_of_a_file": [],
"C202_generators_as_configured": [],
"C203_accepted_pipelines_can_be_evaluated_refuted": [],
"C203_evaluable_where": [],
"C204_plugin_resolution": [],
"C205_generator_plugin_is_loaded_refuted": [],
"C205_generator_where": [],
"C206_absent_sections_keep": [],
"C206_accepted_documents": [],
"C206_only_maps": [],
"C206_written_buffer_is_read_back": [],
"C207_entries_kept_where": [],
"C207_no_entry_is_lost_refuted": [],
"C208_rejected_document_changes_nothing_refuted": [],
"C208_rejected_where": [],
"C209_second_pass_uses_only_the_inliers": [
"Axioms",
"ClassicalDedekindReals.sig_forall_dec",
"ClassicalDedekindReals.sig_not_dec",
"FunctionalExtensionality.functional_extensionality_dep"
],
"C20_stall_criterion": [],
"C210_first_pass_outliers_have_no_influence_where": [
"Axioms",
"ClassicalDedekindReals.sig_forall_dec",
"ClassicalDedekindReals.sig_not_dec",
"FunctionalExtensionality.functional_extensionality_dep"
],
"C210_reported_outlier_moves_the_pose_refuted": [
"Axioms",
"ClassicalDedekindReals.sig_forall_dec",
"ClassicalDedekindReals.sig_not_dec",
"FunctionalExtensionality.functional_extensionality_dep"
],
"C211_cut_keeps_the_range": [
"Axioms",
"ClassicalDedekindReals.sig_forall_dec",
"ClassicalDedekindReals.sig_not_dec",
"FunctionalExtensionality.functional_extensionality_dep"
],
"C212_cut_then_join": [
"Axioms",
"ClassicalDedekindReals.sig_forall_dec",
"ClassicalDedekindReals.sig_not_dec",
"FunctionalExtensionality.functional_extensionality_dep"
],
"C213_trim_keeps_the_box": [
"Axioms",
"ClassicalDedekindReals.sig_forall_dec",
"ClassicalDedekindReals.sig_not_dec",
"FunctionalExtensionality.functional_extensionality_dep"
],
"C214_relative_poses_kept": [
"Axioms",
"ClassicalDedekindReals.sig_forall_dec",
"FunctionalExtensionality.functional_extensionality_dep"
],
"C214_tf_moves_every_keyframe": [
"Axioms",
"ClassicalDedekindReals.sig_forall_dec",
"ClassicalDedekindReals.sig_not_dec",
"FunctionalExtensionality.functional_extensionality_dep"
],
"C214_tf_twice": [
"Axioms",
"ClassicalDedekindReals.sig_forall_dec",
"FunctionalExtensionality.functional_extensionality_dep"
],
"C215_join_concatenates": [
"Axioms",
"ClassicalDedekindReals.sig_forall_dec",
"ClassicalDedekindReals.sig_not_dec",
"FunctionalExtensionality.functional_extensionality_dep"
],
"C216_level_is_a_rotation": [
"Axioms",
"ClassicalDedekindReals.sig_forall_dec",
"ClassicalDedekindReals.sig_not_dec",
"FunctionalExtensionality.functional_extensionality_dep"
],
"C217_exit_code_ignores_write_errors_refuted": [
"Axioms",
"ClassicalDedekindReals.sig_forall_dec",
"ClassicalDedekindReals.sig_not_dec",
"FunctionalExtensionality.functional_extensionality_dep"
],
"C217_exit_code_where": [
"Axioms",
"ClassicalDedekindReals.sig_forall_dec",
"ClassicalDedekindReals.sig_not_dec",
"FunctionalExtensionality.functional_extensionality_dep"
],
"C217_failures_exit_with_1": [
"Axioms",
"ClassicalDedekindReals.sig_forall_dec",
"ClassicalDedekindReals.sig_not_dec",
"FunctionalExtensionality.functional_extensionality_dep"
],
"C217_unwritten_output_exits_with_0_refuted": [
"Axioms",
"ClassicalDedekindReals.sig_forall_dec",
"ClassicalDedekindReals.sig_not_dec",
"FunctionalExtensionality.functional_extensionality_dep"
],
"C217_usage_exit_codes": [
"Axioms",
"ClassicalDedekindReals.sig_forall_dec",
"ClassicalDedekindReals.sig_not_dec",
"FunctionalExtensionality.functional_extensionality_dep"
],
"C218_info_reports_the_map": [
"Axioms",
"ClassicalDedekindReals.sig_forall_dec",
"ClassicalDedekindReals.sig_not_dec",
"FunctionalExtensionality.functional_extensionality_dep"
],
"C219_first_time_where": [
"Axioms",
"ClassicalDedekindReals.sig_forall_dec",
"ClassicalDedekindReals.sig_not_dec",
"FunctionalExtensionality.functional_extensionality_dep"
],
"C219_unstamped_observation_is_first_refuted": [
"Axioms",
"ClassicalDedekindReals.sig_forall_dec",
"ClassicalDedekindReals.sig_not_dec",
"FunctionalExtensionality.functional_extensionality_dep"
],
"C21_checkpoint_and_hook_stop": [],
"C220_export_keyframes": [
"Axioms",
"ClassicalDedekindReals.sig_forall_dec",
"ClassicalDedekindReals.sig_not_dec",
"FunctionalExtensionality.functional_extensionality_dep"
],
"C221_every_keyframe_where": [
"Axioms",
"ClassicalDedekindReals.sig_forall_dec",
"ClassicalDedekindReals.sig_not_dec",
"FunctionalExtensionality.functional_extensionality_dep"
],
"C221_same_stamp_loses_a_keyframe_refuted": [
"Axioms",
"ClassicalDedekindReals.sig_forall_dec",
"ClassicalDedekindReals.sig_not_dec",
"FunctionalExtensionality.functional_extensionality_dep"
],
"C222_frame_without_twist_has_no_row_refuted": [
"Axioms",
"ClassicalDedekindReals.sig_forall_dec",
"ClassicalDedekindReals.sig_not_dec",
"FunctionalExtensionality.functional_extensionality_dep"
],
"C222_twist_rows_where": [
"Axioms",
"ClassicalDedekindReals.sig_forall_dec",
"ClassicalDedekindReals.sig_not_dec",
"FunctionalExtensionality.functional_extensionality_dep"
],
"C223_export_rawlog": [
"Axioms",
"ClassicalDedekindReals.sig_forall_dec",
"ClassicalDedekindReals.sig_not_dec",
"FunctionalExtensionality.functional_extensionality_dep"
],
"C224_level_does_not_level_refuted": [
"Axioms",
"ClassicalDedekindReals.sig_forall_dec",
"ClassicalDedekindReals.sig_not_dec",
"FunctionalExtensionality.functional_extensionality_dep"
],
"C224_level_where": [
"Axioms",
"ClassicalDedekindReals.sig_forall_dec",
"ClassicalDedekindReals.sig_not_dec",
"FunctionalExtensionality.functional_extensionality_dep"
],
"C225_no_null_where": [
"Axioms",
"ClassicalDedekindReals.sig_forall_dec",
"ClassicalDedekindReals.sig_not_dec",
"FunctionalExtensionality.functional_extensionality_dep"
],
"C225_null_observation_is_dereferenced_refuted": [
"Axioms",
"ClassicalDedekindReals.sig_forall_dec",
"ClassicalDedekindReals.sig_not_dec",
"FunctionalExtensionality.functional_extensionality_dep"
],
"C226_bad_georeferencing_file": [],
"C226_format_by_extension": [],
"C226_inject_sets_only_the_georeferencing": [],
"C227_extract_then_inject": [],
"C228_bad_map_where": [],
"C228_load_tells": [],
"C228_unreadable_map_is_replaced_refuted": [],
"C229_exit_code_where": [],
"C229_unwritable_map_exits_with_0_refuted": [],
"C22_final_pairings_and_quality": [],
"C230_crash_points_where": [],
"C230_interrupted_injection_loses_the_map_refuted": [],
"C231_rename_layer": [],
"C232_pipeline_where": [],
"C232_rename_ignored_with_pipeline_refuted": [],
"C233_filter_exit_code_and_crash_points": [],
"C233_unreadable_input_fails": [],
"C234_input_intact_where": [],
"C234_interrupted_filter_in_place_loses_the_map_refuted": [],
"C235_mm2txt_exports_the_layers": [],
"C236_bad_map_where": [],
"C236_unreadable_map_exits_with_0_refuted": [],
"C237_exit_code_where": [],
"C237_unwritten_text_exits_with_0_refuted": [],
"C238_xyz_one_point_per_row": [],
"C238_xyzi_one_point_per_row": [],
"C238_xyzrgb_normalized_one_point_per_row": [],
"C238_xyzrgb_one_point_per_row": [],
"C239_ring_and_time_are_lost_refuted": [],
"C239_xyzirt_where": [],
"C23_bad_weight_throws": [],
"C23_hard_discard_gives_zero": [],
"C23_quality_is_weighted_mean": [],
"C23_weighted_mean_within_range": [],
"C240_layer_option_is_ignored_refuted": [],
"C240_layer_option_of_kitti2mm_is_ignored_refuted": [],
"C240_raw_layer_where": [],
"C241_column_beyond_the_row_refuted": [],
"C241_columns_where": [],
"C242_icplog_anywhere_in_the_path_refuted": [],
"C242_input_kind_where": [],
"C242_mm_anywhere_in_the_path_refuted": [],
"C243_rawlog_entry": [],
"C244_fraction_is_truncated_refuted": [],
"C244_negative_index_is_undefined_refuted": [],
"C245_errors": [],
"C245_load_xyz_where": [],
"C245_single_point_is_rejected_refuted": [],
"C246_one_frame_per_observation": [],
"C247_all_layers_where": [],
"C247_other_layers_are_dropped_refuted": [],
"C248_failure_keeps_the_frames_before": [],
"C249_bad_weight_is_an_error": [
"Axioms",
"ClassicalDedekindReals.sig_forall_dec",
"ClassicalDedekindReals.sig_not_dec",
"Classical_Prop.classic",
"FunctionalExtensionality.functional_extensionality_dep"
],
"C249_overall_quality_in_unit_interval": [
"Axioms",
"ClassicalDedekindReals.sig_forall_dec",
"ClassicalDedekindReals.sig_not_dec",
"Classical_Prop.classic",
"FunctionalExtensionality.functional_extensionality_dep"
],
"C249_overflowing_weights_give_NaN": [
"Axioms",
"ClassicalDedekindReals.sig_forall_dec",
"ClassicalDedekindReals.sig_not_dec",
"Classical_Prop.classic",
"FunctionalExtensionality.functional_extensionality_dep"
],
"C249_unanimous_evaluators": [
"Axioms",
"ClassicalDedekindReals.sig_forall_dec",
"ClassicalDedekindReals.sig_not_dec",
"Classical_Prop.classic",
"FunctionalExtensionality.functional_extensionality_dep"
],
"C24_paired_ratio": [],
"C250_more_pairings_never_lower_it": [
"Axioms",
"ClassicalDedekindReals.sig_forall_dec",
"ClassicalDedekindReals.sig_not_dec",
"Classical_Prop.classic",
"FunctionalExtensionality.functional_extensionality_dep"
],
"C250_one_only_if_all_paired": [
"Axioms",
"ClassicalDedekindReals.sig_forall_dec",
"ClassicalDedekindReals.sig_not_dec",
"Classical_Prop.classic",
"FunctionalExtensionality.functional_extensionality_dep"
],
"C250_paired_ratio_in_unit_interval": [
"Axioms",
"ClassicalDedekindReals.sig_forall_dec",
"ClassicalDedekindReals.sig_not_dec",
"Classical_Prop.classic",
"FunctionalExtensionality.functional_extensionality_dep"
],
"C251_empty_channel_is_an_error": [
"Axioms",
"ClassicalDedekindReals.sig_forall_dec",
"ClassicalDedekindReals.sig_not_dec",
"Classical_Prop.classic",
"FunctionalExtensionality.functional_extensionality_dep"
],
"C251_fixed_range": [
"Axioms",
"ClassicalDedekindReals.sig_forall_dec",
"ClassicalDedekindReals.sig_not_dec",
"Classical_Prop.classic",
"FunctionalExtensionality.functional_extensionality_dep"
],
"C251_numbers_in_unit_interval_refuted": [
"Axioms",
"ClassicalDedekindReals.sig_forall_dec",
"ClassicalDedekindReals.sig_not_dec",
"Classical_Prop.classic",
"FunctionalExtensionality.functional_extensionality_dep"
],
"C251_numbers_in_unit_interval_where": [
"Axioms",
"ClassicalDedekindReals.sig_forall_dec",
"ClassicalDedekindReals.sig_not_dec",
"Classical_Prop.classic",
"FunctionalExtensionality.functional_extensionality_dep"
],
"C252_order_is_kept": [
"Axioms",
"ClassicalDedekindReals.sig_forall_dec",
"ClassicalDedekindReals.sig_not_dec",
"Classical_Prop.classic",
"FunctionalExtensionality.functional_extensionality_dep"
],
"C253_brightest_gets_almost_one": [
"Axioms",
"ClassicalDedekindReals.sig_forall_dec",
"ClassicalDedekindReals.sig_not_dec",
"Classical_Prop.classic",
"FunctionalExtensionality.functional_extensionality_dep"
],
"C253_brightest_gets_one_refuted": [
"Axioms",
"ClassicalDedekindReals.sig_forall_dec",
"ClassicalDedekindReals.sig_not_dec",
"Classical_Prop.classic",
"FunctionalExtensionality.functional_extensionality_dep"
],
"C253_brightest_gets_one_where": [
"Axioms",
"ClassicalDedekindReals.sig_forall_dec",
"ClassicalDedekindReals.sig_not_dec",
"Classical_Prop.classic",
"FunctionalExtensionality.functional_extensionality_dep"
],
"C254_earliest_becomes_zero": [
"Axioms",
"ClassicalDedekindReals.sig_forall_dec",
"ClassicalDedekindReals.sig_not_dec",
"Classical_Prop.classic",
"FunctionalExtensionality.functional_extensionality_dep"
],
"C254_empty_channel_is_an_error": [
"Axioms",
"ClassicalDedekindReals.sig_forall_dec",
"ClassicalDedekindReals.sig_not_dec",
"Classical_Prop.classic",
"FunctionalExtensionality.functional_extensionality_dep"
],
"C255_time_differences_kept_refuted": [
"Axioms",
"ClassicalDedekindReals.sig_forall_dec",
"ClassicalDedekindReals.sig_not_dec",
"Classical_Prop.classic",
"FunctionalExtensionality.functional_extensionality_dep"
],
"C255_time_differences_kept_where": [
"Axioms",
"ClassicalDedekindReals.sig_forall_dec",
"ClassicalDedekindReals.sig_not_dec",
"Classical_Prop.classic",
"FunctionalExtensionality.functional_extensionality_dep"
],
"C256_middle_zero_is_inside": [
"Axioms",
"ClassicalDedekindReals.sig_forall_dec",
"ClassicalDedekindReals.sig_not_dec",
"Classical_Prop.classic",
"FunctionalExtensionality.functional_extensionality_dep"
],
"C257_normalized_stamps_in_unit_interval": [
"Axioms",
"ClassicalDedekindReals.sig_forall_dec",
"ClassicalDedekindReals.sig_not_dec",
"Classical_Prop.classic",
"FunctionalExtensionality.functional_extensionality_dep"
],
"C258_earliest_is_zero_is_idempotent": [
"Axioms",
"ClassicalDedekindReals.sig_forall_dec",
"ClassicalDedekindReals.sig_not_dec",
"Classical_Prop.classic",
"FunctionalExtensionality.functional_extensionality_dep"
],
"C259_index_defined_iff": [
"Axioms",
"ClassicalDedekindReals.sig_forall_dec",
"ClassicalDedekindReals.sig_not_dec",
"Classical_Prop.classic",
"FunctionalExtensionality.functional_extensionality_dep"
],
"C259_index_monotone": [
"Axioms",
"ClassicalDedekindReals.sig_forall_dec",
"ClassicalDedekindReals.sig_not_dec",
"Classical_Prop.classic",
"FunctionalExtensionality.functional_extensionality_dep"
],
"C259_index_odd": [
"Axioms",
"ClassicalDedekindReals.sig_forall_dec",
"ClassicalDedekindReals.sig_not_dec",
"Classical_Prop.classic",
"FunctionalExtensionality.functional_extensionality_dep"
],
"C25_log_numbering": [],
"C25_numbers_distinct": [],
"C260_index_of_a_coordinate_or_the_next": [
"Axioms",
"ClassicalDedekindReals.sig_forall_dec",
"ClassicalDedekindReals.sig_not_dec",
"Classical_Prop.classic",
"FunctionalExtensionality.functional_extensionality_dep"
],
"C260_index_of_a_coordinate_refuted": [
"Axioms",
"ClassicalDedekindReals.sig_forall_dec",
"ClassicalDedekindReals.sig_not_dec",
"Classical_Prop.classic",
"FunctionalExtensionality.functional_extensionality_dep"
],
"C260_index_of_a_coordinate_where": [
"Axioms",
"ClassicalDedekindReals.sig_forall_dec",
"ClassicalDedekindReals.sig_not_dec",
"Classical_Prop.classic",
"FunctionalExtensionality.functional_extensionality_dep"
],
"C261_same_voxel_is_close": [
"Axioms",
"ClassicalDedekindReals.sig_forall_dec",
"ClassicalDedekindReals.sig_not_dec",
"Classical_Prop.classic",
"FunctionalExtensionality.functional_extensionality_dep"
],
"C262_mean_error_bound": [
"Axioms",
"ClassicalDedekindReals.sig_forall_dec",
"ClassicalDedekindReals.sig_not_dec",
"Classical_Prop.classic",
"FunctionalExtensionality.functional_extensionality_dep"
],
"C262_mean_of_equal_points_refuted": [
"Axioms",
"ClassicalDedekindReals.sig_forall_dec",
"ClassicalDedekindReals.sig_not_dec",
"Classical_Prop.classic",
"FunctionalExtensionality.functional_extensionality_dep"
],
"C262_mean_of_equal_points_where": [
"Axioms",
"ClassicalDedekindReals.sig_forall_dec",
"ClassicalDedekindReals.sig_not_dec",
"Classical_Prop.classic",
"FunctionalExtensionality.functional_extensionality_dep"
],
"C263_kept_pairings_are_available": [
"Axioms",
"ClassicalDedekindReals.sig_forall_dec",
"ClassicalDedekindReals.sig_not_dec",
"Classical_Prop.classic",
"FunctionalExtensionality.functional_extensionality_dep"
],
"C263_larger_ratio_keeps_no_fewer": [
"Axioms",
"ClassicalDedekindReals.sig_forall_dec",
"ClassicalDedekindReals.sig_not_dec",
"Classical_Prop.classic",
"FunctionalExtensionality.functional_extensionality_dep"
],
"C264_cauchy_weight_in_unit_interval_where": [
"Axioms",
"ClassicalDedekindReals.sig_forall_dec",
"ClassicalDedekindReals.sig_not_dec",
"Classical_Prop.classic",
"FunctionalExtensionality.functional_extensionality_dep"
],
"C264_geman_mcclure_weight_in_unit_interval_where": [
"Axioms",
"ClassicalDedekindReals.sig_forall_dec",
"ClassicalDedekindReals.sig_not_dec",
"Classical_Prop.classic",
"FunctionalExtensionality.functional_extensionality_dep"
],
"C264_kernel_weight_in_unit_interval_refuted": [
"Axioms",
"ClassicalDedekindReals.sig_forall_dec",
"ClassicalDedekindReals.sig_not_dec",
"Classical_Prop.classic",
"FunctionalExtensionality.functional_extensionality_dep"
],
"C265_kernel_full_weight_without_error": [
"Axioms",
"ClassicalDedekindReals.sig_forall_dec",
"ClassicalDedekindReals.sig_not_dec",
"Classical_Prop.classic",
"FunctionalExtensionality.functional_extensionality_dep"
],
"C265_kernel_weight_never_grows_with_the_error": [
"Axioms",
"ClassicalDedekindReals.sig_forall_dec",
"ClassicalDedekindReals.sig_not_dec",
"Classical_Prop.classic",
"FunctionalExtensionality.functional_extensionality_dep"
],
"C266_clearly_inside_is_inside": [
"Axioms",
"ClassicalDedekindReals.sig_forall_dec",
"ClassicalDedekindReals.sig_not_dec",
"Classical_Prop.classic",
"FunctionalExtensionality.functional_extensionality_dep"
],
"C266_clearly_outside_is_outside": [
"Axioms",
"ClassicalDedekindReals.sig_forall_dec",
"ClassicalDedekindReals.sig_not_dec",
"Classical_Prop.classic",
"FunctionalExtensionality.functional_extensionality_dep"
],
"C266_point_beyond_the_range_is_outside_refuted": [
"Axioms",
"ClassicalDedekindReals.sig_forall_dec",
"ClassicalDedekindReals.sig_not_dec",
"Classical_Prop.classic",
"FunctionalExtensionality.functional_extensionality_dep"
],
"C267_normal_equations_with_prior": [
"Axioms",
"ClassicalDedekindReals.sig_forall_dec",
"ClassicalDedekindReals.sig_not_dec",
"Classical_Prop.classic",
"FunctionalExtensionality.functional_extensionality_dep"
],
"C267_residual_is_the_relative_pose": [
"Axioms",
"ClassicalDedekindReals.sig_forall_dec",
"FunctionalExtensionality.functional_extensionality_dep"
],
"C268_steps_with_prior": [
"Axioms",
"ClassicalDedekindReals.sig_forall_dec",
"ClassicalDedekindReals.sig_not_dec",
"Classical_Prop.classic",
"FunctionalExtensionality.functional_extensionality_dep"
],
"C269_satisfied_pairs_hide_the_prior_refuted": [
"Axioms",
"ClassicalDedekindReals.sig_forall_dec",
"ClassicalDedekindReals.sig_not_dec",
"Classical_Prop.classic",
"FunctionalExtensionality.functional_extensionality_dep"
],
"C269_where": [
"Axioms",
"ClassicalDedekindReals.sig_forall_dec",
"ClassicalDedekindReals.sig_not_dec",
"Classical_Prop.classic",
"FunctionalExtensionality.functional_extensionality_dep"
],
"C26_first_pass": [
"Axioms",
"ClassicalDedekindReals.sig_forall_dec",
"ClassicalDedekindReals.sig_not_dec",
"FunctionalExtensionality.functional_extensionality_dep"
],
"C26_no_spurious_failure": [
"Axioms",
"ClassicalDedekindReals.sig_forall_dec",
"ClassicalDedekindReals.sig_not_dec",
"FunctionalExtensionality.functional_extensionality_dep"
],
"C26_normalised_weights_sum_to_one": [
"Axioms",
"ClassicalDedekindReals.sig_forall_dec",
"ClassicalDedekindReals.sig_not_dec",
"FunctionalExtensionality.functional_extensionality_dep"
],
"C26_weights_of_every_pair": [
"Axioms",
"ClassicalDedekindReals.sig_forall_dec",
"ClassicalDedekindReals.sig_not_dec",
"FunctionalExtensionality.functional_extensionality_dep"
],
"C270_gradient": [
"Axioms",
"ClassicalDedekindReals.sig_forall_dec",
"ClassicalDedekindReals.sig_not_dec",
"Classical_Prop.classic",
"FunctionalExtensionality.functional_extensionality_dep"
],
"C271_old_formula_comes_back_refuted": [],
"C271_reconfigured_where": [],
"C272_given_formula": [],
"C272_left_out_changes_value_refuted": [],
"C272_left_out_where": [],
"C273_weighted_solver_as_configured": [],
"C273_weights_as_configured": [],
"C274_weights_round_trip": [],
"C275_failed_load_refuted": [],
"C275_failed_load_where": [],
"C276_matcher_window": [],
"C277_solver_window": [],
"C278_matcher_base_as_configured": [],
"C279_empty_list_matches_by_name_refuted": [],
"C279_listed_only_where": [],
"C27_kernels_down_weight": [
"Axioms",
"ClassicalDedekindReals.sig_forall_dec",
"FunctionalExtensionality.functional_extensionality_dep"
],
"C27_kernels_vanish": [
"Axioms",
"ClassicalDedekindReals.sig_forall_dec",
"FunctionalExtensionality.functional_extensionality_dep"
],
"C27_none_is_one": [
"Axioms",
"ClassicalDedekindReals.sig_forall_dec",
"FunctionalExtensionality.functional_extensionality_dep"
],
"C280_adaptive_as_configured": [],
"C281_line_as_configured": [],
"C282_documented_configuration_refuted": [],
"C282_paired_ratio_where": [],
"C282_voxel_evaluator_as_configured": [],
"C283_accepted_ratio_throws_refuted": [],
"C283_inlier_ratio_where": [],
"C284_accepted_configurations": [],
"C285_ini_as_configured": [],
"C286_missing_class_accepted_refuted": [],
"C286_with_class_where": [],
"C287_named_entries_where": [],
"C287_old_sections_stay_refuted": [],
"C288_dangling_formula_refuted": [],
"C288_first_initialize_where": [],
"C289_ready_iff_initialised": [],
"C28_plane2plane": [
"Axioms",
"ClassicalDedekindReals.sig_forall_dec",
"FunctionalExtensionality.functional_extensionality_dep"
],
"C28_point2line": [
"Axioms",
"ClassicalDedekindReals.sig_forall_dec",
"FunctionalExtensionality.functional_extensionality_dep"
],
"C28_point2plane": [
"Axioms",
"ClassicalDedekindReals.sig_forall_dec",
"FunctionalExtensionality.functional_extensionality_dep"
],
"C28_point2point": [
"Axioms",
"ClassicalDedekindReals.sig_forall_dec",
"FunctionalExtensionality.functional_extensionality_dep"
],
"C290_decimate_as_configured": [],
"C290_delete_as_configured": [],
"C290_listed_layers_are_deleted": [],
"C291_rejected_configuration_refuted": [],
"C291_rejected_configuration_where": [],
"C292_listed_rings_are_selected": [],
"C292_ring_accepts": [],
"C292_ring_as_configured": [],
"C293_box_as_configured": [],
"C293_configured_box_selects": [],
"C294_configured_range_selects": [
"Axioms",
"ClassicalDedekindReals.sig_forall_dec",
"ClassicalDedekindReals.sig_not_dec",
"FunctionalExtensionality.functional_extensionality_dep"
],
"C294_range_as_configured": [],
"C295_center_stays_refuted": [],
"C295_decimate_again_where": [],
"C295_flattening_is_never_switched_off_refuted": [],
"C295_twist_is_never_removed_refuted": [],
"C296_configured_pose": [],
"C296_configured_twist": [],
"C296_deskew_as_configured": [],
"C296_merge_as_configured": [],
"C296_merge_frame": [],
"C296_no_twist": [],
"C297_rejected_twist_is_switched_on_refuted": [],
"C297_twist_where": [],
"C298_adaptive_as_configured": [],
"C298_configured_occupancy": [],
"C298_configured_poles": [],
"C298_configured_slice": [],
"C298_configured_timestamps": [],
"C298_curvature_as_configured": [],
"C298_edges_as_configured": [],
"C298_intensity_as_configured": [],
"C298_normalize_as_configured": [],
"C298_occupancy_as_configured": [],
"C298_poles_as_configured": [],
"C298_quadratic_as_configured": [],
"C298_slice_as_configured": [],
"C298_timestamps_as_configured": [],
"C299_curvature_without_outputs_refuted": [],
"C299_occupancy_without_outputs_refuted": [],
"C299_outputs_where": [],
"C299_ring_without_outputs_refuted": [],
"C29_line2line_parallel": [
"Axioms",
"ClassicalDedekindReals.sig_forall_dec",
"FunctionalExtensionality.functional_extensionality_dep"
],
"C29_plane2plane": [
"Axioms",
"ClassicalDedekindReals.sig_forall_dec",
"FunctionalExtensionality.functional_extensionality_dep"
],
"C29_point2line": [
"Axioms",
"ClassicalDedekindReals.sig_forall_dec",
"FunctionalExtensionality.functional_extensionality_dep"
],
"C29_point2plane": [
"Axioms",
"ClassicalDedekindReals.sig_forall_dec",
"FunctionalExtensionality.functional_extensionality_dep"
],
"C29_point2point": [
"Axioms",
"ClassicalDedekindReals.sig_forall_dec",
"FunctionalExtensionality.functional_extensionality_dep"
],
"C300_aligned_refuted": [
"Axioms",
"ClassicalDedekindReals.sig_forall_dec",
"ClassicalDedekindReals.sig_not_dec",
"FunctionalExtensionality.functional_extensionality_dep"
],
"C300_aligned_where": [
"Axioms",
"ClassicalDedekindReals.sig_forall_dec",
"ClassicalDedekindReals.sig_not_dec",
"FunctionalExtensionality.functional_extensionality_dep"
],
"C301_failed_match_refuted": [
"Axioms",
"ClassicalDedekindReals.sig_forall_dec"
],
"C301_failed_match_where": [
"Axioms",
"ClassicalDedekindReals.sig_forall_dec"
],
"C302_runs_exactly_if": [
"Axioms",
"ClassicalDedekindReals.sig_forall_dec"
],
"C302_voxels_alone_are_rejected": [
"Axioms",
"ClassicalDedekindReals.sig_forall_dec"
],
"C303_every_point_takes_part": [
"Axioms",
"ClassicalDedekindReals.sig_forall_dec",
"FunctionalExtensionality.functional_extensionality_dep"
],
"C304_no_pairings_no_covariance_refuted": [
"Axioms",
"ClassicalDedekindReals.sig_forall_dec"
],
"C305_record_of_the_call": [
"Axioms",
"ClassicalDedekindReals.sig_forall_dec"
],
"C306_sanity_check": [],
"C307_icp_run": [],
"C308_each_rawlog_is_read_once": [],
"C308_missing_rawlog": [],
"C309_plugins_are_ignored_refuted": [],
"C309_sm2mm_ends_where": [],
"C309_sm2mm_where": [],
"C30_first_iteration_sequential": [
"Axioms",
"ClassicalDedekindReals.sig_forall_dec",
"ClassicalDedekindReals.sig_not_dec",
"Classical_Prop.classic",
"FunctionalExtensionality.functional_extensionality_dep"
],
"C30_normal_equations_of_every_iteration": [
"Axioms",
"ClassicalDedekindReals.sig_forall_dec",
"ClassicalDedekindReals.sig_not_dec",
"Classical_Prop.classic",
"FunctionalExtensionality.functional_extensionality_dep"
],
"C310_incomplete_input_refuted": [],
"C310_nothing_read_where": [],
"C311_mm_info_where": [],
"C311_unreadable_file_refuted": [],
"C312_planes_and_lines": [
"Axioms",
"ClassicalDedekindReals.sig_forall_dec",
"FunctionalExtensionality.functional_extensionality_dep"
],
"C313_line_options_ignored_refuted": [
"Axioms",
"ClassicalDedekindReals.sig_forall_dec",
"FunctionalExtensionality.functional_extensionality_dep"
],
"C313_lines_where": [
"Axioms",
"ClassicalDedekindReals.sig_forall_dec",
"FunctionalExtensionality.functional_extensionality_dep"
],
"C314_every_layer_once": [
"Axioms",
"ClassicalDedekindReals.sig_forall_dec",
"FunctionalExtensionality.functional_extensionality_dep"
],
"C314_invisible_points": [
"Axioms",
"ClassicalDedekindReals.sig_forall_dec",
"FunctionalExtensionality.functional_extensionality_dep"
],
"C314_only_the_named_layers": [
"Axioms",
"ClassicalDedekindReals.sig_forall_dec",
"FunctionalExtensionality.functional_extensionality_dep"
],
"C315_point_size_of_another_layer_refuted": [
"Axioms",
"ClassicalDedekindReals.sig_forall_dec",
"FunctionalExtensionality.functional_extensionality_dep"
],
"C315_single_layer_where": [
"Axioms",
"ClassicalDedekindReals.sig_forall_dec",
"FunctionalExtensionality.functional_extensionality_dep"
],
"C316_color_limits": [
"Axioms",
"ClassicalDedekindReals.sig_forall_dec",
"FunctionalExtensionality.functional_extensionality_dep"
],
"C317_drawing_changes_the_map_refuted": [
"Axioms",
"ClassicalDedekindReals.sig_forall_dec",
"FunctionalExtensionality.functional_extensionality_dep"
],
"C317_drawing_where": [
"Axioms",
"ClassicalDedekindReals.sig_forall_dec",
"FunctionalExtensionality.functional_extensionality_dep"
],
"C318_pairings_shown": [
"Axioms",
"ClassicalDedekindReals.sig_forall_dec",
"FunctionalExtensionality.functional_extensionality_dep"
],
"C319_other_pairings_not_shown_refuted": [
"Axioms",
"ClassicalDedekindReals.sig_forall_dec",
"FunctionalExtensionality.functional_extensionality_dep"
],
"C31_estimate_with_pairings": [],
"C31_every_component_in_its_slot": [],
"C31_fallback_without_pairings": [],
"C320_horn_despite_outliers": [
"Axioms",
"ClassicalDedekindReals.sig_forall_dec",
"ClassicalDedekindReals.sig_not_dec",
"FunctionalExtensionality.functional_extensionality_dep"
],
"C321_olae_despite_outliers": [
"Axioms",
"ClassicalDedekindReals.sig_forall_dec",
"ClassicalDedekindReals.sig_not_dec",
"FunctionalExtensionality.functional_extensionality_dep"
],
"C322_first_pass_outliers_have_no_influence_where": [
"Axioms",
"ClassicalDedekindReals.sig_forall_dec",
"ClassicalDedekindReals.sig_not_dec",
"FunctionalExtensionality.functional_extensionality_dep"
],
"C322_reported_outlier_moves_the_pose_refuted": [
"Axioms",
"ClassicalDedekindReals.sig_forall_dec",
"ClassicalDedekindReals.sig_not_dec",
"FunctionalExtensionality.functional_extensionality_dep"
],
"C323_registration_recovers_the_pose": [
"Axioms",
"ClassicalDedekindReals.sig_forall_dec",
"ClassicalDedekindReals.sig_not_dec",
"FunctionalExtensionality.functional_extensionality_dep"
],
"C324_registration_with_olae_recovers_the_pose": [
"Axioms",
"ClassicalDedekindReals.sig_forall_dec",
"ClassicalDedekindReals.sig_not_dec",
"FunctionalExtensionality.functional_extensionality_dep"
],
"C325_outputs_in_unit_interval": [
"Axioms",
"ClassicalDedekindReals.sig_forall_dec",
"ClassicalDedekindReals.sig_not_dec",
"Classical_Prop.classic",
"FunctionalExtensionality.functional_extensionality_dep"
],
"C325_range_of_the_whole_history": [
"Axioms",
"ClassicalDedekindReals.sig_forall_dec",
"ClassicalDedekindReals.sig_not_dec",
"Classical_Prop.classic",
"FunctionalExtensionality.functional_extensionality_dep"
],
"C326_the_record": [],
"C327_record_is_safe_refuted": [],
"C327_record_is_safe_where": [],
"C328_logging_does_not_change_the_result": [],
"C328_same_failures": [],
"C329_maps_untouched_refuted": [],
"C329_maps_untouched_where": [],
"C32_horn_needs_three_pairs": [
"Axioms",
"ClassicalDedekindReals.sig_forall_dec",
"ClassicalDedekindReals.sig_not_dec",
"FunctionalExtensionality.functional_extensionality_dep"
],
"C32_horn_true_means_three_pairs": [
"Axioms",
"ClassicalDedekindReals.sig_forall_dec",
"ClassicalDedekindReals.sig_not_dec",
"FunctionalExtensionality.functional_extensionality_dep"
],
"C330_filename_where": [],
"C330_label_is_kept_refuted": [],
"C331_no_file_is_replaced_where": [],
"C331_one_file_per_number_where": [],
"C331_same_file_refuted": [],
"C332_ids_distinguish_refuted": [],
"C332_ids_distinguish_where": [],
"C333_record_is_a_snapshot_refuted": [],
"C333_record_is_a_snapshot_where": [],
"C334_exact": [
"Axioms",
"ClassicalDedekindReals.sig_forall_dec",
"ClassicalDedekindReals.sig_not_dec",
"FunctionalExtensionality.functional_extensionality_dep"
],
"C334_icp_never_gets_worse": [
"Axioms",
"ClassicalDedekindReals.sig_forall_dec",
"ClassicalDedekindReals.sig_not_dec",
"FunctionalExtensionality.functional_extensionality_dep"
],
"C334_run_descends": [
"Axioms",
"ClassicalDedekindReals.sig_forall_dec",
"ClassicalDedekindReals.sig_not_dec",
"FunctionalExtensionality.functional_extensionality_dep"
],
"C335_default_options_refuted": [
"Axioms",
"ClassicalDedekindReals.sig_forall_dec",
"ClassicalDedekindReals.sig_not_dec",
"FunctionalExtensionality.functional_extensionality_dep"
],
"C335_default_options_where": [
"Axioms",
"ClassicalDedekindReals.sig_forall_dec",
"ClassicalDedekindReals.sig_not_dec",
"FunctionalExtensionality.functional_extensionality_dep"
],
"C336_colour_out_of_range_refuted": [],
"C336_colours_where": [],
"C337_custom_maps": [],
"C337_depth_images": [],
"C337_other_observations": [],
"C337_velodyne_scans": [],
"C338_errors_come_from_the_pipeline": [],
"C338_unknown_variable": [],
"C339_builds_disagree_refuted": [
"Axioms",
"ClassicalDedekindReals.sig_forall_dec",
"ClassicalDedekindReals.sig_not_dec",
"Classical_Prop.classic",
"FunctionalExtensionality.functional_extensionality_dep"
],
"C339_compared_error": [
"Axioms",
"ClassicalDedekindReals.sig_forall_dec",
"ClassicalDedekindReals.sig_not_dec",
"Classical_Prop.classic",
"FunctionalExtensionality.functional_extensionality_dep"
],
"C339_parallel_lines_undefined": [
"Axioms",
"ClassicalDedekindReals.sig_forall_dec",
"ClassicalDedekindReals.sig_not_dec",
"Classical_Prop.classic",
"FunctionalExtensionality.functional_extensionality_dep"
],
"C339_weight_squared_refuted": [
"Axioms",
"ClassicalDedekindReals.sig_forall_dec",
"ClassicalDedekindReals.sig_not_dec",
"Classical_Prop.classic",
"FunctionalExtensionality.functional_extensionality_dep"
],
"C339_weighted_error_where": [
"Axioms",
"ClassicalDedekindReals.sig_forall_dec",
"ClassicalDedekindReals.sig_not_dec",
"Classical_Prop.classic",
"FunctionalExtensionality.functional_extensionality_dep"
],
"C33_line_projection": [
"Axioms",
"ClassicalDedekindReals.sig_forall_dec",
"ClassicalDedekindReals.sig_not_dec",
"FunctionalExtensionality.functional_extensionality_dep"
],
"C33_plane_projection": [
"Axioms",
"ClassicalDedekindReals.sig_forall_dec",
"ClassicalDedekindReals.sig_not_dec",
"FunctionalExtensionality.functional_extensionality_dep"
],
"C33_plane_tolerance": [
"Axioms",
"ClassicalDedekindReals.sig_forall_dec",
"ClassicalDedekindReals.sig_not_dec",
"FunctionalExtensionality.functional_extensionality_dep"
],
"C33_selection": [
"Axioms",
"ClassicalDedekindReals.sig_forall_dec",
"ClassicalDedekindReals.sig_not_dec",
"FunctionalExtensionality.functional_extensionality_dep"
],
"C33_when_refused": [
"Axioms",
"ClassicalDedekindReals.sig_forall_dec",
"ClassicalDedekindReals.sig_not_dec",
"FunctionalExtensionality.functional_extensionality_dep"
],
"C340_solvers_ignore_the_order": [
"Axioms",
"ClassicalDedekindReals.sig_forall_dec",
"ClassicalDedekindReals.sig_not_dec",
"FunctionalExtensionality.functional_extensionality_dep"
],
"C341_default_pipeline": [
"Axioms",
"ClassicalDedekindReals.sig_forall_dec",
"ClassicalDedekindReals.sig_not_dec",
"FunctionalExtensionality.functional_extensionality_dep"
],
"C341_library_components_ignore_the_order": [
"Axioms",
"ClassicalDedekindReals.sig_forall_dec",
"ClassicalDedekindReals.sig_not_dec",
"FunctionalExtensionality.functional_extensionality_dep"
],
"C341_order_of_the_local_points": [],
"C342_default_options_refuted": [
"Axioms",
"ClassicalDedekindReals.sig_forall_dec",
"ClassicalDedekindReals.sig_not_dec",
"FunctionalExtensionality.functional_extensionality_dep"
],
"C342_default_options_where": [
"Axioms",
"ClassicalDedekindReals.sig_forall_dec",
"ClassicalDedekindReals.sig_not_dec",
"FunctionalExtensionality.functional_extensionality_dep"
],
"C343_none_iff_empty": [],
"C343_summary_shows_the_numbers": [],
"C344_empty_map": [],
"C344_lines_and_planes": [],
"C344_names_every_layer_refuted": [],
"C344_names_every_layer_where": [],
"C344_throws": [],
"C345_results_print": [],
"C345_what_is_read_prints_refuted": [],
"C345_what_is_read_prints_where": [],
"C346_aligned_pose_is_kept_by_horn": [
"Axioms",
"ClassicalDedekindReals.sig_forall_dec",
"ClassicalDedekindReals.sig_not_dec",
"FunctionalExtensionality.functional_extensionality_dep"
],
"C346_aligned_pose_is_kept_by_olae": [
"Axioms",
"ClassicalDedekindReals.sig_forall_dec",
"ClassicalDedekindReals.sig_not_dec",
"FunctionalExtensionality.functional_extensionality_dep"
],
"C347_error_never_grows_refuted": [
"Axioms",
"ClassicalDedekindReals.sig_forall_dec",
"ClassicalDedekindReals.sig_not_dec",
"FunctionalExtensionality.functional_extensionality_dep"
],
"C347_error_never_grows_where": [
"Axioms",
"ClassicalDedekindReals.sig_forall_dec",
"ClassicalDedekindReals.sig_not_dec",
"FunctionalExtensionality.functional_extensionality_dep"
],
"C348_within_the_limit_the_start_stays": [
"Axioms",
"ClassicalDedekindReals.sig_forall_dec",
"ClassicalDedekindReals.sig_not_dec",
"Classical_Prop.classic",
"FunctionalExtensionality.functional_extensionality_dep"
],
"C348_wrong_translation_is_corrected": [
"Axioms",
"ClassicalDedekindReals.sig_forall_dec",
"ClassicalDedekindReals.sig_not_dec",
"Classical_Prop.classic",
"FunctionalExtensionality.functional_extensionality_dep"
],
"C349_aligned_maps_stay_aligned": [
"Axioms",
"ClassicalDedekindReals.sig_forall_dec",
"ClassicalDedekindReals.sig_not_dec",
"Classical_Prop.classic",
"FunctionalExtensionality.functional_extensionality_dep"
],
"C349_registration_with_gauss_newton_corrects_the_translation": [
"Axioms",
"ClassicalDedekindReals.sig_forall_dec",
"ClassicalDedekindReals.sig_not_dec",
"Classical_Prop.classic",
"FunctionalExtensionality.functional_extensionality_dep"
],
"C34_old_versions": [],
"C34_rejects": [],
"C34_roundtrip": [],
"C34_what_fits": [],
"C350_exact": [
"Axioms",
"ClassicalDedekindReals.sig_forall_dec",
"ClassicalDedekindReals.sig_not_dec",
"FunctionalExtensionality.functional_extensionality_dep"
],
"C350_run_descends": [
"Axioms",
"ClassicalDedekindReals.sig_forall_dec",
"ClassicalDedekindReals.sig_not_dec",
"FunctionalExtensionality.functional_extensionality_dep"
],
"C351_default_options_refuted": [
"Axioms",
"ClassicalDedekindReals.sig_forall_dec",
"ClassicalDedekindReals.sig_not_dec",
"FunctionalExtensionality.functional_extensionality_dep"
],
"C351_default_options_where": [
"Axioms",
"ClassicalDedekindReals.sig_forall_dec",
"ClassicalDedekindReals.sig_not_dec",
"FunctionalExtensionality.functional_extensionality_dep"
],
"C352_same_pairs_stop": [
"Axioms",
"ClassicalDedekindReals.sig_forall_dec",
"FunctionalExtensionality.functional_extensionality_dep"
],
"C353_one_best_fit_iff": [
"Axioms",
"ClassicalDedekindReals.sig_forall_dec",
"ClassicalDedekindReals.sig_not_dec",
"FunctionalExtensionality.functional_extensionality_dep"
],
"C354_ends_by_itself": [
"Axioms",
"ClassicalDedekindReals.sig_forall_dec",
"ClassicalDedekindReals.sig_not_dec",
"FunctionalExtensionality.functional_extensionality_dep"
],
"C355_box_ignores_it": [],
"C355_unevaluated_formulas_refuse_refuted": [],
"C355_unevaluated_formulas_refuse_where": [],
"C356_frame_of_the_global_map": [
"Axioms",
"ClassicalDedekindReals.sig_forall_dec",
"ClassicalDedekindReals.sig_not_dec",
"FunctionalExtensionality.functional_extensionality_dep"
],
"C357_axes_of_the_local_map": [
"Axioms",
"ClassicalDedekindReals.sig_forall_dec",
"ClassicalDedekindReals.sig_not_dec",
"FunctionalExtensionality.functional_extensionality_dep"
],
"C358_origin_of_the_local_map_refuted": [
"Axioms",
"ClassicalDedekindReals.sig_forall_dec",
"ClassicalDedekindReals.sig_not_dec",
"FunctionalExtensionality.functional_extensionality_dep"
],
"C358_origin_of_the_local_map_where": [
"Axioms",
"ClassicalDedekindReals.sig_forall_dec",
"ClassicalDedekindReals.sig_not_dec",
"FunctionalExtensionality.functional_extensionality_dep"
],
"C359_unit_of_length": [
"Axioms",
"ClassicalDedekindReals.sig_forall_dec",
"ClassicalDedekindReals.sig_not_dec",
"FunctionalExtensionality.functional_extensionality_dep"
],
"C35_merging_gives_the_union": [],
"C35_sizes_add_up": [],
"C360_same_representative": [],
"C360_single_voxels_in_another_unit": [],
"C360_voxels_in_another_unit": [],
"C361_box_in_another_unit": [],
"C361_decimation_in_another_unit": [],
"C361_range_in_another_unit": [],
"C362_origin_of_the_voxels_refuted": [],
"C362_origin_of_the_voxels_where": [],
"C36_clear": [],
"C36_empty": [],
"C36_size": [],
"C37_exact_content": [],
"C37_one_value_per_stamp_in_order": [],
"C37_time_ordered": [],
"C38_empty_when_nothing_close": [],
"C38_reconstruction": [],
"C39_constants_keep_their_value": [],
"C39_realize_uses_latest_values": [],
"C39_use_throws_iff_not_realized": [],
"C40_bounding_box_routes": [],
"C40_partition": [],
"C40_rejects": [],
"C41_intensity_routes": [],
"C41_range_routes": [
"Axioms",
"ClassicalDedekindReals.sig_forall_dec",
"ClassicalDedekindReals.sig_not_dec",
"FunctionalExtensionality.functional_extensionality_dep"
],
"C41_range_unrealized_rejected": [],
"C41_ring_routes": [],
"C42_full_grid": [],
"C42_full_grid_exactly_one": [],
"C42_full_grid_min_distance": [],
"C42_single_grid": [],
"C42_voxel_geometry": [],
"C43_first_point": [],
"C43_other_methods": [],
"C44_disabled": [],
"C44_distinct_bounded": [],
"C44_number_of_points": [],
"C45_delete_checked": [],
"C45_delete_checked_result": [],
"C45_delete_exact": [],
"C45_others_untouched": [],
"C46_no_timestamps": [],
"C46_normalize": [],
"C46_reference_at_zero": [],
"C46_shift_methods": [],
"C47_affine_on_history": [],
"C47_memory_is_exact_range": [],
"C47_needs_intensity": [],
"C47_normalised_and_monotone": [],
"C47_reversed_fixed_range_reverses": [],
"C48_null_entry": [],
"C48_pipeline_in_order": [],
"C48_stops_at_first_failure": [],
"C49_completes": [],
"C49_constant_twist": [],
"C49_empty_input": [],
"C49_iterations_never_conflict": [],
"C49_one_corrected_point_per_input_point": [],
"C49_skipping_copies_every_point": [],
"C50_exactly_the_requested_key_frames": [],
"C50_filters_follow_handled_observations": [],
"C50_former_contents_ignored": [],
"C50_own_pose_and_twist": [],
"C51_reported_iterations": [],
"C52_iteration_details": [],
"C53_align_succeeds": [],
"C54_layer_weights_lost_refuted": [],
"C54_weights_where": [],
"C55_matching_never_out_of_range": [],
"C55_no_limit_layer_succeeds": [],
"C56_pairings_never_exceed_potential": [],
"C56_potential_counts_local_points": [],
"C57_old_version": [],
"C58_old_versions": [],
"C58_parameters_roundtrip": [],
"C58_what_fits": [],
"C59_old_version_keeps_kernel": [],
"C59_weights_roundtrip": [],
"C59_weights_truncated_and_versions": [],
"C59_what_fits": [],
"C60_log_rejects": [],
"C60_log_roundtrip": [],
"C60_log_roundtrip_of_what_fits": [],
"C60_results_rejects": [],
"C60_results_roundtrip": [],
"C60_what_fits": [],
"C60_what_fits_results": [],
"C61_load_reports": [],
"C62_georeferencing": [],
"C63_occupancy_routes": [],
"C64_bounding_box_where": [],
"C64_in_place_never_ends_refuted": [],
"C64_range_where": [
"Axioms",
"ClassicalDedekindReals.sig_forall_dec",
"ClassicalDedekindReals.sig_not_dec",
"FunctionalExtensionality.functional_extensionality_dep"
],
"C65_bbox_accepts": [],
"C65_range_accepts": [],
"C66_bbox_error_keeps_layers": [],
"C66_range_error_keeps_layers": [],
"C67_offset_sign_refuted": [],
"C67_offset_where": [],
"C68_reported_where": [],
"C68_std_map_flavour_reports_nothing_refuted": [],
"C69_one_per_voxel_where": [],
"C69_std_map_flavour_drops_everything_refuted": [],
"C70_small_input_copied_then_throws_refuted": [],
"C70_succeeds_where": [],
"C71_missing_as_if_not_listed": [],
"C71_missing_optional_input_throws_refuted": [],
"C72_target_not_reached_refuted": [],
"C72_target_reached_where": [],
"C72_two_voxels_refuted": [],
"C73_no_dense_voxel_undefined_refuted": [],
"C73_no_dense_voxel_where": [],
"C74_only_point_pairs_gives_nothing_refuted": [],
"C74_output_where": [
"Axioms",
"ClassicalDedekindReals.sig_forall_dec",
"ClassicalDedekindReals.sig_not_dec",
"FunctionalExtensionality.functional_extensionality_dep"
],
"C74_point_pairs_dropped_refuted": [
"Axioms",
"ClassicalDedekindReals.sig_forall_dec",
"ClassicalDedekindReals.sig_not_dec",
"FunctionalExtensionality.functional_extensionality_dep"
],
"C75_aligned_lines_not_recognised_refuted": [
"Axioms",
"ClassicalDedekindReals.sig_forall_dec",
"ClassicalDedekindReals.sig_not_dec",
"Classical_Prop.classic",
"FunctionalExtensionality.functional_extensionality_dep"
],
"C75_direction_residual_refuted": [
"Axioms",
"ClassicalDedekindReals.sig_forall_dec",
"ClassicalDedekindReals.sig_not_dec",
"FunctionalExtensionality.functional_extensionality_dep"
],
"C75_zero_where": [
"Axioms",
"ClassicalDedekindReals.sig_forall_dec",
"ClassicalDedekindReals.sig_not_dec",
"Classical_Prop.classic",
"FunctionalExtensionality.functional_extensionality_dep"
],
"C76_direction_rows_exact": [
"Axioms",
"ClassicalDedekindReals.sig_forall_dec",
"ClassicalDedekindReals.sig_not_dec",
"FunctionalExtensionality.functional_extensionality_dep"
],
"C76_line2line_jacobian_wrong_refuted": [
"Axioms",
"ClassicalDedekindReals.sig_forall_dec",
"ClassicalDedekindReals.sig_not_dec",
"FunctionalExtensionality.functional_extensionality_dep"
],
"C76_norm_derivative_sign_refuted": [
"Axioms",
"ClassicalDedekindReals.sig_forall_dec",
"ClassicalDedekindReals.sig_not_dec",
"FunctionalExtensionality.functional_extensionality_dep"
],
"C76_translation_where": [
"Axioms",
"ClassicalDedekindReals.sig_forall_dec",
"ClassicalDedekindReals.sig_not_dec",
"FunctionalExtensionality.functional_extensionality_dep"
],
"C77_all_set_where": [
"Axioms",
"ClassicalDedekindReals.sig_forall_dec",
"ClassicalDedekindReals.sig_not_dec",
"Classical_Prop.classic",
"FunctionalExtensionality.functional_extensionality_dep"
],
"C77_parallel_lines_components_unset_refuted": [
"Axioms",
"ClassicalDedekindReals.sig_forall_dec",
"ClassicalDedekindReals.sig_not_dec",
"Classical_Prop.classic",
"FunctionalExtensionality.functional_extensionality_dep"
],
"C78_cauchy_weight_from_loss": [
"Axioms",
"ClassicalDedekindReals.sig_forall_dec",
"ClassicalDedekindReals.sig_not_dec",
"Classical_Prop.classic",
"FunctionalExtensionality.functional_extensionality_dep"
],
"C78_gm_weight_from_scaled_loss": [
"Axioms",
"ClassicalDedekindReals.sig_forall_dec",
"FunctionalExtensionality.functional_extensionality_dep"
],
"C79_documented_where": [
"Axioms",
"ClassicalDedekindReals.sig_forall_dec",
"FunctionalExtensionality.functional_extensionality_dep"
],
"C79_gm_weight_not_from_documented_loss_refuted": [
"Axioms",
"ClassicalDedekindReals.sig_forall_dec",
"FunctionalExtensionality.functional_extensionality_dep"
],
"C80_outlier_at_block_start_shifts_weights_refuted": [
"Axioms",
"ClassicalDedekindReals.sig_forall_dec",
"ClassicalDedekindReals.sig_not_dec",
"FunctionalExtensionality.functional_extensionality_dep"
],
"C80_weights_where": [
"Axioms",
"ClassicalDedekindReals.sig_forall_dec",
"ClassicalDedekindReals.sig_not_dec",
"FunctionalExtensionality.functional_extensionality_dep"
],
"C81_defined_where": [
"Axioms",
"ClassicalDedekindReals.sig_forall_dec",
"ClassicalDedekindReals.sig_not_dec",
"FunctionalExtensionality.functional_extensionality_dep"
],
"C81_uncovered_pairs_read_past_the_end_refuted": [
"Axioms",
"ClassicalDedekindReals.sig_forall_dec",
"ClassicalDedekindReals.sig_not_dec",
"FunctionalExtensionality.functional_extensionality_dep"
],
"C82_no_such_pairs_where": [
"Axioms",
"ClassicalDedekindReals.sig_forall_dec",
"ClassicalDedekindReals.sig_not_dec",
"FunctionalExtensionality.functional_extensionality_dep"
],
"C82_zero_class_weight_fails_refuted": [
"Axioms",
"ClassicalDedekindReals.sig_forall_dec",
"ClassicalDedekindReals.sig_not_dec",
"FunctionalExtensionality.functional_extensionality_dep"
],
"C83_pt2pt_weight_used_with_blocks_refuted": [
"Axioms",
"ClassicalDedekindReals.sig_forall_dec",
"ClassicalDedekindReals.sig_not_dec",
"FunctionalExtensionality.functional_extensionality_dep"
],
"C83_ratio_where": [
"Axioms",
"ClassicalDedekindReals.sig_forall_dec",
"ClassicalDedekindReals.sig_not_dec",
"FunctionalExtensionality.functional_extensionality_dep"
],
"C84_horn_rotation_is_optimal": [
"Axioms",
"ClassicalDedekindReals.sig_forall_dec",
"ClassicalDedekindReals.sig_not_dec",
"FunctionalExtensionality.functional_extensionality_dep"
],
"C85_horn_is_least_squares": [
"Axioms",
"ClassicalDedekindReals.sig_forall_dec",
"ClassicalDedekindReals.sig_not_dec",
"FunctionalExtensionality.functional_extensionality_dep"
],
"C86_horn_recovers_the_pose": [
"Axioms",
"ClassicalDedekindReals.sig_forall_dec",
"ClassicalDedekindReals.sig_not_dec",
"FunctionalExtensionality.functional_extensionality_dep"
],
"C87_failure_resets_the_pose_refuted": [
"Axioms",
"ClassicalDedekindReals.sig_forall_dec",
"ClassicalDedekindReals.sig_not_dec",
"FunctionalExtensionality.functional_extensionality_dep"
],
"C87_pose_kept_where": [
"Axioms",
"ClassicalDedekindReals.sig_forall_dec",
"ClassicalDedekindReals.sig_not_dec",
"FunctionalExtensionality.functional_extensionality_dep"
],
"C88_no_points_throws_refuted": [
"Axioms",
"ClassicalDedekindReals.sig_forall_dec",
"ClassicalDedekindReals.sig_not_dec",
"FunctionalExtensionality.functional_extensionality_dep"
],
"C88_succeeds_where": [
"Axioms",
"ClassicalDedekindReals.sig_forall_dec",
"ClassicalDedekindReals.sig_not_dec",
"FunctionalExtensionality.functional_extensionality_dep"
],
"C89_weighted_optimum_refuted": [
"Axioms",
"ClassicalDedekindReals.sig_forall_dec",
"ClassicalDedekindReals.sig_not_dec",
"FunctionalExtensionality.functional_extensionality_dep"
],
"C89_weighted_optimum_where": [
"Axioms",
"ClassicalDedekindReals.sig_forall_dec",
"ClassicalDedekindReals.sig_not_dec",
"FunctionalExtensionality.functional_extensionality_dep"
],
"C90_olae_recovers_the_pose": [
"Axioms",
"ClassicalDedekindReals.sig_forall_dec",
"ClassicalDedekindReals.sig_not_dec",
"FunctionalExtensionality.functional_extensionality_dep"
],
"C91_tied_determinants_give_a_wrong_pose_refuted": [
"Axioms",
"ClassicalDedekindReals.sig_forall_dec",
"ClassicalDedekindReals.sig_not_dec",
"FunctionalExtensionality.functional_extensionality_dep"
],
"C92_single_pair_half_turn_refuted": [
"Axioms",
"ClassicalDedekindReals.sig_forall_dec",
"ClassicalDedekindReals.sig_not_dec",
"FunctionalExtensionality.functional_extensionality_dep"
],
"C93_sequential_build_accumulates": [
"Axioms",
"ClassicalDedekindReals.sig_forall_dec",
"ClassicalDedekindReals.sig_not_dec",
"Classical_Prop.classic",
"FunctionalExtensionality.functional_extensionality_dep"
],
"C93_sequential_build_overshoots_refuted": [
"Axioms",
"ClassicalDedekindReals.sig_forall_dec",
"ClassicalDedekindReals.sig_not_dec",
"Classical_Prop.classic",
"FunctionalExtensionality.functional_extensionality_dep"
],
"C94_equal_weights_where": [
"Axioms",
"ClassicalDedekindReals.sig_forall_dec",
"ClassicalDedekindReals.sig_not_dec",
"Classical_Prop.classic",
"FunctionalExtensionality.functional_extensionality_dep"
],
"C94_second_iteration_uses_last_weight_refuted": [
"Axioms",
"ClassicalDedekindReals.sig_forall_dec",
"ClassicalDedekindReals.sig_not_dec",
"Classical_Prop.classic",
"FunctionalExtensionality.functional_extensionality_dep"
],
"C95_result_depends_on_the_schedule_refuted": [
"Axioms",
"ClassicalDedekindReals.sig_forall_dec",
"ClassicalDedekindReals.sig_not_dec",
"Classical_Prop.classic",
"FunctionalExtensionality.functional_extensionality_dep"
],
"C96_error_where": [
"Axioms",
"ClassicalDedekindReals.sig_forall_dec",
"ClassicalDedekindReals.sig_not_dec",
"Classical_Prop.classic",
"FunctionalExtensionality.functional_extensionality_dep"
],
"C96_lost_update_stops_too_early_refuted": [
"Axioms",
"ClassicalDedekindReals.sig_forall_dec",
"ClassicalDedekindReals.sig_not_dec",
"Classical_Prop.classic",
"FunctionalExtensionality.functional_extensionality_dep"
],
"C97_exact_start_is_returned": [
"Axioms",
"ClassicalDedekindReals.sig_forall_dec",
"ClassicalDedekindReals.sig_not_dec",
"Classical_Prop.classic",
"FunctionalExtensionality.functional_extensionality_dep"
],
"C97_missing_guess_is_an_error": [
"Axioms",
"ClassicalDedekindReals.sig_forall_dec",
"ClassicalDedekindReals.sig_not_dec",
"Classical_Prop.classic",
"FunctionalExtensionality.functional_extensionality_dep"
],
"C98_steps_minimise_the_linearised_error": [
"Axioms",
"ClassicalDedekindReals.sig_forall_dec",
"ClassicalDedekindReals.sig_not_dec",
"Classical_Prop.classic",
"FunctionalExtensionality.functional_extensionality_dep"
],
"C99_tail_slots_never_set_refuted": []
}