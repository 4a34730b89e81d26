{
 "claims": [
  {
   "property": "C01",
   "status": "proved",
   "theorems": [
    "C01_nano_roundtrip",
    "C01_nano_is_elapsed"
   ],
   "note": ""
  },
  {
   "property": "C02",
   "status": "proved",
   "theorems": [
    "C02_order",
    "C02_total",
    "C02_equality_is_tolerance",
    "C02_transitivity_refuted",
    "C02_lt_excludes_eq_refuted",
    "C02_extremes"
   ],
   "note": ""
  },
  {
   "property": "C03",
   "status": "proved",
   "theorems": [
    "C03_add_sub"
   ],
   "note": ""
  },
  {
   "property": "C04",
   "status": "proved",
   "theorems": [
    "C04_divide"
   ],
   "note": ""
  },
  {
   "property": "C05",
   "status": "proved",
   "theorems": [
    "C05_pcl_roundtrip"
   ],
   "note": ""
  },
  {
   "property": "C06",
   "status": "proved",
   "theorems": [
    "C06_search_partition",
    "C06_search_bracket",
    "C06_search_safe",
    "C06_search_short_aborts"
   ],
   "note": ""
  },
  {
   "property": "C07",
   "status": "proved",
   "theorems": [
    "C07_gps_admission"
   ],
   "note": ""
  },
  {
   "property": "C08",
   "status": "proved",
   "theorems": [
    "C08_interpolate_sound",
    "C08_interpolate_inside",
    "C08_bracket_exists",
    "C08_interpolate_outside",
    "C08_interpolate_short",
    "C08_threshold_aborts"
   ],
   "note": ""
  },
  {
   "property": "C09",
   "status": "proved",
   "theorems": [
    "C09_interpolate_safe",
    "C09_admitted_track_never_aborts_refuted"
   ],
   "note": ""
  },
  {
   "property": "C10",
   "status": "proved",
   "theorems": [
    "C10_trim",
    "C10_trim_keeps_answer_refuted"
   ],
   "note": ""
  },
  {
   "property": "C11",
   "status": "proved",
   "theorems": [
    "C11_accumulate",
    "C11_nonpositive"
   ],
   "note": ""
  },
  {
   "property": "C12",
   "status": "proved",
   "theorems": [
    "C12_fifo_lossless",
    "C12_crash_only_in_filter",
    "C12_lock_released"
   ],
   "note": ""
  },
  {
   "property": "C13",
   "status": "proved",
   "theorems": [
    "C13_empty_aborts",
    "C13_check_passes",
    "C13_statistic_first_aborts"
   ],
   "note": ""
  },
  {
   "property": "C14",
   "status": "proved",
   "theorems": [
    "C14_fifo_once",
    "C14_all_done_when_destroyed",
    "C14_zero_workers_refuted"
   ],
   "note": ""
  },
  {
   "property": "C15",
   "status": "proved",
   "theorems": [
    "C15_rejects_after_stop",
    "C15_no_early_reject",
    "C15_shutdown_progress",
    "C15_shutdown_bounded",
    "C15_shutdown_completes"
   ],
   "note": ""
  },
  {
   "property": "C16",
   "status": "proved",
   "theorems": [
    "C16_sub_boxes",
    "C16_index",
    "C16_root_is_cube"
   ],
   "note": ""
  },
  {
   "property": "C17",
   "status": "proved",
   "theorems": [
    "C17_octree_partition",
    "C17_output"
   ],
   "note": ""
  },
  {
   "property": "C18",
   "status": "proved",
   "theorems": [
    "C18_bresenham_path"
   ],
   "note": ""
  },
  {
   "property": "C19",
   "status": "proved",
   "theorems": [
    "C19_bresenham_half_voxel"
   ],
   "note": ""
  },
  {
   "property": "C20",
   "status": "proved",
   "theorems": [
    "C20_dda_path"
   ],
   "note": ""
  },
  {
   "property": "C21",
   "status": "proved",
   "theorems": [
    "C21_round_trip",
    "C21_injective"
   ],
   "note": ""
  },
  {
   "property": "C22",
   "status": "proved",
   "theorems": [
    "C22_header_cut_reported",
    "C22_body_cut_accepted",
    "C22_truncation_detected_refuted",
    "C22_any_file"
   ],
   "note": ""
  },
  {
   "property": "C23",
   "status": "proved",
   "theorems": [
    "C23_evicted_cloud_is_saved_cloud",
    "C23_clear_unsaved_aborts"
   ],
   "note": ""
  },
  {
   "property": "C24",
   "status": "proved",
   "theorems": [
    "C24_normals_lost",
    "C24_target_before_eviction"
   ],
   "note": ""
  },
  {
   "property": "C25",
   "status": "proved",
   "theorems": [
    "C25_groups",
    "C25_counts",
    "C25_longest_side",
    "C25_empty"
   ],
   "note": ""
  },
  {
   "property": "C26",
   "status": "proved",
   "theorems": [
    "C26_transform",
    "C26_transform_aborts",
    "C26_normals_stay_unit_refuted"
   ],
   "note": ""
  },
  {
   "property": "C27",
   "status": "proved",
   "theorems": [
    "C27_submap_order",
    "C27_frame_order",
    "C27_frame_names_unique",
    "C27_submap_names_unique",
    "C27_files_unique",
    "C27_files_unique_any_prefix_refuted"
   ],
   "note": ""
  },
  {
   "property": "C28",
   "status": "proved",
   "theorems": [
    "C28_ids",
    "C28_capacity",
    "C28_nonpositive_never_full"
   ],
   "note": ""
  },
  {
   "property": "C29",
   "status": "proved",
   "theorems": [
    "C29_relative_poses"
   ],
   "note": ""
  },
  {
   "property": "C30",
   "status": "proved",
   "theorems": [
    "C30_get_frame"
   ],
   "note": ""
  },
  {
   "property": "C31",
   "status": "proved",
   "theorems": [
    "C31_no_eviction",
    "C31_eviction_delay",
    "C31_access_returns_same_points"
   ],
   "note": ""
  },
  {
   "property": "C32",
   "status": "proved",
   "theorems": [
    "C32_matched_once",
    "C32_first_succeeds"
   ],
   "note": ""
  },
  {
   "property": "C33",
   "status": "proved",
   "theorems": [
    "C33_in_range",
    "C33_monotone",
    "C33_log_odds_is_bayes"
   ],
   "note": ""
  },
  {
   "property": "C34",
   "status": "proved",
   "theorems": [
    "C34_content",
    "C34_point_counts",
    "C34_export",
    "C34_export_threshold_one"
   ],
   "note": ""
  },
  {
   "property": "C35",
   "status": "proved",
   "theorems": [
    "C35_scan_effect",
    "C35_order_independent_refuted"
   ],
   "note": ""
  },
  {
   "property": "C36",
   "status": "proved",
   "theorems": [
    "C36_queue",
    "C36_last_pose_time"
   ],
   "note": ""
  },
  {
   "property": "C37",
   "status": "proved",
   "theorems": [
    "C37_repeated_query",
    "C37_fresh_query",
    "C37_function_of_poses_refuted"
   ],
   "note": ""
  },
  {
   "property": "C38",
   "status": "proved",
   "theorems": [
    "C38_groups"
   ],
   "note": ""
  },
  {
   "property": "C39",
   "status": "proved",
   "theorems": [
    "C39_swapped_reads",
    "C39_no_frame_lost_refuted"
   ],
   "note": ""
  },
  {
   "property": "C40",
   "status": "proved",
   "theorems": [
    "C40_collector_keeps_clouds",
    "C40_clouds_dropped",
    "C40_preprocessed_cloud_dropped"
   ],
   "note": ""
  },
  {
   "property": "C41",
   "status": "proved",
   "theorems": [
    "C41_key_frames",
    "C41_cut_unique",
    "C41_total",
    "C41_nan"
   ],
   "note": ""
  },
  {
   "property": "C42",
   "status": "proved",
   "theorems": [
    "C42_parts",
    "C42_parts_partition",
    "C42_zero_step",
    "C42_whole"
   ],
   "note": ""
  },
  {
   "property": "C43",
   "status": "proved",
   "theorems": [
    "C43_consecutive",
    "C43_transitions"
   ],
   "note": ""
  },
  {
   "property": "C44",
   "status": "proved",
   "theorems": [
    "C44_total",
    "C44_candidates",
    "C44_edges",
    "C44_nearest_zero",
    "C44_nearest_negative",
    "C44_negative_threshold"
   ],
   "note": ""
  },
  {
   "property": "C45",
   "status": "proved",
   "theorems": [
    "C45_accepted_iff",
    "C45_agree_with_first",
    "C45_pairwise_refuted",
    "C45_depends_on_order",
    "C45_nan_accepted"
   ],
   "note": ""
  },
  {
   "property": "C46",
   "status": "proved",
   "theorems": [
    "C46_graph",
    "C46_update_keeps_edges",
    "C46_edge_rejected",
    "C46_dump"
   ],
   "note": ""
  },
  {
   "property": "C47",
   "status": "proved",
   "theorems": [
    "C47_contains",
    "C47_tight",
    "C47_negative"
   ],
   "note": ""
  },
  {
   "property": "C48",
   "status": "proved",
   "theorems": [
    "C48_split",
    "C48_bad_box_aborts"
   ],
   "note": ""
  },
  {
   "property": "C49",
   "status": "proved",
   "theorems": [
    "C49_axis_keeps_nan",
    "C49_axis_filter_keeps_nan",
    "C49_range_removes_nan"
   ],
   "note": ""
  },
  {
   "property": "C50",
   "status": "proved",
   "theorems": [
    "C50_ground",
    "C50_sparse_dropped",
    "C50_nan_undefined"
   ],
   "note": ""
  },
  {
   "property": "C51",
   "status": "proved",
   "theorems": [
    "C51_centroids",
    "C51_average_exact",
    "C51_nearest_index"
   ],
   "note": ""
  },
  {
   "property": "C52",
   "status": "proved",
   "theorems": [
    "C52_composition",
    "C52_no_filters",
    "C52_empty_stays_empty",
    "C52_empty_input_untouched"
   ],
   "note": ""
  },
  {
   "property": "C53",
   "status": "proved",
   "theorems": [
    "C53_first_point",
    "C53_full_circle",
    "C53_nan_undefined"
   ],
   "note": ""
  },
  {
   "property": "C54",
   "status": "proved",
   "theorems": [
    "C54_components",
    "C54_no_input_aborts",
    "C54_one_column_undefined"
   ],
   "note": ""
  },
  {
   "property": "C55",
   "status": "proved",
   "theorems": [
    "C55_rejection",
    "C55_no_finite_aborts",
    "C55_bad_ratio_aborts"
   ],
   "note": ""
  },
  {
   "property": "C56",
   "status": "proved",
   "theorems": [
    "C56_convergence_test",
    "C56_terminates",
    "C56_succeeds",
    "C56_guess_kept"
   ],
   "note": ""
  },
  {
   "property": "C57",
   "status": "proved",
   "theorems": [
    "C57_not_available_aborts",
    "C57_prefix",
    "C57_exact"
   ],
   "note": ""
  },
  {
   "property": "C58",
   "status": "proved",
   "theorems": [
    "C58_cover",
    "C58_join",
    "C58_overlap",
    "C58_outside_lost",
    "C58_files",
    "C58_all_points_kept_refuted"
   ],
   "note": ""
  },
  {
   "property": "C59",
   "status": "proved",
   "theorems": [
    "C59_directory",
    "C59_unique",
    "C59_strip",
    "C59_create_dir",
    "C59_directory_exists_refuted"
   ],
   "note": ""
  },
  {
   "property": "C60",
   "status": "proved",
   "theorems": [
    "C60_clamp",
    "C60_clamp_nan",
    "C60_power",
    "C60_power_negative",
    "C60_power_negative_depth"
   ],
   "note": ""
  },
  {
   "property": "C61",
   "status": "proved",
   "theorems": [
    "C61_interpolate_trim_later"
   ],
   "note": ""
  },
  {
   "property": "C62",
   "status": "proved",
   "theorems": [
    "C62_odom_relative",
    "C62_relative_motion_kept"
   ],
   "note": ""
  },
  {
   "property": "C63",
   "status": "proved",
   "theorems": [
    "C63_odom_inside",
    "C63_odom_outside",
    "C63_odom_short",
    "C63_threshold_aborts",
    "C63_odom_never_aborts_refuted"
   ],
   "note": ""
  },
  {
   "property": "C64",
   "status": "proved",
   "theorems": [
    "C64_no_lost_wakeup"
   ],
   "note": ""
  },
  {
   "property": "C65",
   "status": "proved",
   "theorems": [
    "C65_mutual_exclusion",
    "C65_race_free_refuted"
   ],
   "note": ""
  },
  {
   "property": "C66",
   "status": "proved",
   "theorems": [
    "C66_outside_points",
    "C66_max_depth_current_refuted"
   ],
   "note": ""
  },
  {
   "property": "C67",
   "status": "proved",
   "theorems": [
    "C67_negative_depth_limit_diverges",
    "C67_negative_point_limit_single_leaf"
   ],
   "note": ""
  },
  {
   "property": "C68",
   "status": "proved",
   "theorems": [
    "C68_rounding_never_aborts_refuted"
   ],
   "note": ""
  },
  {
   "property": "C69",
   "status": "proved",
   "theorems": [
    "C69_bresenham_overflow",
    "C69_dda_cxx14_defined_refuted"
   ],
   "note": ""
  },
  {
   "property": "C70",
   "status": "proved",
   "theorems": [
    "C70_transform_evicted_aborts",
    "C70_transform_resident",
    "C70_reload_cut_header_aborts",
    "C70_reload_cut_body_accepted"
   ],
   "note": ""
  },
  {
   "property": "C71",
   "status": "proved",
   "theorems": [
    "C71_compensation_after_normals_aborts",
    "C71_compensation_undefined",
    "C71_second_estimation_refuted"
   ],
   "note": ""
  },
  {
   "property": "C72",
   "status": "proved",
   "theorems": [
    "C72_full_cloud",
    "C72_mrvm_never_completes"
   ],
   "note": ""
  },
  {
   "property": "C73",
   "status": "proved",
   "theorems": [
    "C73_small_hit_prob_useless"
   ],
   "note": ""
  },
  {
   "property": "C74",
   "status": "proved",
   "theorems": [
    "C74_parallel_bound",
    "C74_parallel_cap_refuted"
   ],
   "note": ""
  },
  {
   "property": "C75",
   "status": "proved",
   "theorems": [
    "C75_ctrv_total",
    "C75_old_query_aborts",
    "C75_late_imu_aborts",
    "C75_backward_query_aborts",
    "C75_query_before_second_pose"
   ],
   "note": ""
  },
  {
   "property": "C76",
   "status": "proved",
   "theorems": [
    "C76_imu_bookkeeping",
    "C76_query_after_pose"
   ],
   "note": ""
  },
  {
   "property": "C77",
   "status": "proved",
   "theorems": [
    "C77_crashes",
    "C77_read_under_construction",
    "C77_frame_count_zero",
    "C77_frame_count_negative"
   ],
   "note": ""
  },
  {
   "property": "C78",
   "status": "proved",
   "theorems": [
    "C78_connected_in_order",
    "C78_single_submap_unconnected",
    "C78_all_connected_refuted"
   ],
   "note": ""
  },
  {
   "property": "C79",
   "status": "proved",
   "theorems": [
    "C79_all_matched",
    "C79_finish_possible"
   ],
   "note": ""
  },
  {
   "property": "C80",
   "status": "proved",
   "theorems": [
    "C80_late_cloud_aborts",
    "C80_late_cloud_wrong_base",
    "C80_admission"
   ],
   "note": ""
  },
  {
   "property": "C81",
   "status": "proved",
   "theorems": [
    "C81_status_lags"
   ],
   "note": ""
  },
  {
   "property": "C82",
   "status": "proved",
   "theorems": [
    "C82_exact",
    "C82_infinite",
    "C82_large",
    "C82_double_steps"
   ],
   "note": ""
  },
  {
   "property": "C83",
   "status": "proved",
   "theorems": [
    "C83_average",
    "C83_wraparound"
   ],
   "note": ""
  },
  {
   "property": "C84",
   "status": "proved",
   "theorems": [
    "C84_image",
    "C84_empty",
    "C84_save_grows"
   ],
   "note": ""
  },
  {
   "property": "C85",
   "status": "proved",
   "theorems": [
    "C85_early_bag_throws"
   ],
   "note": ""
  },
  {
   "property": "C86",
   "status": "proved",
   "theorems": [
    "C86_zero_width",
    "C86_no_submaps"
   ],
   "note": ""
  },
  {
   "property": "C87",
   "status": "proved",
   "theorems": [
    "C87_in_place",
    "C87_repeated_filter_refuted"
   ],
   "note": ""
  },
  {
   "property": "C88",
   "status": "proved",
   "theorems": [
    "C88_statistic_first",
    "C88_statistic_later"
   ],
   "note": ""
  },
  {
   "property": "C89",
   "status": "proved",
   "theorems": [
    "C89_stale_clusters",
    "C89_stale_index_undefined",
    "C89_filter_again_empties"
   ],
   "note": ""
  },
  {
   "property": "C90",
   "status": "proved",
   "theorems": [
    "C90_below_bottom_kept",
    "C90_bottom_refuted"
   ],
   "note": ""
  },
  {
   "property": "C91",
   "status": "proved",
   "theorems": [
    "C91_compensation_undefined",
    "C91_clouds_not_set_undefined",
    "C91_empty_source_aborts",
    "C91_no_match_aborts"
   ],
   "note": ""
  },
  {
   "property": "C92",
   "status": "proved",
   "theorems": [
    "C92_total",
    "C92_variables",
    "C92_no_dangling_factor",
    "C92_final_total"
   ],
   "note": ""
  },
  {
   "property": "C93",
   "status": "proved",
   "theorems": [
    "C93_contents",
    "C93_loops",
    "C93_loop_transform",
    "C93_poses",
    "C93_final_poses",
    "C93_initial_values",
    "C93_trajectory"
   ],
   "note": ""
  },
  {
   "property": "C94",
   "status": "proved",
   "theorems": [
    "C94_factors",
    "C94_trigger",
    "C94_negative",
    "C94_transform",
    "C94_all_readings_refuted"
   ],
   "note": ""
  },
  {
   "property": "C95",
   "status": "proved",
   "theorems": [
    "C95_mirror",
    "C95_single_submap"
   ],
   "note": ""
  },
  {
   "property": "C96",
   "status": "proved",
   "theorems": [
    "C96_exclusion",
    "C96_protected",
    "C96_no_deadlock",
    "C96_terminates",
    "C96_done",
    "C96_no_abort",
    "C96_late_match_aborts",
    "C96_second_match_refuted"
   ],
   "note": ""
  },
  {
   "property": "C97",
   "status": "proved",
   "theorems": [
    "C97_never_lost",
    "C97_saved_first",
    "C97_all_or_nothing",
    "C97_no_eviction",
    "C97_always_points_refuted",
    "C97_pointer_race"
   ],
   "note": ""
  },
  {
   "property": "C98",
   "status": "proved",
   "theorems": [
    "C98_delay",
    "C98_access_resets",
    "C98_drop_after_delay_refuted"
   ],
   "note": ""
  },
  {
   "property": "C99",
   "status": "proved",
   "theorems": [
    "C99_iff",
    "C99_configured",
    "C99_failures",
    "C99_other_name",
    "C99_result"
   ],
   "note": ""
  },
  {
   "property": "C100",
   "status": "proved",
   "theorems": [
    "C100_only_valid_refuted",
    "C100_bad_box",
    "C100_bad_axis",
    "C100_bad_rate"
   ],
   "note": ""
  },
  {
   "property": "C101",
   "status": "proved",
   "theorems": [
    "C101_created_iff",
    "C101_options",
    "C101_failures",
    "C101_no_options"
   ],
   "note": ""
  },
  {
   "property": "C102",
   "status": "proved",
   "theorems": [
    "C102_iff",
    "C102_loaded",
    "C102_slash",
    "C102_defaults_abort",
    "C102_default_config_refuted",
    "C102_undefined",
    "C102_empty_path",
    "C102_null_name",
    "C102_needs_back_end",
    "C102_needs_imu_settings"
   ],
   "note": ""
  },
  {
   "property": "C103",
   "status": "proved",
   "theorems": [
    "C103_size_ignored",
    "C103_configured_size_refuted"
   ],
   "note": ""
  },
  {
   "property": "C104",
   "status": "proved",
   "theorems": [
    "C104_connections",
    "C104_map_round_trip",
    "C104_trajectory_id_refuted"
   ],
   "note": ""
  },
  {
   "property": "C105",
   "status": "proved",
   "theorems": [
    "C105_offset_lost",
    "C105_offset_kept_refuted",
    "C105_utm_offset",
    "C105_rejected_tokens",
    "C105_malformed_accepted"
   ],
   "note": ""
  },
  {
   "property": "C106",
   "status": "proved",
   "theorems": [
    "C106_clouds",
    "C106_imus",
    "C106_gps",
    "C106_no_odometry",
    "C106_extrapolator_first",
    "C106_message_unchanged_refuted",
    "C106_twice_refuted"
   ],
   "note": ""
  },
  {
   "property": "C107",
   "status": "proved",
   "theorems": [
    "C107_undefined",
    "C107_abort",
    "C107_throw",
    "C107_late_imu_ignored_refuted",
    "C107_odometry_usable_refuted"
   ],
   "note": ""
  },
  {
   "property": "C108",
   "status": "proved",
   "theorems": [
    "C108_optimizer_settings",
    "C108_disable_refuted"
   ],
   "note": ""
  },
  {
   "property": "C109",
   "status": "proved",
   "theorems": [
    "C109_angles_to_rotation",
    "C109_pose_roundtrip",
    "C109_pose_near_vertical",
    "C109_pose_vertical",
    "C109_angles_roundtrip",
    "C109_ranges",
    "C109_roundtrip_refuted"
   ],
   "note": ""
  },
  {
   "property": "C110",
   "status": "proved",
   "theorems": [
    "C110_result_rigid",
    "C110_rigid_unchanged",
    "C110_idempotent",
    "C110_quaternion"
   ],
   "note": ""
  },
  {
   "property": "C111",
   "status": "proved",
   "theorems": [
    "C111_factor",
    "C111_ends",
    "C111_same",
    "C111_translation",
    "C111_rotation",
    "C111_rotation_close",
    "C111_compensation_aborts",
    "C111_compensation"
   ],
   "note": ""
  },
  {
   "property": "C112",
   "status": "proved",
   "theorems": [
    "C112_observe",
    "C112_always_upright",
    "C112_failures",
    "C112_first_message"
   ],
   "note": ""
  },
  {
   "property": "C113",
   "status": "proved",
   "theorems": [
    "C113_one_axis",
    "C113_steps",
    "C113_steps_refuted"
   ],
   "note": ""
  },
  {
   "property": "C114",
   "status": "proved",
   "theorems": [
    "C114_binary32",
    "C114_rings",
    "C114_divides",
    "C114_threads",
    "C114_no_place",
    "C114_range_unchecked",
    "C114_out_of_range_refuted"
   ],
   "note": ""
  },
  {
   "property": "C115",
   "status": "proved",
   "theorems": [
    "C115_removed",
    "C115_flat_floor_refuted",
    "C115_nearest_refuted"
   ],
   "note": ""
  },
  {
   "property": "C116",
   "status": "proved",
   "theorems": [
    "C116_floor",
    "C116_over_gap",
    "C116_gap_at_start",
    "C116_gap_refuted"
   ],
   "note": ""
  },
  {
   "property": "C117",
   "status": "proved",
   "theorems": [
    "C117_solution_is_least_cost",
    "C117_matrix_positive",
    "C117_unique_up_to_sliding",
    "C117_second_order",
    "C117_never_worse_refuted"
   ],
   "note": ""
  },
  {
   "property": "C118",
   "status": "proved",
   "theorems": [
    "C118_rigid",
    "C118_around_the_mean",
    "C118_perfect_guess",
    "C118_score",
    "C118_translation_in_one_step",
    "C118_score_of_result_refuted"
   ],
   "note": ""
  },
  {
   "property": "C119",
   "status": "proved",
   "theorems": [
    "C119_descriptor",
    "C119_three_quarters_empty",
    "C119_mirror_image",
    "C119_sides_refuted",
    "C119_plane_of_view",
    "C119_orthogonal_refuted",
    "C119_reuse",
    "C119_failures",
    "C119_empty_kept"
   ],
   "note": ""
  },
  {
   "property": "C120",
   "status": "proved",
   "theorems": [
    "C120_range",
    "C120_symmetric",
    "C120_not_a_number",
    "C120_one",
    "C120_sign",
    "C120_loop_test"
   ],
   "note": ""
  },
  {
   "property": "C121",
   "status": "proved",
   "theorems": [
    "C121_points",
    "C121_playback",
    "C121_no_path",
    "C121_no_directory",
    "C121_unreadable",
    "C121_shutdown",
    "C121_all_files_refuted",
    "C121_numbers_refuted",
    "C121_all_points_refuted"
   ],
   "note": ""
  },
  {
   "property": "C122",
   "status": "proved",
   "theorems": [
    "C122_inputs",
    "C122_source_fails",
    "C122_target_fails",
    "C122_missing",
    "C122_pair_without_points",
    "C122_front_without_points",
    "C122_fast_submaps",
    "C122_last_source_refuted"
   ],
   "note": ""
  },
  {
   "property": "C123",
   "status": "proved",
   "theorems": [
    "C123_scores",
    "C123_score_stays",
    "C123_ndt_gicp",
    "C123_failed_ndt",
    "C123_pair",
    "C123_no_matches",
    "C123_ndt_backwards",
    "C123_loop",
    "C123_better_refuted",
    "C123_failed_refuted"
   ],
   "note": ""
  },
  {
   "property": "C124",
   "status": "proved",
   "theorems": [
    "C124_every_block_counted",
    "C124_statistics",
    "C124_statistics_empty",
    "C124_merged_table",
    "C124_thread_table",
    "C124_long_sum",
    "C124_average_refuted",
    "C124_sum_limit"
   ],
   "note": ""
  },
  {
   "property": "C125",
   "status": "proved",
   "theorems": [
    "C125_path",
    "C125_sensor_paths",
    "C125_submaps",
    "C125_whole_map",
    "C125_same_coordinates",
    "C125_relative_poses",
    "C125_succeeds",
    "C125_missing",
    "C125_missing_map",
    "C125_intensity",
    "C125_intensity_refuted",
    "C125_kitti_per_frame_refuted"
   ],
   "note": ""
  },
  {
   "property": "C126",
   "status": "proved",
   "theorems": [
    "C126_clouds_available",
    "C126_output",
    "C126_relative_motion"
   ],
   "note": ""
  },
  {
   "property": "C127",
   "status": "proved",
   "theorems": [
    "C127_exact",
    "C127_plane",
    "C127_max_rotation_refuted",
    "C127_doubles",
    "C127_nan",
    "C127_standing_still_refuted"
   ],
   "note": ""
  },
  {
   "property": "C128",
   "status": "proved",
   "theorems": [
    "C128_threads",
    "C128_shown",
    "C128_local_cloud_has_current",
    "C128_submaps_in_order",
    "C128_last_path",
    "C128_crashes",
    "C128_read_under_construction"
   ],
   "note": ""
  },
  {
   "property": "C129",
   "status": "proved",
   "theorems": [
    "C129_refused",
    "C129_defined",
    "C129_default_options_refuted",
    "C129_stops_cleanly_refuted",
    "C129_transforms",
    "C129_waits",
    "C129_urdf",
    "C129_urdf_connected",
    "C129_collected",
    "C129_odometry_fatal",
    "C129_kitti_imu_refuted",
    "C129_cloud",
    "C129_arguments",
    "C129_sensors"
   ],
   "note": ""
  },
  {
   "property": "C130",
   "status": "proved",
   "theorems": [
    "C130_gradient",
    "C130_near_zero",
    "C130_near_zero_exact_refuted",
    "C130_hessian",
    "C130_score",
    "C130_never_dropped",
    "C130_dropped",
    "C130_same_hessian",
    "C130_hessian_refuted",
    "C130_constants"
   ],
   "note": ""
  },
  {
   "property": "C131",
   "status": "proved",
   "theorems": [
    "C131_no_search",
    "C131_step",
    "C131_ends",
    "C131_distance",
    "C131_converged_refuted",
    "C131_increase_refuted"
   ],
   "note": ""
  },
  {
   "property": "C132",
   "status": "proved",
   "theorems": [
    "C132_cells",
    "C132_radius",
    "C132_runs",
    "C132_own_cell_refuted",
    "C132_overflow_refuted",
    "C132_stale_refuted",
    "C132_division_refuted",
    "C132_normal",
    "C132_thick",
    "C132_covariance_refuted",
    "C132_binary32",
    "C132_means",
    "C132_neighbours"
   ],
   "note": ""
  },
  {
   "property": "C133",
   "status": "proved",
   "theorems": [
    "C133_start",
    "C133_range",
    "C133_first_score",
    "C133_result",
    "C133_small_refuted",
    "C133_scaled_refuted"
   ],
   "note": ""
  },
  {
   "property": "C134",
   "status": "proved",
   "theorems": [
    "C134_planes",
    "C134_sampler",
    "C134_rate",
    "C134_in_place_refuted",
    "C134_voxel_height",
    "C134_voxel_size_refuted",
    "C134_second_refuted"
   ],
   "note": ""
  },
  {
   "property": "C135",
   "status": "proved",
   "theorems": [
    "C135_process_time",
    "C135_blanks_shift",
    "C135_any_name_refuted",
    "C135_total",
    "C135_percent",
    "C135_hundred_refuted",
    "C135_closed_refuted",
    "C135_nothing_read",
    "C135_status",
    "C135_log",
    "C135_harmless_refuted",
    "C135_lines",
    "C135_unreadable",
    "C135_overrun_refuted",
    "C135_numbers",
    "C135_unset_refuted"
   ],
   "note": ""
  },
  {
   "property": "C136",
   "status": "proved",
   "theorems": [
    "C136_agree",
    "C136_not_finite",
    "C136_margin",
    "C136_nearer",
    "C136_coordinate",
    "C136_exact_refuted",
    "C136_length_refuted",
    "C136_cloud",
    "C136_unchecked",
    "C136_checked",
    "C136_mrvm"
   ],
   "note": ""
  },
  {
   "property": "C137",
   "status": "proved",
   "theorems": [
    "C137_points",
    "C137_exact",
    "C137_too_many",
    "C137_all_points_refuted",
    "C137_program",
    "C137_sample",
    "C137_sample_all",
    "C137_sample_fails",
    "C137_ratio_one_refuted"
   ],
   "note": ""
  },
  {
   "property": "C138",
   "status": "proved",
   "theorems": [
    "C138_roundtrip",
    "C138_copied",
    "C138_matrix",
    "C138_error",
    "C138_rigid",
    "C138_track",
    "C138_distances",
    "C138_distances_refuted",
    "C138_orientation_refuted"
   ],
   "note": ""
  },
  {
   "property": "C139",
   "status": "proved",
   "theorems": [
    "C139_minimum",
    "C139_cubic",
    "C139_cubic_refuted",
    "C139_secant",
    "C139_case1",
    "C139_case2",
    "C139_case3",
    "C139_case4_refuted",
    "C139_case4",
    "C139_interval",
    "C139_bracket",
    "C139_stop",
    "C139_curvature_refuted",
    "C139_aux",
    "C139_convert_refuted"
   ],
   "note": ""
  },
  {
   "property": "C140",
   "status": "proved",
   "theorems": [
    "C140_colour",
    "C140_colour_order",
    "C140_colour_refuted",
    "C140_average",
    "C140_in_voxel",
    "C140_points",
    "C140_shape",
    "C140_shape_refuted",
    "C140_coloured",
    "C140_file",
    "C140_undefined"
   ],
   "note": ""
  },
  {
   "property": "C141",
   "status": "proved",
   "theorems": [
    "C141_alone",
    "C141_some",
    "C141_last",
    "C141_largest_refuted",
    "C141_ends"
   ],
   "note": ""
  },
  {
   "property": "C142",
   "status": "proved",
   "theorems": [
    "C142_field",
    "C142_error",
    "C142_exact",
    "C142_order",
    "C142_distinct",
    "C142_far",
    "C142_far_refuted",
    "C142_small",
    "C142_path",
    "C142_csv",
    "C142_exit",
    "C142_exit_refuted"
   ],
   "note": ""
  },
  {
   "property": "C143",
   "status": "proved",
   "theorems": [
    "C143_field",
    "C143_error",
    "C143_exact",
    "C143_millimetres_refuted",
    "C143_kitti"
   ],
   "note": ""
  },
  {
   "property": "C144",
   "status": "proved",
   "theorems": [
    "C144_least_squares",
    "C144_ends",
    "C144_exact_motion_found",
    "C144_any_weights_refuted",
    "C144_aligns_clouds_left_refuted"
   ],
   "note": ""
  },
  {
   "property": "C145",
   "status": "proved",
   "theorems": [
    "C145_least_squares",
    "C145_coplanar",
    "C145_too_few",
    "C145_side_open",
    "C145_two_points_refuted"
   ],
   "note": ""
  },
  {
   "property": "C146",
   "status": "proved",
   "theorems": [
    "C146_no_odometry",
    "C146_ctrv_ignores_odometry",
    "C146_second_message_undefined",
    "C146_stands_still",
    "C146_kept_until_pose",
    "C146_gravity_needs_two_poses",
    "C146_gravity_ctrv",
    "C146_rough_velocity",
    "C146_follows_motion_refuted"
   ],
   "note": ""
  },
  {
   "property": "C147",
   "status": "proved",
   "theorems": [
    "C147_keys",
    "C147_graph",
    "C147_loops",
    "C147_priors",
    "C147_failures",
    "C147_prior_once_refuted",
    "C147_empty_base_refuted"
   ],
   "note": ""
  },
  {
   "property": "C148",
   "status": "proved",
   "theorems": [
    "C148_submaps",
    "C148_consistent",
    "C148_again"
   ],
   "note": ""
  },
  {
   "property": "C149",
   "status": "proved",
   "theorems": [
    "C149_graph",
    "C149_all_measured",
    "C149_time",
    "C149_failures",
    "C149_velocity",
    "C149_order_refuted",
    "C149_rest_refuted"
   ],
   "note": ""
  },
  {
   "property": "C150",
   "status": "proved",
   "theorems": [
    "C150_range",
    "C150_column",
    "C150_voxels_refuted",
    "C150_crowded",
    "C150_pixels_refuted"
   ],
   "note": ""
  },
  {
   "property": "C151",
   "status": "proved",
   "theorems": [
    "C151_path",
    "C151_rigid",
    "C151_normal",
    "C151_plane_refuted",
    "C151_length_refuted",
    "C151_smooth_refuted",
    "C151_gps_line",
    "C151_gps_along",
    "C151_odom_line",
    "C151_odom_blind",
    "C151_odom_straight"
   ],
   "note": ""
  },
  {
   "property": "C152",
   "status": "proved",
   "theorems": [
    "C152_first",
    "C152_later",
    "C152_add",
    "C152_added_refuted"
   ],
   "note": ""
  },
  {
   "property": "C153",
   "status": "proved",
   "theorems": [
    "C153_estimate",
    "C153_match",
    "C153_total",
    "C153_row",
    "C153_step",
    "C153_turn",
    "C153_average_refuted"
   ],
   "note": ""
  },
  {
   "property": "C154",
   "status": "proved",
   "theorems": [
    "C154_residuals",
    "C154_right",
    "C154_direction",
    "C154_direction_refuted",
    "C154_level",
    "C154_failures",
    "C154_result"
   ],
   "note": ""
  }
 ]
}