{
 "claims": [
  {
   "property": "C01",
   "status": "proved",
   "theorems": [
    "C01_time_order",
    "C01_legal_no_abort",
    "C01_static_legal",
    "C01_terminates",
    "C01_time_key_order",
    "C01_late_queue_refuted"
   ],
   "note": "Sensor id strings are represented by their rank. Without the restriction on late registration the process aborts (C01_late_queue_refuted)."
  },
  {
   "property": "C02",
   "status": "proved",
   "theorems": [
    "C02_conservation",
    "C02_drop_only_before_start",
    "C02_exact_delivery"
   ],
   "note": "Exact delivery is for histories that register all queues before data and end with Flush."
  },
  {
   "property": "C03",
   "status": "proved",
   "theorems": [
    "C03_flush_drains",
    "C03_blocker",
    "C03_blocker_unset_refuted"
   ],
   "note": "Right after registration the blocker is unset (finding)."
  },
  {
   "property": "C04",
   "status": "proved",
   "theorems": [
    "C04_trajectory_collator_isolation",
    "C04_collator_isolation_refuted"
   ],
   "note": "Metrics are not modelled. The plain collator does not isolate (refuted part)."
  },
  {
   "property": "C05",
   "status": "proved",
   "theorems": [
    "C05_no_crash",
    "C05_once",
    "C05_order"
   ],
   "note": "Steps are critical sections; the argument why nested sections may be merged is in TP_Model.v. Destruction of a task that was never scheduled is outside the contract."
  },
  {
   "property": "C06",
   "status": "proved",
   "theorems": [
    "C06_progress",
    "C06_terminates",
    "C06_all_done",
    "C06_shutdown",
    "C06_completes"
   ],
   "note": "Work items terminate: Finish is always possible for a running item once its own calls returned."
  },
  {
   "property": "C07",
   "status": "proved",
   "theorems": [
    "C07_fifo",
    "C07_blocking"
   ],
   "note": "Threads call methods any number of times; durations are abstracted to whether the timeout has expired."
  },
  {
   "property": "C08",
   "status": "proved",
   "theorems": [
    "C08_ratio",
    "C08_extremes",
    "C08_refuses",
    "C08_exact_refuted"
   ],
   "note": "Binary64 arithmetic; up to 2^53 pulses, where the counts are still exact doubles."
  },
  {
   "property": "C09",
   "status": "proved",
   "theorems": [
    "C09_refines_finite_map",
    "C09_iteration",
    "C09_trajectory",
    "C09_iteration_int_max_refuted"
   ],
   "note": "Overflow of an index past INT_MAX is not modelled. With a trajectory id of INT_MAX iteration skips that trajectory (finding)."
  },
  {
   "property": "C10",
   "status": "proved",
   "theorems": [
    "C10_lower_bound"
   ],
   "note": ""
  },
  {
   "property": "C11",
   "status": "proved",
   "theorems": [
    "C11_no_reuse_while_nonempty",
    "C11_ids_never_reused_refuted"
   ],
   "note": "The unconditional claim is refuted (finding)."
  },
  {
   "property": "C12",
   "status": "proved",
   "theorems": [
    "C12_trim",
    "C12_trim_sequence",
    "C12_trim_no_abort",
    "C12_append"
   ],
   "note": "Node times strictly between Time::min and Time::max, which the code uses as sentinels."
  },
  {
   "property": "C13",
   "status": "proved",
   "theorems": [
    "C13_contents",
    "C13_push",
    "C13_lookup",
    "C13_trajectory"
   ],
   "note": "The interpolation formula itself (translation and slerp) is a parameter."
  },
  {
   "property": "C14",
   "status": "proved",
   "theorems": [
    "C14_roundtrip",
    "C14_bounds",
    "C14_strictly_monotone",
    "C14_complement",
    "C14_involution",
    "C14_range",
    "C14_quantize_monotone",
    "C14_marked_unknown_refuted",
    "C14_nan_refuted"
   ],
   "note": "Binary32 with rounding to nearest even after every operation and no contraction. Uses the axioms of Coq's real numbers."
  },
  {
   "property": "C15",
   "status": "proved",
   "theorems": [
    "C15_tables_good",
    "C15_update_once",
    "C15_known",
    "C15_tables_good_3d",
    "C15_update_once_3d",
    "C15_set_during_update_refuted"
   ],
   "note": "2D probability grids and hybrid grids; tables built by the C16 functions. Setting a marked voxel during an update corrupts it (finding)."
  },
  {
   "property": "C16",
   "status": "proved",
   "theorems": [
    "C16_hit",
    "C16_miss",
    "C16_range",
    "C16_tables_monotone",
    "C16_default_unknown",
    "C16_certain_hit_refuted"
   ],
   "note": "Uses the axioms of Coq's real numbers."
  },
  {
   "property": "C17",
   "status": "proved",
   "theorems": [
    "C17_grow",
    "C17_border_refuted"
   ],
   "note": "Coordinates are rationals instead of doubles; the index of a point on the old max border changes (refuted part)."
  },
  {
   "property": "C18",
   "status": "proved",
   "theorems": [
    "C18_crop"
   ],
   "note": "Coordinates are rationals instead of doubles; cell values and their conversions are exact binary32."
  },
  {
   "property": "C19",
   "status": "proved",
   "theorems": [
    "C19_roundtrip",
    "C19_pending_aborts",
    "C19_legacy_defaults"
   ],
   "note": "The message is a record; protobuf encoding itself is not modelled."
  },
  {
   "property": "C20",
   "status": "proved",
   "theorems": [
    "C20_center",
    "C20_interior",
    "C20_contained"
   ],
   "note": "Coordinates are rationals instead of doubles."
  },
  {
   "property": "C21",
   "status": "proved",
   "theorems": [
    "C21_ray",
    "C21_symmetric"
   ],
   "note": "Includes absence of int64 overflow for int coordinates."
  },
  {
   "property": "C22",
   "status": "proved",
   "theorems": [
    "C22_insert"
   ],
   "note": "Coordinates are rationals instead of floats; the subpixel grid must fit into int."
  },
  {
   "property": "C23",
   "status": "proved",
   "theorems": [
    "C23_protocol",
    "C23_submaps",
    "C23_finished_refuses"
   ],
   "note": "Submap contents are a parameter whose insertion and finishing succeed (C22 and C18 for 2D)."
  },
  {
   "property": "C24",
   "status": "proved",
   "theorems": [
    "C24_map",
    "C24_abort",
    "C24_grow"
   ],
   "note": "Indices within 8192 of INT_MAX overflow int when read; they are outside the statement."
  },
  {
   "property": "C25",
   "status": "proved",
   "theorems": [
    "C25_iterator"
   ],
   "note": "For every value type."
  },
  {
   "property": "C26",
   "status": "proved",
   "theorems": [
    "C26_roundtrip",
    "C26_proto"
   ],
   "note": "The message is a record; protobuf encoding itself is not modelled."
  },
  {
   "property": "C27",
   "status": "proved",
   "theorems": [
    "C27_insert",
    "C27_samples",
    "C27_sample_exists",
    "C27_far_aborts"
   ],
   "note": "Voxel indices of points are computed with binary32 floats; all indices touched must be inside the grid's maximal extent (C24 says the code aborts otherwise)."
  },
  {
   "property": "C28",
   "status": "proved",
   "theorems": [
    "C28_transitively_connected",
    "C28_components",
    "C28_component",
    "C28_counts",
    "C28_no_abort"
   ],
   "note": "The iteration order of the hash maps is not modelled; results are used as sets."
  },
  {
   "property": "C29",
   "status": "proved",
   "theorems": [
    "C29_symmetric",
    "C29_join",
    "C29_update",
    "C29_connected",
    "C29_no_abort",
    "C29_connect_tracks_refuted"
   ],
   "note": "The header's promise that Connect tracks untracked trajectories is refuted (finding)."
  },
  {
   "property": "C30",
   "status": "proved",
   "theorems": [
    "C30_proper",
    "C30_trim",
    "C30_finished"
   ],
   "note": "For every Trim that returns; that it returns in a mapping session is part of C55."
  },
  {
   "property": "C31",
   "status": "proved",
   "theorems": [
    "C31_trim",
    "C31_freshness",
    "C31_wrap_refuted",
    "C31_empty_refuted"
   ],
   "note": "The geometry of the coverage grid is reduced to the list of coverage cells of each submap; std::sort is an arbitrary sorting function."
  },
  {
   "property": "C32",
   "status": "proved",
   "theorems": [
    "C32_collate",
    "C32_monotone",
    "C32_future_point_refuted",
    "C32_cross_sensor_refuted"
   ],
   "note": "The conversions between seconds and ticks are parameters, std::sort is an arbitrary sorting function; ticks do not wrap around."
  },
  {
   "property": "C33",
   "status": "proved",
   "theorems": [
    "C33_one_per_voxel",
    "C33_idempotent",
    "C33_cloud"
   ],
   "note": "The generator is an arbitrary function of the point number and the count."
  },
  {
   "property": "C34",
   "status": "proved",
   "theorems": [
    "C34_keys",
    "C34_refuted"
   ],
   "note": "Voxel: nearest integers to the binary32 quotients, ties away from zero."
  },
  {
   "property": "C35",
   "status": "proved",
   "theorems": [
    "C35_adaptive",
    "C35_full_cloud_refuted",
    "C35_terminates_refuted"
   ],
   "note": "The norm used by the range filter is an arbitrary function."
  },
  {
   "property": "C36",
   "status": "proved",
   "theorems": [
    "C36_accepts",
    "C36_round_trip",
    "C36_rejects",
    "C36_error",
    "C36_recompress",
    "C36_half_step_refuted",
    "C36_recompress_refuted"
   ],
   "note": "Points with finite binary32 coordinates; clouds of at most 2^31-1 points; intensities are not part of the compressed cloud."
  },
  {
   "property": "C37",
   "status": "proved",
   "theorems": [
    "C37_roundtrip",
    "C37_prefix",
    "C37_truncation_undetected"
   ],
   "note": "gzip and protobuf are parameters with a round-trip assumption. A file cut at a record boundary reads like a complete shorter one (finding)."
  },
  {
   "property": "C38",
   "status": "proved",
   "theorems": [
    "C38_branch_and_bound",
    "C38_deterministic",
    "C38_float",
    "C38_probability_cells"
   ],
   "note": "Scores and cell probabilities are integers standing for float32 values, for all monotone roundings and in C38_float for the float32 expressions of the code; scans are given discretized with 1 to 2^23-1 points; the window contains the zero offset."
  },
  {
   "property": "C39",
   "status": "proved",
   "theorems": [
    "C39_line",
    "C39_precomputation_exact",
    "C39_width_one"
   ],
   "note": ""
  },
  {
   "property": "C40",
   "status": "proved",
   "theorems": [
    "C40_branch_and_bound",
    "C40_float",
    "C40_precomputed",
    "C40_border_aborts",
    "C40_room_refuted"
   ],
   "note": "Scans are given discretized with 1 to 2^23-1 points; the score of the low resolution matcher and of the rotational matcher are arbitrary functions. The claim without the distance from the border is refuted."
  },
  {
   "property": "C41",
   "status": "proved",
   "theorems": [
    "C41_shrink_no_loss"
   ],
   "note": ""
  },
  {
   "property": "C42",
   "status": "proved",
   "theorems": [
    "C42_integrity",
    "C42_read_constraints",
    "C42_trim",
    "C42_unchecked_refuted"
   ],
   "note": "Poses, times and sensor data are left out; each public call and each work item is one atomic step."
  },
  {
   "property": "C43",
   "status": "proved",
   "theorems": [
    "C43_order",
    "C43_no_abort",
    "C43_terminates",
    "C43_progress",
    "C43_wait",
    "C43_wait_refuted",
    "C43_two_waits_refuted"
   ],
   "note": "What the items do is left to PG_Model; whether an item asks for an optimization and when the constraint builder calls back is up to the schedule."
  },
  {
   "property": "C44",
   "status": "proved",
   "theorems": [
    "C44_final",
    "C44_refuses",
    "C44_closed_refuses",
    "C44_deletes",
    "C44_deleted_gone",
    "C55_session",
    "C44_final_refuted",
    "C44_delayed_refuted",
    "C44_pending_data_refuted",
    "C55_pure_delete_refuted",
    "C55_delete_twice_refuted",
    "C55_delete_active_refuted"
   ],
   "note": "The absence of aborts is C55_session, for sessions without frozen or deserialized trajectories."
  },
  {
   "property": "C45",
   "status": "proved",
   "theorems": [
    "C45_loads",
    "C45_roundtrip",
    "C45_options",
    "C45_session",
    "C45_fresh",
    "C45_finished_empty_refuted",
    "C45_deleted_landmark_refuted",
    "C45_early_data_refuted",
    "C45_written_meanwhile_refuted",
    "C45_swapped_options_refuted"
   ],
   "note": "2D pose graph.  Poses, grids, scans and sensor readings are opaque values whose conversion to protos is taken to be exact; the bytes of the stream are C37."
  },
  {
   "property": "C46",
   "status": "proved",
   "theorems": [
    "C46_reports",
    "C46_all_finished",
    "C46_bounded",
    "C46_stops",
    "C46_destructor",
    "C46_late_search_refuted",
    "C46_unended_refuted",
    "C46_delete_refuted",
    "C46_two_callbacks_refuted"
   ],
   "note": "The outcome of each search is a parameter; that the pool runs a task once, after its dependencies, is C05."
  },
  {
   "property": "C47",
   "status": "proved",
   "theorems": [
    "C47_remove_points"
   ],
   "note": "For batches whose intensities and colors are absent or one per point."
  },
  {
   "property": "C48",
   "status": "proved",
   "theorems": [
    "C48_round_trip",
    "C48_range",
    "C48_nearest",
    "C48_monotone",
    "C48_nan_refuted"
   ],
   "note": "The round trip is a complete sweep of the 256 values."
  },
  {
   "property": "C49",
   "status": "proved",
   "theorems": [
    "C49_exactly_once",
    "C49_destroy",
    "C49_uncounted",
    "C49_read",
    "C49_typed",
    "C49_numeral_refuted"
   ],
   "note": "Lua tables and the number syntax of strings are parameters; the interpreter is not modelled."
  },
  {
   "property": "C50",
   "status": "proved",
   "theorems": [
    "C50_accounted",
    "C50_batches",
    "C50_lossless",
    "C50_resumes_at_submap",
    "C50_shutdown_ends",
    "C50_shutdown_refuted",
    "C50_resume_refuted"
   ],
   "note": "The answers of the uplink and of the channel are arbitrary."
  },
  {
   "property": "C51",
   "status": "proved",
   "theorems": [
    "C51_deterministic"
   ],
   "note": ""
  },
  {
   "property": "C52",
   "status": "proved",
   "theorems": [
    "C52_center"
   ],
   "note": "For every positive normal resolution from 2^-50 to 2^50 and index components up to 2^20 in size."
  },
  {
   "property": "C53",
   "status": "proved",
   "theorems": [
    "C53_intensity",
    "C53_insert",
    "C53_beside"
   ],
   "note": "Additions are binary32, left to right."
  },
  {
   "property": "C54",
   "status": "proved",
   "theorems": [
    "C54_pipeline",
    "C54_two_multi_pass"
   ],
   "note": "Cell index, ray samples and the miss/hit comparison are parameters; streams of fewer than 2^63 points."
  },
  {
   "property": "C55",
   "status": "proved",
   "theorems": [
    "C55_session",
    "C55_optimized",
    "C55_front_end",
    "C55_period",
    "C55_last_submap_refuted",
    "C55_lookup_refuted",
    "C55_pure_delete_refuted",
    "C55_delete_twice_refuted",
    "C55_delete_active_refuted",
    "C55_finish_twice_refuted"
   ],
   "note": "Poses, times and sensor data are left out; each public call and each work item is one atomic step."
  },
  {
   "property": "C56",
   "status": "proved",
   "theorems": [
    "C56_history",
    "C56_initialized",
    "C56_aborts",
    "C56_in_order",
    "C56_newest_pose_refuted",
    "C56_equal_imu_times_refuted",
    "C56_equal_odometry_times_refuted",
    "C56_tracker"
   ],
   "note": "Rotations, vectors and the filter of the IMU tracker are opaque functions; times are integers."
  },
  {
   "property": "C57",
   "status": "proved",
   "theorems": [
    "C57_no_abort",
    "C57_placed",
    "C57_last_point",
    "C57_groups",
    "C57_motion_filter",
    "C57_clock",
    "C57_matched_pose_refuted",
    "C57_last_point_refuted"
   ],
   "note": "Scan matching, submaps, filters and poses are opaque functions that do not abort; sensor times are integers."
  },
  {
   "property": "C58",
   "status": "proved",
   "theorems": [
    "C58_roundtrip",
    "C58_roundtrip_refuted",
    "C58_monotone",
    "C58_extrapolator",
    "C58_point_times",
    "C58_shift"
   ],
   "note": "Durations of more than 2^51 ticks are only covered by C58_monotone."
  },
  {
   "property": "C59",
   "status": "proved",
   "theorems": [
    "C59_aborts",
    "C59_terms",
    "C59_blocks",
    "C59_result",
    "C59_frozen",
    "C59_changes",
    "C59_trim",
    "C59_trim_refuted",
    "C59_deleted_refuted",
    "C59_pairing_refuted"
   ],
   "note": "Poses, interpolation and the solver are opaque functions; weights and loss functions of the terms are not modelled. C59_terms and C59_blocks exclude the sightings of C59_pairing_refuted."
  },
  {
   "property": "C60",
   "status": "proved",
   "theorems": [
    "C60_roundtrip",
    "C60_total",
    "C60_monotone",
    "C60_strict",
    "C60_accuracy",
    "C60_values",
    "C60_bounds_refuted"
   ],
   "note": "C60_bounds_refuted: the range stated in the header comment is exceeded."
  },
  {
   "property": "C61",
   "status": "proved",
   "theorems": [
    "C61_set_once",
    "C61_set_aborts",
    "C61_read",
    "C61_grow",
    "C61_crop",
    "C61_proto"
   ],
   "note": "Coordinates are exact rationals (as for C15-C20), distances and weights binary32."
  },
  {
   "property": "C62",
   "status": "proved",
   "theorems": [
    "C62_update",
    "C62_update_skips",
    "C62_score",
    "C62_score_offset",
    "C62_score_refuted"
   ],
   "note": "The inserter's maximum_weight option is taken to be the TSDF's, as in submap_2d.cc. C62_score_refuted: without the proviso the score's CHECK fails."
  },
  {
   "property": "C63",
   "status": "proved",
   "theorems": [
    "C63_candidates",
    "C63_negative_window",
    "C63_probability_score",
    "C63_empty_scan",
    "C63_match",
    "C63_not_worse",
    "C63_shift",
    "C63_offset",
    "C63_orientation",
    "C63_shift_refuted"
   ],
   "note": "Scans are given as cells; the factor exp(-d^2) is any discount between 0 and 1 that is 1 for the initial pose. A TSDF needs the proviso of C62. C63_shift_refuted: the exception for cell boundaries is needed."
  },
  {
   "property": "C64",
   "status": "proved",
   "theorems": [
    "C64_normalize",
    "C64_autodiff",
    "C64_residuals",
    "C64_jacobian",
    "C64_jacobian_refuted",
    "C64_zero",
    "C64_gauge",
    "C64_double",
    "C64_double_refuted"
   ],
   "note": "Residuals and derivatives over the reals, with pi for M_PI; NormalizeAngleDifference also in binary64. ceres::Jet is modelled by its documented arithmetic."
  },
  {
   "property": "C65",
   "status": "proved",
   "theorems": [
    "C65_group3",
    "C65_action3",
    "C65_product_normalized",
    "C65_inverse_refuted",
    "C65_inverse_valid",
    "C65_group2",
    "C65_action2",
    "C65_embed",
    "C65_yaw",
    "C65_yaw_refuted",
    "C65_angle",
    "C65_of_angle_axis",
    "C65_vector_round_trip",
    "C65_quaternion_round_trip",
    "C65_vector_length",
    "C65_sign",
    "C65_sign_refuted"
   ],
   "note": "Over the reals; rounding is not modelled. Eigen quaternion products, conjugates, normalization and vector rotation are modelled by their formulas."
  },
  {
   "property": "C66",
   "status": "proved",
   "theorems": [
    "C66_spa_zero",
    "C66_spa_gauge",
    "C66_spa_sign",
    "C66_spa_size",
    "C66_rotation",
    "C66_acceleration",
    "C66_deltas"
   ],
   "note": "Values over the reals; derivatives and rounding are not modelled."
  },
  {
   "property": "C67",
   "status": "proved",
   "theorems": [
    "C67_slerp",
    "C67_slerp_ends",
    "C67_slerp_near",
    "C67_slerp_unit_refuted",
    "C67_slerp_frames",
    "C67_slerp_back",
    "C67_slerp_sign",
    "C67_slerp_sign_refuted",
    "C67_interpolate",
    "C67_interpolate2",
    "C67_landmark3",
    "C67_landmark_gauge",
    "C67_landmark2"
   ],
   "note": "Values over the reals; the interpolation parameter is a given number."
  },
  {
   "property": "C68",
   "status": "proved",
   "theorems": [
    "C68_lower",
    "C68_interpolates",
    "C68_bounds",
    "C68_derivative",
    "C68_chain_rule",
    "C68_continuous_derivative",
    "C68_flat",
    "C68_lipschitz",
    "C68_monotone",
    "C68_occupied_space",
    "C68_occupied_space_at",
    "C68_jacobian",
    "C68_intensity_jacobian",
    "C68_curve",
    "C68_intensity",
    "C68_intensity_required",
    "C68_average"
   ],
   "note": "Over the reals; the rounding of float centres is not modelled."
  },
  {
   "property": "C69",
   "status": "proved",
   "theorems": [
    "C69_lower",
    "C69_cost_bounds",
    "C69_cost_at_centre",
    "C69_unknown",
    "C69_weight_bounds",
    "C69_weight_at_centre",
    "C69_weight_lipschitz",
    "C69_derivative",
    "C69_defined",
    "C69_residuals",
    "C69_bounded",
    "C69_proportions",
    "C69_equal_weights",
    "C69_jacobian",
    "C69_border_refuted",
    "C69_jump_refuted"
   ],
   "note": "Over the reals; jet division as in ceres/jet.h."
  },
  {
   "property": "C70",
   "status": "proved",
   "theorems": [
    "C70_padding",
    "C70_unpadded",
    "C70_interpolates",
    "C70_bounds",
    "C70_off_map",
    "C70_jacobian",
    "C70_no_overflow",
    "C70_sign_refuted"
   ],
   "note": "Over the reals; ceres::BiCubicInterpolator is modelled from its documentation, it is not part of the repository."
  },
  {
   "property": "C71",
   "status": "proved",
   "theorems": [
    "C71_direction",
    "C71_opposite_refuted",
    "C71_histogram",
    "C71_slices",
    "C71_sorted",
    "C71_turned",
    "C71_turn_refuted"
   ],
   "note": "Over the reals; std::sort keeps the order of points at equal angles."
  },
  {
   "property": "C72",
   "status": "proved",
   "theorems": [
    "C72_interpolates",
    "C72_full",
    "C72_group",
    "C72_compose_refuted",
    "C72_mass",
    "C72_continuous",
    "C72_score",
    "C72_largest",
    "C72_empty",
    "C72_turned_both",
    "C72_found",
    "C72_scores"
   ],
   "note": "Over the reals."
  },
  {
   "property": "C73",
   "status": "proved",
   "theorems": [
    "C73_defined",
    "C73_step",
    "C73_step_largest",
    "C73_neighbours",
    "C73_scans",
    "C73_estimate",
    "C73_estimate_refuted",
    "C73_cover",
    "C73_full_centre",
    "C73_full_cover"
   ],
   "note": "Over the reals."
  },
  {
   "property": "C74",
   "status": "proved",
   "theorems": [
    "C74_angles",
    "C74_all_around",
    "C74_pose",
    "C74_zero",
    "C74_step",
    "C74_step_largest",
    "C74_kept",
    "C74_not_dropped",
    "C74_full_linear"
   ],
   "note": "Over the reals; node and submap rotations are unit quaternions."
  },
  {
   "property": "C75",
   "status": "proved",
   "theorems": [
    "C75_transforms",
    "C75_step",
    "C75_score",
    "C75_empty",
    "C75_match",
    "C75_not_worse"
   ],
   "note": "Over the reals."
  },
  {
   "property": "C76",
   "status": "proved",
   "theorems": [
    "C76_log_odds",
    "C76_monotone",
    "C76_ends",
    "C76_symmetric",
    "C76_symmetric_refuted",
    "C76_texel",
    "C76_distinct",
    "C76_tsdf"
   ],
   "note": "Over the reals."
  },
  {
   "property": "C77",
   "status": "proved",
   "theorems": [
    "C77_pixels",
    "C77_probability",
    "C77_tsdf",
    "C77_position",
    "C77_position_refuted",
    "C77_inside",
    "C77_painted",
    "C77_all_painted",
    "C77_all_painted_refuted",
    "C77_empty"
   ],
   "note": "Probabilities and positions over the reals; Cairo's transformations by their documentation, its compositing is not modelled."
  },
  {
   "property": "C78",
   "status": "proved",
   "theorems": [
    "C78_texture",
    "C78_once",
    "C78_voxels",
    "C78_empty",
    "C78_xray",
    "C78_position_refuted"
   ],
   "note": "Over the reals; the voxels the iterator gives are an arbitrary list."
  },
  {
   "property": "C79",
   "status": "proved",
   "theorems": [
    "C79_svd",
    "C79_unit",
    "C79_advance",
    "C79_backwards",
    "C79_advance_twice",
    "C79_rate",
    "C79_average",
    "C79_level",
    "C79_checks",
    "C79_first",
    "C79_still",
    "C79_accepted_refuted"
   ],
   "note": "Over the reals; the singular vector Eigen's FromTwoVectors uses for opposite vectors is any unit vector orthogonal to both."
  },
  {
   "property": "C80",
   "status": "proved",
   "theorems": [
    "C80_motion",
    "C80_duration",
    "C80_checks",
    "C80_chain",
    "C80_cut",
    "C80_cut_rotation",
    "C80_cut_refuted",
    "C80_extrapolate",
    "C80_rest",
    "C80_rest_error",
    "C80_rest_refuted",
    "C80_two_poses",
    "C80_two_poses_same_time",
    "C80_duplicate_refuted"
   ],
   "note": "Over the reals."
  },
  {
   "property": "C81",
   "status": "proved",
   "theorems": [
    "C81_ply",
    "C81_ply_abort",
    "C81_pcd",
    "C81_pcd_short",
    "C81_pcd_mixed_refuted",
    "C81_ply_empty_refuted",
    "C81_comment_refuted"
   ],
   "note": "Writing to the file system does not fail in the model."
  },
  {
   "property": "C82",
   "status": "proved",
   "theorems": [
    "C82_spans",
    "C82_spans_jump",
    "C82_length",
    "C82_levels",
    "C82_floors",
    "C82_abort",
    "C82_single",
    "C82_lost_refuted",
    "C82_twice_refuted",
    "C82_first_refuted"
   ],
   "note": "Heights, lengths and their comparisons are parameters, so that rounding is covered; std::sort leaves the order of floors of the same height open."
  },
  {
   "property": "C83",
   "status": "proved",
   "theorems": [
    "C83_covered",
    "C83_straight",
    "C83_representatives",
    "C83_relations",
    "C83_agreement",
    "C83_trimmed_refuted"
   ],
   "note": "Real arithmetic; rotations are unit quaternions."
  },
  {
   "property": "C84",
   "status": "proved",
   "theorems": [
    "C84_frame",
    "C84_zero",
    "C84_swap",
    "C84_swap_refuted",
    "C84_lookup",
    "C84_errors",
    "C84_statistics",
    "C84_lines",
    "C84_few",
    "C84_self",
    "C84_self_refuted"
   ],
   "note": "Real arithmetic; rotations are unit quaternions; the pose between two nodes is a parameter (see C67 for it)."
  },
  {
   "property": "C85",
   "status": "proved",
   "theorems": [
    "C85_succeeds",
    "C85_terms",
    "C85_which",
    "C85_trajectories",
    "C85_constant",
    "C85_turning",
    "C85_short_refuted"
   ],
   "note": "Real arithmetic; that the terms are the expected ones assumes that no turn between 0 and 10^-4 radians is rounded by the conversion of angle vectors (as in C80); solving is not modelled."
  },
  {
   "property": "C86",
   "status": "proved",
   "theorems": [
    "C86_grow",
    "C86_succeeds",
    "C86_cells",
    "C86_ray",
    "C86_range",
    "C86_mean",
    "C86_on_ray",
    "C86_sorter",
    "C86_height_refuted"
   ],
   "note": "Real arithmetic: the 16-bit values of cells are in C60-C62. std::sort and EstimateNormals are parameters: any permutation and any normals."
  },
  {
   "property": "C87",
   "status": "proved",
   "theorems": [
    "C87_each",
    "C87_samples",
    "C87_normal",
    "C87_facing",
    "C87_wall",
    "C87_turned",
    "C87_duplicate_refuted",
    "C87_sight_refuted"
   ],
   "note": "Real arithmetic; the options are parameters."
  },
  {
   "property": "C88",
   "status": "proved",
   "theorems": [
    "C88_yaw_only",
    "C88_yaw_reaches",
    "C88_constant_yaw",
    "C88_reaches",
    "C88_unit_error",
    "C88_unit_refuted",
    "C88_yaw_refuted"
   ],
   "note": "Real arithmetic."
  },
  {
   "property": "C89",
   "status": "proved",
   "theorems": [
    "C89_sum",
    "C89_turn",
    "C89_order",
    "C89_unchanged",
    "C89_sizes_refuted"
   ],
   "note": "Real arithmetic. RotateHistogram is the one of C72."
  },
  {
   "property": "C90",
   "status": "proved",
   "theorems": [
    "C90_pixels",
    "C90_rotate",
    "C90_four"
   ],
   "note": "Integers; Cairo surfaces and PNG are left out."
  },
  {
   "property": "C91",
   "status": "proved",
   "theorems": [
    "C91_pictures",
    "C91_thickest",
    "C91_thin",
    "C91_visible_refuted"
   ],
   "note": "Real arithmetic; the voxel of a point is a parameter, the grid a set of voxels (C25 is about the grid). Trajectories drawn over the picture are left out."
  },
  {
   "property": "C92",
   "status": "proved",
   "theorems": [
    "C92_window",
    "C92_rate",
    "C92_periodic",
    "C92_statistics",
    "C92_deviation",
    "C92_empty",
    "C92_numbers_refuted"
   ],
   "note": "Real arithmetic; the clock is the sequence of wall times."
  },
  {
   "property": "C93",
   "status": "proved",
   "theorems": [
    "C93_histogram",
    "C93_other",
    "C93_float_refuted"
   ],
   "note": "Real arithmetic for the counts, binary32 for the refutation. The mean and the formatting are left out."
  },
  {
   "property": "C94",
   "status": "proved",
   "theorems": [
    "C94_received",
    "C94_complete",
    "C94_recovery",
    "C94_recovery_3d",
    "C94_trajectories_refuted",
    "C94_lost_refuted",
    "C94_gap_refuted",
    "C94_single",
    "C94_uploader_refuted"
   ],
   "note": "The sender runs the active submaps of C23; contents, poses and grids are arbitrary. The uploader's translation of trajectory numbers is not part of it, except in C94_uploader_refuted, which joins it with the uploader of C50."
  },
  {
   "property": "C95",
   "status": "proved",
   "theorems": [
    "C95_checks",
    "C95_powers",
    "C95_infinite",
    "C95_ends_refuted",
    "C95_widths",
    "C95_negative",
    "C95_multiples_refuted"
   ],
   "note": "Doubles are those of the standard library's SpecFloat; real values and roundings from Flocq."
  }
 ]
}