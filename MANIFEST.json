{
 "claims": [
  {
   "property": "C01",
   "status": "proved",
   "theorems": [
    "C01_matching_one_to_one",
    "C06_two_phases"
   ],
   "note": "C06_two_phases carries it to both association phases of update(); any size, any storage format, any threshold; partial correctness (termination is C03)"
  },
  {
   "property": "C02",
   "status": "proved",
   "theorems": [
    "C02_matching_stable"
   ],
   "note": ""
  },
  {
   "property": "C03",
   "status": "partial",
   "theorems": [
    "C03_matching_terminates",
    "C03_matching_terminates_float32",
    "C03_matching_diverges_iff",
    "C03_refuted_large_threshold"
   ],
   "note": "proved for exact storage and, with the float32 matrix the code uses, for |threshold| <= 2^24; refuted for larger thresholds such as 33554433 (the loop never ends); divergence characterised exactly"
  },
  {
   "property": "C04",
   "status": "proved",
   "theorems": [
    "C04_stable_matching_unique",
    "C04_matching_order_independent"
   ],
   "note": ""
  },
  {
   "property": "C05",
   "status": "proved",
   "theorems": [
    "C05_detections_accounted"
   ],
   "note": ""
  },
  {
   "property": "C06",
   "status": "proved",
   "theorems": [
    "C06_two_phases",
    "C06_initialized_served_first"
   ],
   "note": ""
  },
  {
   "property": "C07",
   "status": "proved",
   "theorems": [
    "C07_labels_match",
    "C07_labels_never_mix"
   ],
   "note": ""
  },
  {
   "property": "C09",
   "status": "proved",
   "theorems": [
    "C09_ids_unique",
    "C09_ids_never_reused"
   ],
   "note": "all histories, also through exceptions"
  },
  {
   "property": "C10",
   "status": "partial",
   "theorems": [
    "C10_global_ids_unique_partial",
    "C10_threads_ids",
    "C10_threads_range",
    "C10_threads_locked",
    "C10_threads_refuted",
    "C10_same_tracker_refuted"
   ],
   "note": "proved for every interleaving of whole update() calls; refuted when trackers run in threads (get_ids is not atomic), where even two objects of one tracker can share a global id; for threads it is proved that ids stay consecutive, that global ids are in range, and that they are unique if get_ids calls do not overlap"
  },
  {
   "property": "C11",
   "status": "proved",
   "theorems": [
    "C11_ids_none_iff_initializing",
    "C11_identity_stable"
   ],
   "note": ""
  },
  {
   "property": "C12",
   "status": "partial",
   "theorems": [
    "C12_total_object_count",
    "C12_total_count_returned_partial",
    "C12_total_count_law",
    "C12_total_count_reid_refuted"
   ],
   "note": "the last part (number of objects ever returned) is proved without re-identification and refuted with it: an object initialized and merged in the same call uses up an id and is never returned; the law counts these exactly"
  },
  {
   "property": "C13",
   "status": "proved",
   "theorems": [
    "C13_update_returns_active"
   ],
   "note": ""
  },
  {
   "property": "C14",
   "status": "proved",
   "theorems": [
    "C14_hit_counter_law"
   ],
   "note": ""
  },
  {
   "property": "C15",
   "status": "partial",
   "theorems": [
    "C15_hit_counter_bounded_partial",
    "C15_created",
    "C15_hit_counter_law",
    "C15_capped_after_match",
    "C15_small_periods",
    "C15_hit_counter_max_refuted"
   ],
   "note": "refuted as stated (a new object starts with the period, a merged one with twice its first period); proved: the exact counter over all calls, the bound from the first match on, and the claim itself when periods are at most hit_counter_max (half of it with re-identification)"
  },
  {
   "property": "C16",
   "status": "proved",
   "theorems": [
    "C16_lost_object_returned"
   ],
   "note": ""
  },
  {
   "property": "C17",
   "status": "proved",
   "theorems": [
    "C17_initialization_delay_exact"
   ],
   "note": ""
  },
  {
   "property": "C18",
   "status": "proved",
   "theorems": [
    "C18_matched_always_returned",
    "C18_returned_takes_part",
    "C18_reid_drops_matched_object_refuted"
   ],
   "note": "the refutation is about the neighbouring claim that a detection at the place of a live object is matched to it: with reid_hit_counter_max the countdown is not reset by a match"
  },
  {
   "property": "C19",
   "status": "proved",
   "theorems": [
    "C19_skipped_frames",
    "C19_skipped_frames_reid",
    "C19_reid_refuted"
   ],
   "note": "that hit_counter_max = p - 1 suffices with reid_hit_counter_max is refuted by C19_reid_refuted"
  },
  {
   "property": "C20",
   "status": "proved",
   "theorems": [
    "C20_age_counts_calls"
   ],
   "note": ""
  },
  {
   "property": "C21",
   "status": "proved",
   "theorems": [
    "C21_dead_object_kept",
    "C21_dropped_for_good"
   ],
   "note": ""
  },
  {
   "property": "C22",
   "status": "proved",
   "theorems": [
    "C22_merges_keep_identity"
   ],
   "note": ""
  },
  {
   "property": "C23",
   "status": "proved",
   "theorems": [
    "C23_past_detections_bounded",
    "C23_past_detections_matched",
    "C23_past_detections_ages"
   ],
   "note": ""
  },
  {
   "property": "C24",
   "status": "partial",
   "theorems": [
    "C24_point_counter_law",
    "C24_point_counters_bounded",
    "C24_point_forgotten",
    "C24_seen_point_live_partial",
    "C24_seen_point_live_refuted"
   ],
   "note": "first two parts proved; the last one refuted (negative counters after missed calls), proved for counters >= 0"
  },
  {
   "property": "C27",
   "status": "proved",
   "theorems": [
    "C27_nan_raises",
    "C27_nan_raises_vectorized",
    "C27_returned_no_nan",
    "C27_returned_no_nan_initializing",
    "C27_ids_after_any_call"
   ],
   "note": ""
  },
  {
   "property": "C28",
   "status": "proved",
   "theorems": [
    "C28_no_detections",
    "C28_step"
   ],
   "note": ""
  },
  {
   "property": "C30",
   "status": "proved",
   "theorems": [
    "C30_constructor_validation"
   ],
   "note": ""
  },
  {
   "property": "C31",
   "status": "partial",
   "theorems": [
    "C31_none_is_empty_partial",
    "C31_none_refuted"
   ],
   "note": "refuted with coord_transformations (TypeError), proved without"
  },
  {
   "property": "C45",
   "status": "proved",
   "theorems": [
    "C45_latest_transformation"
   ],
   "note": ""
  },
  {
   "property": "C08",
   "status": "partial",
   "theorems": [
    "C08_vectorized_agrees_partial",
    "C08_scalar_matrix",
    "C08_vectorized_law",
    "C08_printed_alike",
    "C08_vectorized_agrees_refuted"
   ],
   "note": "Proved when the labels in play are all strings or all integers.  Refuted for labels of mixed types, because the vectorized distance compares str(label); the law gives the matrix for all labels."
  },
  {
   "property": "C25",
   "status": "partial",
   "theorems": [
    "C25_unseen_points_ignored_partial",
    "C25_unseen_points_law",
    "C25_unseen_points_ignored_refuted",
    "C25_filters_nofilter",
    "C25_filters_optimized",
    "C25_filters_filterpy"
   ],
   "note": "False in general: first_detection_mask mixes np.tile with np.repeat (see _refuted). The partial theorem holds for every history, filter and mask without that interference (dimension 1, all points detected before, or all detected now); the law says coordinate by coordinate what happens for every mask."
  },
  {
   "property": "C26",
   "status": "partial",
   "theorems": [
    "C26_first_detection_partial",
    "C26_estimate_law",
    "C26_first_detection_refuted"
   ],
   "note": "Same defect. Velocity part proved in general; position part proved when the points (k*dim+j) mod n are detected. C26_estimate_law gives the estimates after every history for every mask."
  },
  {
   "property": "C32",
   "status": "partial",
   "theorems": [
    "C32_optimized_is_kalman_partial",
    "C32_optimized_is_lagging",
    "C32_optimized_is_kalman_refuted"
   ],
   "note": "Proved for any number of frames that each predict and correct, any masks and dimensions. Refuted for frames without a correction: predict() does not advance the covariance. C32_optimized_is_lagging is the exact law for predictions and corrections in any order."
  },
  {
   "property": "C33",
   "status": "partial",
   "theorems": [
    "C33_variances_positive_partial",
    "C33_variances_nonnegative",
    "C33_filterpy",
    "C33_variances_positive_refuted"
   ],
   "note": "Proved for positive definite starts (includes the defaults), weak version for semidefinite starts; strict version refuted for a singular start. C33_filterpy: the same for FilterPyKalmanFilter."
  },
  {
   "property": "C34",
   "status": "proved",
   "theorems": [
    "C34_between",
    "C34_filterpy"
   ],
   "note": "All sequences of predict and masked update, over the reals, positive definite start."
  },
  {
   "property": "C35",
   "status": "proved",
   "theorems": [
    "C35_static_object",
    "C25_filters_nofilter",
    "C25_filters_optimized",
    "C25_filters_filterpy"
   ],
   "note": "Generic in the filter; the three filters of norfair satisfy its hypotheses. No re-identification."
  },
  {
   "property": "C36",
   "status": "proved",
   "theorems": [
    "C36_translation_and_independence",
    "C36_filterpy"
   ],
   "note": "Independence is the case t = 0."
  },
  {
   "property": "C37",
   "status": "proved",
   "theorems": [
    "C37_nofilter_last_seen"
   ],
   "note": "All histories without re-identification, for numbers with the laws of a ring."
  },
  {
   "property": "C38",
   "status": "proved",
   "theorems": [
    "C38_round_trip",
    "C38_direction"
   ],
   "note": "For numbers with the laws of a ring (exact arithmetic)."
  },
  {
   "property": "C39",
   "status": "proved",
   "theorems": [
    "C39_round_trip",
    "C39_round_trip_back",
    "C39_direction",
    "C39_horizon",
    "C39_singular"
   ],
   "note": "Over the real numbers."
  },
  {
   "property": "C40",
   "status": "proved",
   "theorems": [
    "C40_translation"
   ],
   "note": "No failures on the way; OpenCV is arbitrary up to the stated hypothesis."
  },
  {
   "property": "C41",
   "status": "partial",
   "theorems": [
    "C41_homography_partial",
    "C41_low_points",
    "C41_stretches",
    "C41_refuted"
   ],
   "note": "proved when four points always survive, and between frames with too few points; refuted across them (the motion since the reference image is lost); the exact law for all videos is C41_low_points"
  },
  {
   "property": "C42",
   "status": "partial",
   "theorems": [
    "C42_contained",
    "C42_getter_fails",
    "C42_flow_fails_partial",
    "C42_flow_fails_law",
    "C42_refuted"
   ],
   "note": "containment and failures of any getter are proved; flow failures are proved for translations and refuted for homographies (a stale transformation is returned instead of None); the law says which one and what is kept"
  },
  {
   "property": "C43",
   "status": "partial",
   "theorems": [
    "C43_absolute_points",
    "C43_new_detections_partial",
    "C43_no_transformation",
    "C43_refuted",
    "C43_refuted_twice"
   ],
   "note": "exact law for every call proved; the claim follows for new detections listed once and is refuted for reused ones"
  },
  {
   "property": "C46",
   "status": "proved",
   "theorems": [
    "C46_frobenius",
    "C46_mean_euclidean",
    "C46_mean_manhattan",
    "C46_not_for_objects"
   ],
   "note": "Over the real numbers."
  },
  {
   "property": "C47",
   "status": "proved",
   "theorems": [
    "C47_pairwise",
    "C47_iou",
    "C47_value",
    "C47_degenerate"
   ],
   "note": "Over the real numbers; two empty boxes give NaN."
  },
  {
   "property": "C48",
   "status": "proved",
   "theorems": [
    "C48_keypoints_voting",
    "C48_monotone",
    "C48_no_scores"
   ],
   "note": ""
  },
  {
   "property": "C49",
   "status": "partial",
   "theorems": [
    "C49_normalized_partial",
    "C49_refuted"
   ],
   "note": "the bound is sqrt 2, not 1: refuted; everything else proved"
  },
  {
   "property": "C50",
   "status": "proved",
   "theorems": [
    "C50_by_name",
    "C50_constructor"
   ],
   "note": ""
  },
  {
   "property": "C29",
   "status": "proved",
   "theorems": [
    "C29_trackers_do_not_interfere",
    "C29_global_id_depends"
   ],
   "note": "distances must not look at the global_id of the object"
  },
  {
   "property": "C44",
   "status": "proved",
   "theorems": [
    "C44_translating_camera",
    "C44_builtin_distances"
   ],
   "note": "exact in ring arithmetic; floating point rounding is not covered. C44_builtin_distances shows which built-in distances qualify"
  },
  {
   "property": "C51",
   "status": "proved",
   "theorems": [
    "C51_matching_is_greedy",
    "C51_greedy_unique"
   ],
   "note": ""
  },
  {
   "property": "C52",
   "status": "proved",
   "theorems": [
    "C52_distances_remembered"
   ],
   "note": "with a reid_distance_function the law for current_min_distance covers the objects matched in the first step and the initializing objects"
  },
  {
   "property": "C53",
   "status": "proved",
   "theorems": [
    "C53_past_detections_law"
   ],
   "note": "no reid_distance_function; detections of the call are distinct and not already held by the object"
  },
  {
   "property": "C54",
   "status": "proved",
   "theorems": [
    "C54_new_object_state",
    "C54_filters_start_at_rest"
   ],
   "note": ""
  },
  {
   "property": "C55",
   "status": "proved",
   "theorems": [
    "C55_estimate_is_replay",
    "C55_filters",
    "C55_filters_filterpy"
   ],
   "note": "no re-identification, all points of the first detection above the threshold (otherwise C26 applies)"
  },
  {
   "property": "C56",
   "status": "proved",
   "theorems": [
    "C56_reidentification_step"
   ],
   "note": ""
  },
  {
   "property": "C57",
   "status": "proved",
   "theorems": [
    "C57_stabilized_frames",
    "C57_fading",
    "C57_in_place",
    "C57_in_place_x",
    "C57_negative",
    "C57_warning"
   ],
   "note": "translations with two components; exact arithmetic for the fading factor"
  },
  {
   "property": "C58",
   "status": "proved",
   "theorems": [
    "C58_cutout",
    "C58_refuted"
   ],
   "note": "the statement for negative coordinates is C58_refuted"
  },
  {
   "property": "C59",
   "status": "proved",
   "theorems": [
    "C59_search",
    "C59_not_found",
    "C59_numbers",
    "C59_refuted"
   ],
   "note": "the collision of keys is C59_refuted"
  },
  {
   "property": "C60",
   "status": "proved",
   "theorems": [
    "C60_predictions_file"
   ],
   "note": ""
  },
  {
   "property": "C61",
   "status": "proved",
   "theorems": [
    "C61_detection_file",
    "C61_short_file"
   ],
   "note": "np.loadtxt is modelled without comments and white space"
  },
  {
   "property": "C62",
   "status": "proved",
   "theorems": [
    "C62_round_trip",
    "C62_round_trip_float32"
   ],
   "note": ""
  },
  {
   "property": "C63",
   "status": "proved",
   "theorems": [
    "C63_accumulators",
    "C63_refuted_extra_update",
    "C63_refuted_single_box",
    "C63_refuted_same_name",
    "C63_not_created",
    "C63_failed_create",
    "C63_failed_later"
   ],
   "note": "up to the data frames handed to motmetrics"
  },
  {
   "property": "C64",
   "status": "proved",
   "theorems": [
    "C64_hex_colors",
    "C64_refuted_uppercase"
   ],
   "note": "the rejected documented form is C64_refuted_uppercase"
  },
  {
   "property": "C65",
   "status": "proved",
   "theorems": [
    "C65_color_strings",
    "C65_color_names"
   ],
   "note": "attributes every Python class has are left out"
  },
  {
   "property": "C66",
   "status": "proved",
   "theorems": [
    "C66_set_by_name",
    "C66_set_list",
    "C66_failed_set",
    "C66_choose",
    "C66_distinct_ids"
   ],
   "note": ""
  },
  {
   "property": "C67",
   "status": "proved",
   "theorems": [
    "C67_text"
   ],
   "note": "the text of the scores is a parameter"
  },
  {
   "property": "C68",
   "status": "proved",
   "theorems": [
    "C68_draw_points",
    "C68_frame_size",
    "C68_total",
    "C68_dead_object",
    "C68_objects",
    "C68_detections",
    "C68_colors",
    "C68_refuted"
   ],
   "note": "up to the calls of OpenCV"
  },
  {
   "property": "C69",
   "status": "proved",
   "theorems": [
    "C69_draw_boxes",
    "C69_total",
    "C69_refuted"
   ],
   "note": "up to the calls of OpenCV"
  },
  {
   "property": "C70",
   "status": "proved",
   "theorems": [
    "C70_grid"
   ],
   "note": "the grid itself (tangents) is a parameter"
  },
  {
   "property": "C71",
   "status": "proved",
   "theorems": [
    "C71_remembered",
    "C71_drawn",
    "C71_fades",
    "C71_weights",
    "C71_refuted"
   ],
   "note": "up to the calls of OpenCV"
  },
  {
   "property": "C72",
   "status": "proved",
   "theorems": [
    "C72_paths",
    "C72_untouched",
    "C72_frame"
   ],
   "note": "the pixels of a circle are a parameter; exact arithmetic for the fading factor"
  },
  {
   "property": "C73",
   "status": "proved",
   "theorems": [
    "C73_constructor"
   ],
   "note": ""
  },
  {
   "property": "C74",
   "status": "proved",
   "theorems": [
    "C74_frames",
    "C74_iterator",
    "C74_still_clock"
   ],
   "note": "the frame rate shown is a division by the time since the start of the iteration"
  },
  {
   "property": "C75",
   "status": "proved",
   "theorems": [
    "C75_written",
    "C75_loop",
    "C75_saved",
    "C75_left_open",
    "C75_refuted_late"
   ],
   "note": "up to the calls of OpenCV; codecs of four characters"
  },
  {
   "property": "C76",
   "status": "proved",
   "theorems": [
    "C76_given",
    "C76_in_folder",
    "C76_splits",
    "C76_never_input",
    "C76_same_output",
    "C76_refuted_files",
    "C76_refuted_cameras",
    "C76_refuted_overwrite"
   ],
   "note": "the collisions and the overwritten input are the _refuted theorems"
  },
  {
   "property": "C77",
   "status": "proved",
   "theorems": [
    "C77_codec",
    "C77_write_fails"
   ],
   "note": ""
  },
  {
   "property": "C78",
   "status": "proved",
   "theorems": [
    "C78_fits",
    "C78_bar",
    "C78_refuted_narrow",
    "C78_terminal"
   ],
   "note": "the narrow terminal is C78_refuted_narrow"
  },
  {
   "property": "C79",
   "status": "proved",
   "theorems": [
    "C79_frames",
    "C79_video",
    "C79_refuted_rate"
   ],
   "note": "up to the calls of OpenCV; the error of cv2.VideoWriter for a rate that is no number is modelled as TypeError"
  },
  {
   "property": "C80",
   "status": "proved",
   "theorems": [
    "C80_show"
   ],
   "note": "up to the calls of OpenCV; the error of cv2.resize for sizes that are not ints is modelled as TypeError"
  },
  {
   "property": "C81",
   "status": "proved",
   "theorems": [
    "C81_rows",
    "C81_refuted_new"
   ],
   "note": "the text of a distance is a parameter"
  },
  {
   "property": "C82",
   "status": "proved",
   "theorems": [
    "C82_warnings"
   ],
   "note": ""
  },
  {
   "property": "C83",
   "status": "proved",
   "theorems": [
    "C83_grid"
   ],
   "note": "exact real arithmetic; frame sizes are not negative"
  },
  {
   "property": "C84",
   "status": "proved",
   "theorems": [
    "C84_classes",
    "C84_refuted"
   ],
   "note": "labels with the same str under a vectorized distance are C84_refuted"
  },
  {
   "property": "C85",
   "status": "proved",
   "theorems": [
    "C85_optimized_learns",
    "C85_filterpy_learns",
    "C85_optimized_within",
    "C85_filterpy_within",
    "C85_optimized_filter",
    "C85_filterpy_filter"
   ],
   "note": "also proved: the predicted position is at most K' |v| away"
  },
  {
   "property": "C86",
   "status": "proved",
   "theorems": [
    "C86_calls_return",
    "C86_filters",
    "C86_builtin_distances",
    "C86_iou_refuted"
   ],
   "note": "detections None together with a coordinate transformation raise TypeError and are not well formed; the error with iou is C86_iou_refuted"
  },
  {
   "property": "C87",
   "status": "proved",
   "theorems": [
    "C87_right_association",
    "C87_no_identity_switch"
   ],
   "note": ""
  },
  {
   "property": "C88",
   "status": "proved",
   "theorems": [
    "C88_optimized",
    "C88_filterpy",
    "C88_nofilter",
    "C88_optimized_estimates",
    "C88_filterpy_estimates",
    "C88_defaults"
   ],
   "note": "K is any number whose square is at least the prediction constant of the filter; this is sufficient, not necessary"
  },
  {
   "property": "C89",
   "status": "proved",
   "theorems": [
    "C89_tracked_objects",
    "C89_id_size_ignored_refuted",
    "C89_tracked_boxes",
    "C89_as_draw_points",
    "C89_as_draw_boxes"
   ],
   "note": "that id_size sets the size of the ids is refuted by C89_id_size_ignored_refuted"
  },
  {
   "property": "C90",
   "status": "proved",
   "theorems": [
    "C90_objects_held",
    "C90_objects_returned",
    "C90_memory_bounded"
   ],
   "note": "the bounds are reached (C90_reached)"
  },
  {
   "property": "C91",
   "status": "proved",
   "theorems": [
    "C91_optimized",
    "C91_filterpy",
    "C91_nofilter",
    "C91_fades",
    "C91_optimized_scenes",
    "C91_filterpy_scenes",
    "C91_nofilter_scenes"
   ],
   "note": "the bound of the Kalman filters is explicit but generous"
  },
  {
   "property": "C92",
   "status": "proved",
   "theorems": [
    "C92_order",
    "C92_distances",
    "C92_refuted"
   ],
   "note": "The positive theorem for every filter, any number type and any distance computed pair by pair; C92_distances: the named distances other than scipy's are; C92_refuted: with equal distances the order decides."
  },
  {
   "property": "C93",
   "status": "proved",
   "theorems": [
    "C93_units",
    "C93_filters",
    "C93_filterpy",
    "C93_translation",
    "C93_zoom",
    "C93_voting",
    "C93_iou",
    "C93_normalized",
    "C93_exchange_refuted"
   ],
   "note": "The change of unit of the distances must commute with tc_rnd, the rounding of the distance matrix (the identity in the concrete theorems); with re-identification, detections with the same label must have the same number of points. That x and y can be exchanged is refuted by C93_exchange_refuted."
  },
  {
   "property": "C94",
   "status": "proved",
   "theorems": [
    "C94_snapshot",
    "C94_writes",
    "C94_rank",
    "C94_dims",
    "C94_seen",
    "C94_refuted_reuse"
   ],
   "note": "arrays that are views of a whole block of memory; that a detection keeps its points is refuted by C94_refuted_reuse"
  },
  {
   "property": "C95",
   "status": "proved",
   "theorems": [
    "C95_report",
    "C95_compare",
    "C95_succeeds",
    "C95_saved",
    "C95_missing",
    "C95_refuted_save"
   ],
   "note": "motmetrics is a parameter; that a failed save leaves the file alone is refuted by C95_refuted_save"
  },
  {
   "property": "C96",
   "status": "proved",
   "theorems": [
    "C96_nofilter",
    "C96_filterpy",
    "C96_optimized",
    "C96_optimized_gaps_refuted"
   ],
   "note": "that the optimized filter has a constant for all gaps is refuted by C96_optimized_gaps_refuted"
  },
  {
   "property": "C97",
   "status": "proved",
   "theorems": [
    "C97_nofilter",
    "C97_filterpy",
    "C97_optimized",
    "C97_defaults"
   ],
   "note": "for the optimized filter things must be detected in every call between their appearing and leaving (compare C96_optimized_gaps_refuted)"
  },
  {
   "property": "C98",
   "status": "proved",
   "theorems": [
    "C98_right_return",
    "C98_no_identity_switch",
    "C98_embeddings",
    "C98_comes_back",
    "C98_no_delay_refuted"
   ],
   "note": "that a thing gets its object back whatever the initialization_delay is refuted by C98_no_delay_refuted"
  },
  {
   "property": "C99",
   "status": "proved",
   "theorems": [
    "C99_parameters",
    "C99_builtin",
    "C99_past_refuted"
   ],
   "note": "a vectorized distance gets the labels as they are, so for it the names must be the same; that past_detections_length never matters is refuted by C99_past_refuted"
  },
  {
   "property": "C100",
   "status": "proved",
   "theorems": [
    "C100_order",
    "C100_increasing",
    "C100_vectorized",
    "C100_builtin",
    "C100_squared",
    "C100_float32_refuted"
   ],
   "note": "threshold + 1 must not be below the threshold (can_stop); that the order of the exact distances suffices is refuted by C100_float32_refuted"
  },
  {
   "property": "C101",
   "status": "proved",
   "theorems": [
    "C101_nearest",
    "C101_closest",
    "C101_exact",
    "C101_order",
    "C101_remembered",
    "C101_strict_refuted"
   ],
   "note": "distances that are float64 numbers are a special case of the rationals; that different distances stay different is refuted by C101_strict_refuted"
  },
  {
   "property": "C102",
   "status": "proved",
   "theorems": [
    "C102_translation",
    "C102_translation_fails",
    "C102_homography",
    "C102_homography_low",
    "C102_homography_fails"
   ],
   "note": "the fit of OpenCV and the rounding to bins are parameters"
  },
  {
   "property": "C103",
   "status": "proved",
   "theorems": [
    "C103_optimized",
    "C103_filterpy",
    "C103_default_optimized",
    "C103_default_filterpy"
   ],
   "note": "exact real arithmetic"
  },
  {
   "property": "C104",
   "status": "proved",
   "theorems": [
    "C104_groups",
    "C104_near_refuted"
   ],
   "note": "without re-identification; that groups which come near each other do not interact is refuted by C104_near_refuted"
  },
  {
   "property": "C105",
   "status": "proved",
   "theorems": [
    "C105_at_least_half",
    "C105_update_at_least_half",
    "C105_half_is_reached",
    "C105_no_competition",
    "C105_total_refuted",
    "C105_larger_threshold",
    "C105_update_larger_threshold",
    "C105_second_step_refuted"
   ],
   "note": "that the total distance is minimal is refuted by C105_total_refuted, that a larger threshold keeps the pairs of the second step by C105_second_step_refuted"
  },
  {
   "property": "C106",
   "status": "proved",
   "theorems": [
    "C106_errors",
    "C106_errors_rational",
    "C106_decisions",
    "C106_same_distances",
    "C106_float32",
    "C106_tie_refuted"
   ],
   "note": "that the distances stay within eps is a hypothesis on filters and distance functions (filters_follow, nearly_alike); without a margin the claim is refuted by C106_tie_refuted"
  },
  {
   "property": "C107",
   "status": "proved",
   "theorems": [
    "C107_predictions_file",
    "C107_accumulators",
    "C107_gaps_refuted"
   ],
   "note": "consecutive frames only without re-identification (C107_gaps_refuted); a sequence with exactly one box in total cannot be evaluated (C63)"
  },
  {
   "property": "C108",
   "status": "proved",
   "theorems": [
    "C108_estimates",
    "C108_arrows",
    "C108_untouched",
    "C108_same_array_refuted",
    "C108_blue_refuted"
   ],
   "note": "that arrays may be passed twice is refuted by C108_same_array_refuted, the documented default colour by C108_blue_refuted"
  },
  {
   "property": "C109",
   "status": "proved",
   "theorems": [
    "C109_text_shows",
    "C109_fields",
    "C109_texts_differ",
    "C109_two_trackers_refuted"
   ],
   "note": "the format of the distance is a parameter whose texts contain no comma; for objects of different trackers refuted by C109_two_trackers_refuted"
  },
  {
   "property": "C110",
   "status": "proved",
   "theorems": [
    "C110_triangle",
    "C110_malformed",
    "C110_warning",
    "C110_columns",
    "C110_silent_refuted"
   ],
   "note": "over the real numbers; that a NaN is always preceded by a warning is refuted by C110_silent_refuted"
  },
  {
   "property": "C111",
   "status": "proved",
   "theorems": [
    "C111_order",
    "C111_points_and_axes",
    "C111_translation",
    "C111_filters",
    "C111_filterpy",
    "C111_frobenius_manhattan",
    "C111_mean_euclidean",
    "C111_iou",
    "C111_scores_refuted"
   ],
   "note": "the named distances over the real numbers and without re-identification; with scores refuted by C111_scores_refuted"
  },
  {
   "property": "C112",
   "status": "proved",
   "theorems": [
    "C112_cached",
    "C112_kept",
    "C112_in_place_refuted"
   ],
   "note": "that transformations may work in place is refuted by C112_in_place_refuted; that those of the library return new arrays is read off the code"
  },
  {
   "property": "C113",
   "status": "proved",
   "theorems": [
    "C113_two_cameras",
    "C113_filmed",
    "C113_homography",
    "C113_in_image_refuted"
   ],
   "note": "scalar distances; C113_homography over the real numbers; for distances of relative coordinates refuted by C113_in_image_refuted (for translations see C44)"
  },
  {
   "property": "C114",
   "status": "proved",
   "theorems": [
    "C114_drawn",
    "C114_no_palette",
    "C114_warning",
    "C114_moving_refuted"
   ],
   "note": "exact arithmetic for means, radius and thickness; the pixels of a circle are a parameter; that still objects leave no path is refuted for moving cameras by C114_moving_refuted"
  },
  {
   "property": "C115",
   "status": "proved",
   "theorems": [
    "C115_given",
    "C115_first",
    "C115_in_place_refuted"
   ],
   "note": "colors, radius and thickness left out; that the given array is either left alone or returned is refuted by C115_in_place_refuted"
  }
 ]
}