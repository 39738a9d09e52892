# Formal model of tryolabs/norfair in Rocq (Coq 8.16.1)

The code is read as text from `/repo` and never run. Everything below is about the model in
`/verif/rocq/theories`; the only link to the code is the reading recorded in the comment above each
definition (file and lines).

## 1. Shape of the model

* `Model/*.v` – executable definitions only, no proofs. One Gallina function per Python function,
  branch by branch; exceptions are values (`exn`), and a Python call that raises still returns the
  mutated state, so that crash points can be quantified over.
* `Spec/*.v` – small, self-contained specifications, written without the model's helpers.
* `Proofs/*.v` – lemmas.
* `Props/*.v` – the property theorems, each closed by `exact lemma`, with an `Example` showing that
  its hypotheses are met by a concrete case, and `Print Assumptions`.

### Numbers
Python/numpy floats are not modelled bit by bit. All numeric code is written once over a record `Num`
of operations (`Model/Num.v`) with instances: `QNum` (rationals, used to *run* the model with
`vm_compute` in examples and refutations), `RNum` (Coq's real numbers, used for the numeric
theorems); `QcNum` (canonical rationals) is a third one for examples that need Leibniz equality.
Tracker theorems are stated for any `Num` with the laws they need (`NumLaws`, an order; `ring_num`, a
ring). Rounding of 64 bit floats is therefore outside the model (exact arithmetic). Distances are
extended numbers `dval` with NaN, -inf, +inf, because the code branches on them. The *storage* of a
distance in a float32 matrix is modelled by an explicit rounding function `rnd` (parameter; identity
for exact runs, `round32` of `Model/Float32.v` for IEEE binary32 round-to-nearest-even), because
termination of the matching loop depends on it.

### State and aliasing
`Detection` objects are mutable and shared, so they live in a heap (`nat -> detection`); tracked
objects live in a store per tracker (`nat -> tobj`), and `tracked_objects` is a list of references.
`_TrackedObjectFactory.global_count` is shared by all trackers. The user may create or overwrite any
detection between two calls (`OpDet`).

### User supplied code
Distance functions, re-id distance functions, filters (`FilterFactory`) and coordinate
transformations are user-extensible in norfair; they are arbitrary *total, pure, deterministic*
functions in the model (function-typed fields of the configuration), so the tracker theorems hold for
all of them. OpenCV calls (optical flow, findHomography) are oracles.

## 2. Trusted base
* Coq 8.16.1's kernel, including its virtual machine (`vm_compute` is used in examples and witnesses).
* Axioms of Coq's standard library, only those listed per theorem in section 6. No axioms of our own,
  no other library's (of the other libraries only Flocq is imported, for C101; it has no axioms and uses the standard library's `classic`), no kernel check switched off.
* The reading of the Python code, and of numpy, OpenCV, filterpy, pandas and `configparser`-like text
  handling as far as sections 3 and 4 say. The code was not run.
* `Props/*.v` state the properties with the words defined in `Spec/*.v`; both have to be read.

## 3. What is modelled
| file of /repo/norfair | modelled in | left out |
|---|---|---|
| `tracker.py` | `Model/Tracker.v`, `Matching.v`, `Threads.v`, `Repr.v` | docstrings, `data`/`embedding` (distances may depend on anything in the state) |
| `distances.py` | `Model/Tracker.v` (`ScalarDistance`, `VectorizedDistance`), `Distances.v`, `BoxCheck.v` (the warning about malformed boxes) | the functions inside `scipy.spatial.distance.cdist` (a parameter), other warnings |
| `filter.py` | `Model/Filter.v`, `KalmanMatrix.v` | the code of filterpy (its documented equations are modelled) |
| `camera_motion.py` | `Model/CameraMotion.v`, `FlowDrawing.v` (`draw_flow`) | OpenCV (parameters that may raise) |
| `metrics.py` | `Model/Metrics.v`, `Strings.v`, `Report.v` | motmetrics and pandas beyond the frames handed to them, the progress bar |
| `utils.py` | `Model/Images.v` (`get_cutout`), `Video.v`, `Arrays.v` (`validate_points`) | layout of the printed table; the dummy modules for missing imports, except that of motmetrics (`Report.v`) |
| `video.py` | `Model/Video.v` | the progress bar; OpenCV calls are recorded in order, not executed |
| `drawing/fixed_camera.py` | `Model/Images.v` | homographies (its use with them is not supported by the code either) |
| `drawing/color.py` | `Model/Color.v` | attributes that every Python class has |
| `drawing/draw_points.py`, `draw_boxes.py`, `drawer.py`, `path.py`, `utils.py`, `absolute_grid.py` | `Model/Drawing.v`, `PathsDrawing.v`, `PathsFrames.v`, `Grid.v`, `GridCache.v` | the pixels drawn by OpenCV: the calls are recorded in order |

## 4. Simplifications
Each is also noted at the definition.
* Arithmetic is exact, except for the float32 storage of the distance matrix and of the detection file.
* Where numpy would broadcast an array of length one against a longer one, the model raises.
* An array of shape (0, d) is the empty list, so its d is 0.
* Labels are None, ints or strings. Strings are 8 bit. `str.isdigit` knows only ASCII digits.
* numpy strips trailing NUL characters when labels become an array; the model does not.
* `merge` copies the counters, masks and filter instead of sharing them (the other object is dropped
  right after).
* Creating a filter does not raise. Distances may raise.
* Homographies act on points of two dimensions. `TranslationTransformationGetter` has `bin_size` not 0.
* `np.loadtxt` without comments and white space. Rows of the file are as many as its lines.
* The fading of the stabilized camera and of paths is computed in rationals and truncated to uint8.
* Colors given as tuples have three ints. The text of scores and distances, the pixels of a circle and
  the hash of strings are parameters.
* While a video runs the file system does not change. Errors of cv2.VideoWriter and cv2.resize for
  arguments of a wrong type are modelled as TypeError. `show` returns no key.
* The size of the absolute grid is not negative.
* Warnings and logging are not modelled except `warn_once` (C82), the warning about malformed boxes (C110), the warning about cropped frames (C57) and that of `Paths` (C114).

## 5. Findings
Claims a user would expect, or the documentation makes, that are false of the code as modelled. Each has
a theorem with a witness.
* C03 `C03_refuted_large_threshold`: distances are stored as float32 and the matched rows are overwritten
  with threshold + 1; for thresholds above 2^24 this can round back and the loop never ends.
* C08 `C08_vectorized_agrees_refuted`: vectorized distances compare `str(label)`, so the labels 1 and "1"
  are equal to them and different for scalar distances.
* C10 `C10_threads_refuted`: `get_ids` is not atomic; trackers in threads can share a global id.
  `C10_same_tracker_refuted`: a second thread can even lower the counter, so that two objects of the same tracker share one.
* C12 `C12_total_count_reid_refuted`: an object initialized and merged in the same call uses up an id and
  is never returned.
* C15 `C15_hit_counter_max_refuted`: a new object starts with the period and a merged one with twice its
  first period, which can exceed hit_counter_max.
* C18 `C18_reid_drops_matched_object_refuted`, C19 `C19_reid_refuted`: the re-identification countdown is not stopped by a match.
* C24 `C24_seen_point_live_refuted`: point counters go below zero, so a point just seen can be dead.
* C25, C26 `..._refuted`: `first_detection_mask` is built with `np.tile` where the other masks use
  `np.repeat`; with two or more coordinates the wrong coordinates are reset.
* C31 `C31_none_refuted`: `update(None, coord_transformations=T)` raises TypeError.
* C32 `C32_optimized_is_kalman_refuted`: `predict` of the optimized filter does not advance the covariance.
* C33 `C33_variances_positive_refuted`: a singular start gives a zero variance.
* C41 `C41_refuted`: a frame with fewer than four points replaces the reference frame without recording
  the motion since the old one.
* C42 `C42_refuted`: with homographies a failing optical flow returns an old transformation, not None
  (the one of the reference image, `C42_flow_fails_law`).
* C43 `C43_refuted`, `C43_refuted_twice`: transformations are applied to absolute_points, so a detection
  used twice is transformed twice.
* C46 `C46_not_for_objects`, C47 `C47_degenerate`: empty point lists and two empty boxes give NaN.
* C49 `C49_refuted`: the normalized distance goes up to sqrt 2, not 1.
* C58 `C58_refuted`: cut-outs with a negative coordinate are taken from the other side of the image.
* C59 `C59_refuted`: the key looked up may be the prefix of another one.
* C63 `C63_refuted_*`: an extra `update` shifts the following sequences, a sequence with a single box
  raises ValueError, folders of the same name overwrite each other.
* C64 `C64_refuted_uppercase`: "#FF0000", the form in the documentation, is rejected.
* C66: an empty palette raises ZeroDivisionError when a color is chosen.
* C68, C69 `..._refuted`: `drawables=None` returns None instead of the frame; `color_by_label=False` and
  `random_color=False` act like True.
* C89 `C89_id_size_ignored_refuted`, `C89_tracked_boxes`: `draw_tracked_objects` ignores id_size (label_size has
  a default and comes first); `draw_tracked_boxes` writes no ids unless id_size is given.
* C71 `C71_refuted`: `AbsolutePaths.draw` with its default `coord_transform=None` raises AttributeError.
* C74 `C74_iterator`: a frame read before the clock has moved is lost and ends the iteration with
  ZeroDivisionError.
* C75 `C75_refuted_late`, `C75_left_open`: frames written after the loop are lost; a loop left early does
  not close the output.
* C76 `C76_refuted_*`: "a.1.mp4" and "a.2.mp4" have the same output; all cameras have the same output
  (`"camera_{self.camera}_out"` lacks its `f`); an output_path equal to the input overwrites it.
* C78 `C78_refuted_narrow`: below 32 columns the abbreviated text is longer than the text.
* C79 `C79_refuted_rate`, C80: see the properties.
* C81 `C81_refuted_new`: the table cannot be printed while an object has never been matched.
* C84 `C84_refuted`: with a vectorized distance an object labelled "1" takes detections labelled 1.
* C86 `C86_iou_refuted`: the Kalman filter can predict a box with negative area from proper boxes; with
  "iou" the union can then be empty, the distance NaN, and `update` raises ValueError.
* C92 `C92_refuted`: where two distances are equal, the order of the detections decides which one an object
  gets.
* C93 `C93_exchange_refuted`: with points that are not detected, x and y are treated differently (the mask of
  newly seen points is tiled where it should be repeated, see C26): of two points, the first being
  detected makes the tracker take x, but not y, of the second from the detection.
* C94 `C94_refuted_reuse`: `Detection` keeps a reference to the array it is given, so filling one buffer again
  and again changes the `points` (used by the distances) of all detections made of it, while their
  `absolute_points` (used by the filters) stay. An array of rank 0 passes `validate_points` and makes the
  tracker raise IndexError.
* C95 `C95_refuted_save`: `save_metrics` before `compute_metrics` raises AttributeError after it has emptied
  the file. Without motmetrics the name `pd` is not defined (the fallback sets `pandas`), so
  `load_motchallenge` raises NameError instead of the ImportError with advice.
* C96 `C96_optimized_gaps_refuted`: `OptimizedKalmanFilter.predict` moves the position on but leaves the
  covariance alone (it is advanced by one step in `update`, however many predictions there were). With the
  default parameters and an exact measurement in every 64th call the predictions of a steady motion run away
  geometrically (a simulation suggests from every 27th call on); this needs `hit_counter_max` of at least 64.
  FilterPyKalmanFilter is not affected.
* C98 `C98_no_delay_refuted`: candidates for re-identification are only objects that are still initializing;
  with `initialization_delay=0` (or a period above the delay) there are none and nothing is ever re-identified.
* C99 `C99_past_refuted`: with a distance function that looks at `past_detections`, the bookkeeping parameter
  past_detections_length changes the tracking.
* C100 `C100_float32_refuted`, C101 `C101_strict_refuted`: distances are stored in float32, so different
  distances such as 2^24 and 2^24 + 1 become equal, and then the order of the rows decides.
* C104 `C104_near_refuted`: one detection near an object of another group is enough to change that group.
* C105 `C105_half_is_reached`, `C105_total_refuted`: the greedy matching can miss half of the possible pairs,
  and the total distance of its pairs can exceed the best one by any factor. `C105_second_step_refuted`: an
  initializing object can lose its detection when distance_threshold grows.
* C106 `C106_tie_refuted`: at a tie an error of a millionth decides which object gets the detection.
* C107 `C107_gaps_refuted`: with re-identification an id can be missing in the predictions file for some frames and come back.
* C108 `C108_same_array_refuted`: `draw_flow` paints on the caller's array, so passing an array twice changes the second estimate. `C108_blue_refuted`: `flow_color` is documented as "by default blue"; the default `[0, 0, 100]` is dark red in OpenCV's BGR order.
* C109 `C109_two_trackers_refuted`: objects of two trackers can print alike.
* C110 `C110_silent_refuted`: `iou` checks only the candidates; a malformed box of an object can give NaN without a warning (and `update` then raises).
* C111 `C111_scores_refuted`: with scores the order of the points matters: the estimate of a point that is not detected depends on its place in the list (the tiled mask of C26 again).
* C112 `C112_in_place_refuted`: the cache of the absolute grid hands out its own array; a transformation that works in place moves the grid of all later calls.
* C113 `C113_in_image_refuted`: the built-in distances measure in the image, so a camera that zooms in loses objects that a still camera keeps, though both know the absolute positions.
* C114 `C114_moving_refuted`: `Paths` draws relative positions on a mask that does not move; with a moving camera a still object leaves a path (the code warns about it).
* C115 `C115_in_place_refuted`: `AbsolutePaths.draw` paints circles into the array it is given until the first object with a history, and everything later into new arrays.

Smaller observations, seen while modelling and not stated as theorems: objects in `dead_objects` may still
be initializing; `current_min_distance` is updated only if the distance matrix has a nonzero entry; the
default initialization_delay is not validated; `FilterPyKalmanFilterFactory` multiplies the velocity block
of P although the documentation says position; `cvtColor` is outside the try block of the motion
estimator; the position of the text of an object without live points is NaN when dead points are drawn;
objects that are initializing share the history of the id None in `AbsolutePaths`; `VideoFromFrames`
without make_video raises AttributeError in `update`.

## 6. Axioms per theorem
From `Print Assumptions` (regenerate with `tools/axioms.py` in `rocq/`):

* none (closed under the global context)
  : C01_matching_one_to_one, C02_matching_stable, C03_matching_terminates, C03_matching_terminates_float32, C03_matching_diverges_iff, C03_refuted_large_threshold, C04_stable_matching_unique, C04_matching_order_independent, C05_detections_accounted, C06_two_phases, C06_initialized_served_first, C07_labels_match, C07_labels_never_mix, C08_vectorized_agrees_partial, C08_vectorized_law, C08_printed_alike, C08_scalar_matrix, C08_vectorized_agrees_refuted, C09_ids_unique, C09_ids_never_reused, C10_global_ids_unique_partial, C10_threads_refuted, C10_same_tracker_refuted, C10_threads_ids, C10_threads_range, C10_threads_locked, C11_ids_none_iff_initializing, C11_identity_stable, C12_total_object_count, C100_order, C100_float32_refuted, C101_strict_refuted, C104_groups, C104_near_refuted, C105_at_least_half, C105_update_at_least_half, C105_half_is_reached, C105_no_competition, C105_larger_threshold, C105_update_larger_threshold, C105_second_step_refuted, C106_errors_rational, C106_decisions, C106_same_distances, C106_float32, C106_tie_refuted, C107_predictions_file, C107_gaps_refuted, C107_accumulators, C108_estimates, C108_arrows, C108_untouched, C108_same_array_refuted, C108_blue_refuted, C109_text_shows, C109_fields, C109_texts_differ, C109_two_trackers_refuted, C111_order, C111_points_and_axes, C111_translation, C111_filters, C111_scores_refuted, C112_cached, C112_kept, C113_two_cameras, C113_filmed, C113_in_image_refuted, C114_drawn, C114_no_palette, C114_warning, C114_moving_refuted, C115_given, C115_first, C115_in_place_refuted, C12_total_count_returned_partial, C12_total_count_reid_refuted, C12_total_count_law, C13_update_returns_active, C14_hit_counter_law, C15_hit_counter_bounded_partial, C15_hit_counter_max_refuted, C15_created, C15_hit_counter_law, C15_capped_after_match, C15_small_periods, C16_lost_object_returned, C17_initialization_delay_exact, C18_matched_always_returned, C18_returned_takes_part, C18_reid_drops_matched_object_refuted, C19_skipped_frames, C19_skipped_frames_reid, C19_reid_refuted, C20_age_counts_calls, C21_dead_object_kept, C21_dropped_for_good, C22_merges_keep_identity, C23_past_detections_bounded, C23_past_detections_matched, C23_past_detections_ages, C24_point_counter_law, C24_point_counters_bounded, C24_point_forgotten, C24_seen_point_live_partial, C24_seen_point_live_refuted, C25_filters_nofilter, C25_filters_optimized, C25_unseen_points_ignored_partial, C26_first_detection_partial, C25_unseen_points_law, C26_estimate_law, C35_static_object, C37_nofilter_last_seen, C25_unseen_points_ignored_refuted, C26_first_detection_refuted, C27_nan_raises, C27_nan_raises_vectorized, C27_returned_no_nan, C27_returned_no_nan_initializing, C27_ids_after_any_call, C28_no_detections, C28_step, C30_constructor_validation, C31_none_is_empty_partial, C31_none_refuted, C45_latest_transformation, C29_trackers_do_not_interfere, C29_global_id_depends, C44_translating_camera, C38_round_trip, C38_direction, C40_translation, C42_contained, C42_getter_fails, C42_flow_fails_partial, C42_flow_fails_law, C42_refuted, C43_absolute_points, C43_new_detections_partial, C43_no_transformation, C43_refuted, C43_refuted_twice, C51_matching_is_greedy, C51_greedy_unique, C52_distances_remembered, C56_reidentification_step, C53_past_detections_law, C54_new_object_state, C55_estimate_is_replay, C55_filters, C57_stabilized_frames, C57_fading, C57_negative, C57_warning, C57_in_place, C57_in_place_x, C58_cutout, C58_refuted, C59_search, C59_not_found, C59_numbers, C59_refuted, C60_predictions_file, C61_detection_file, C61_short_file, C62_round_trip, C62_round_trip_float32, C63_accumulators, C63_refuted_extra_update, C63_refuted_single_box, C63_refuted_same_name, C63_not_created, C63_failed_create, C63_failed_later, C64_hex_colors, C64_refuted_uppercase, C65_color_strings, C65_color_names, C66_set_by_name, C66_set_list, C66_failed_set, C66_choose, C66_distinct_ids, C67_text, C68_draw_points, C68_frame_size, C68_total, C68_dead_object, C68_objects, C68_detections, C68_refuted, C68_colors, C69_draw_boxes, C69_total, C69_refuted, C70_grid, C71_remembered, C71_drawn, C71_fades, C71_weights, C71_refuted, C72_paths, C72_untouched, C72_frame, C73_constructor, C74_frames, C74_iterator, C74_still_clock, C75_written, C75_loop, C75_saved, C75_left_open, C75_refuted_late, C76_given, C76_in_folder, C76_splits, C76_never_input, C76_same_output, C76_refuted_files, C76_refuted_cameras, C76_refuted_overwrite, C77_codec, C77_write_fails, C78_fits, C78_bar, C78_refuted_narrow, C78_terminal, C79_frames, C79_video, C79_refuted_rate, C80_show, C81_rows, C81_refuted_new, C82_warnings, C84_classes, C84_refuted, C86_calls_return, C86_iou_refuted, C87_right_association, C87_no_identity_switch, C89_tracked_objects, C89_id_size_ignored_refuted, C89_tracked_boxes, C89_as_draw_points, C89_as_draw_boxes, C90_objects_held, C90_objects_returned, C90_memory_bounded, C92_order, C92_refuted, C93_units, C93_filters, C93_translation, C93_exchange_refuted, C94_snapshot, C94_writes, C94_rank, C94_dims, C94_seen, C94_refuted_reuse, C95_report, C95_succeeds, C95_compare, C95_saved, C95_missing, C95_refuted_save, C98_right_return, C98_no_identity_switch, C98_embeddings, C98_comes_back, C98_no_delay_refuted, C99_parameters, C99_past_refuted
* `ClassicalDedekindReals.sig_forall_dec`, `FunctionalExtensionality.functional_extensionality_dep`
  : C100_increasing, C100_vectorized, C102_translation, C102_translation_fails, C102_homography, C102_homography_low, C102_homography_fails, C103_optimized, C103_filterpy, C103_default_optimized, C103_default_filterpy, C105_total_refuted, C106_errors, C110_triangle, C110_malformed, C110_warning, C110_columns, C110_silent_refuted, C111_filterpy, C111_iou, C113_homography, C25_filters_filterpy, C32_optimized_is_kalman_partial, C32_optimized_is_kalman_refuted, C32_optimized_is_lagging, C33_variances_positive_partial, C33_variances_nonnegative, C33_variances_positive_refuted, C33_filterpy, C34_between, C34_filterpy, C36_translation_and_independence, C36_filterpy, C39_round_trip, C39_round_trip_back, C39_direction, C39_horizon, C39_singular, C41_homography_partial, C41_low_points, C41_stretches, C41_refuted, C46_mean_manhattan, C47_pairwise, C47_iou, C47_value, C47_degenerate, C54_filters_start_at_rest, C55_filters_filterpy, C85_optimized_within, C85_filterpy_within, C86_filters, C91_nofilter, C93_filterpy, C93_iou, C96_nofilter, C96_optimized_gaps_refuted
* `ClassicalDedekindReals.sig_forall_dec`, `ClassicalDedekindReals.sig_not_dec`, `FunctionalExtensionality.functional_extensionality_dep`
  : C100_builtin, C100_squared, C111_frobenius_manhattan, C111_mean_euclidean, C112_in_place_refuted, C44_builtin_distances, C46_frobenius, C46_mean_euclidean, C46_not_for_objects, C48_keypoints_voting, C48_monotone, C48_no_scores, C49_normalized_partial, C49_refuted, C50_by_name, C50_constructor, C83_grid, C85_optimized_learns, C85_filterpy_learns, C85_optimized_filter, C85_filterpy_filter, C86_builtin_distances, C88_optimized, C88_filterpy, C88_nofilter, C88_optimized_estimates, C88_filterpy_estimates, C88_defaults, C91_optimized, C91_filterpy, C91_fades, C91_optimized_scenes, C91_filterpy_scenes, C91_nofilter_scenes, C92_distances, C93_zoom, C93_voting, C93_normalized, C96_filterpy, C96_optimized, C97_nofilter, C97_filterpy, C97_optimized, C97_defaults, C99_builtin
* `ClassicalDedekindReals.sig_forall_dec`, `ClassicalDedekindReals.sig_not_dec`, `Classical_Prop.classic`, `FunctionalExtensionality.functional_extensionality_dep`
  : C101_nearest, C101_closest, C101_exact, C101_order, C101_remembered

## 7. Plan per property
| id | modelled | how proved |
|----|----------|------------|
| C01-C04 | `match_dets_and_objs` on matrices of extended numbers, loop with explicit fuel | loop invariant by induction on fuel; stability; uniqueness of stable matchings without ties; termination for exact arithmetic, refutation for float32 and large thresholds |
| C05-C06, C13, C14, C28 | `Tracker.update`, `_update_objects_in_place` | symbolic execution of one call over an arbitrary state |
| C07, C08 | `ScalarDistance`, `VectorizedDistance` with label grouping | pointwise characterisation of the matrix; invariant over histories |
| C09-C12 | id counters, multi-tracker world, plus a small-step model of `get_ids` for threads | invariant by induction over histories (with exceptions); refutation by a schedule |
| C15-C21 | counters and pruning | per-object transition law lifted over unbounded continuations |
| C22, C23 | `merge`, `past_detections` with heap of detections | invariant over histories |
| C24-C26 | point counters and masks of `hit` | induction over histories; refutation of the general claims (mask layout), proof of the cases that hold |
| C27 | exceptions as values with partially updated state | same invariants, all outcomes |
| C29, C44 | two runs of the world | relational induction (simulation) |
| C30, C31, C50 | constructor, argument handling, name tables | case analysis |
| C32-C37 | `OptimizedKalmanFilter`, `NoFilter`, textbook matrix filter | per-coordinate algebra over R, invariants over sequences |
| C38-C43, C45 | transformations, getters, `MotionEstimator` state machine with oracles | algebra over R, induction over frame sequences |
| C46-C49 | distances over R | inequalities over lists of reals |
| C51, C52, C56 | `match_dets_and_objs`, the phases of one call | the matching as an inductively defined greedy run, uniqueness |
| C53-C55 | `past_detections`, creation, the filter of an object | invariants over histories; the state as a replay of the matched detections |
| C57, C58, C72 | arrays of pixels, slices with numpy's clamping | pointwise characterisation of every pixel, induction over the frames |
| C59-C63 | text files as strings | inversion of printing and parsing, induction over lines and frames |
| C64-C67 | colors, palettes, texts | case analysis over strings |
| C68-C71 | drawing calls as a list | characterisation of the list for all objects; invariant over calls |
| C73-C80 | generators and writers of videos as state machines, paths as strings | invariant over all interleavings of next and write |
| C81-C83 | table rows, warnings, the grid over R | induction; trigonometry |
| C84 | two runs of the tracker, one with the detections of some classes | simulation: a one-to-one relation of objects kept by every step; greedy matching of a submatrix |
| C85 | the filter's error along a steady motion | a quadratic form of position and velocity error that never grows and whose decrease bounds the innovations; sums of squares; link to the tracker by C55 |
| C86 | every step of a call that can raise | an invariant (shapes, ages of past detections, distinct tracked objects) under which each step returns, by induction over the calls |
| C87 | update, matching, distance matrices | a stable matching of a relation that is one-to-one is that relation; applied to both phases; induction over the calls |
| C88 | the whole tracker with a filter and a built-in distance, over the reals | invariant over the calls: the filter's prediction bound (C85) and the triangle inequality give the hypotheses of C87, C86 gives that no call raises |
| C89 | the two deprecated wrappers | unfolding to draw_points/draw_boxes; every recorded call comes from one object |
| C90 | `Tracker.update` over a whole video | remaining life of an object decreases with every missed call; every survivor stands for a detection of one of the latest calls; pigeonhole |
| C91 | a filter coordinate with bounded changes of motion and bounded measurement errors; the whole tracker over such scenes | the error in the norm of the inverse covariance shrinks by a factor below 1 with each prediction (process noise against the bounded covariance) and grows by a bounded amount with each disturbance; then as C88 |
| C92 | `Tracker.update` over two runs with reordered detections | the greedy matching of an untied table does not depend on the order of rows and columns (C04); hits and merges with disjoint objects and past detections commute, so the two states stay equal up to a one-to-one renaming of objects |
| C93 | `Tracker.update` over two runs in two coordinate systems | a simulation: states that are equal except that positions, velocities, detections and distances are in other units are kept by every function of the tracker; the covariances of the filters are the same in both |
| C94 | `validate_points`, the arrays of `Detection` as views of blocks of memory | invariant over programs: no detection holds its copy in an array of the user |
| C95 | `eval_motChallenge`, `compare_dataframes`, `save_metrics`, `print_metrics` | dictionaries as association lists: the last value of a key, the order of first insertion |
| C96 | a filter coordinate that is corrected in some calls only | the error in the norm of the inverse covariance does not grow with several predictions and a correction; the variances stay bounded; refutation by a lower bound of the gains (monotone Riccati step) and an error that alternates and grows |
| C97 | the whole tracker over scenes with a visibility pattern | invariant over the calls: each thing owns one object whose state is the credit; C96 and the triangle inequality give the hypotheses of C87 |
| C98 | `Tracker.update` with re-identification over videos whose detections show things | the stable matchings of the three phases are the only ones possible, so merges happen exactly between objects of one thing; invariant: no two objects that can be matched follow one thing |
| C99 | `Tracker.update` of two trackers with other `past_detections_length`, `pointwise_hit_counter_max`, `detection_threshold` and label names | simulation: a relation between two states, which ignores past detections, point counters and ages of detections, is kept by every step |
| C100 | `Tracker.update` of two trackers whose stored distances and thresholds are ordered alike | simulation: the two states are equal except for the remembered distances; the greedy matching only compares |
| C101 | `round32` (np.float32 storage) and `last_distance` of `Tracker.update` | exponent and significand computed on integers agree with Flocq's `round radix2 (FLT_exp (-149) 24) ZnearestE`; then Flocq's theory of rounding and C52 |
| C102 | model of both getters in CameraMotion.v | The call is unfolded once; the most frequent flow is the maximum of the counts of the sorted distinct rows. |
| C103 | both filters coordinate by coordinate | Induction on the list of calls: the covariance does not depend on the values, so each step is an affine blend of the previous weights. |
| C104 | tracker with all detections beside one with those of a group | The simulation of C84 with the groups told apart by the distances of each call instead of by labels; the matching never pairs the groups because such entries are not below the threshold. |
| C105 | the matching of C51 beside any other assignment; one call with two thresholds | Every pair of another assignment shares its row or column with a pair that was made (no blocking pair, C02), so counting rows and columns gives one half; an explicit family of tables reaches it. The greedy relation with a larger threshold extends the other by induction. |
| C106 | two trackers with different filters (states related by R) and distances (stored numbers related by near) | Simulation in one direction: if a call of the first tracker returns, so does that of the second, in a related state. Two tables whose cells are near and which the margin makes decisive have the same greedy assignment. |
| C107 | update of a new tracker followed by PredictionsTextFile.update or Accumulators.update, call by call | The objects returned by any call keep their ids until the end (TInv, evolves), so equal ids in the file are equal objects of the final state. Without re-identification an object that is not returned after it was is never matched again. Composition with C60, C63 and C86 (shape of estimates). |
| C108 | MotionEstimator.update with draw_flow and the frame's content as state; the drawing functions are parameters that may raise | By induction over the video: points and getter do not depend on the frame after its conversion to grey; the strokes by induction over the points. |
| C109 | `TrackedObject.__repr__` | The separators (escape character, commas) occur in no number, so equal texts have equal fields; initializing_id is unique (C11). |
| C110 | `iou` over the reals, `_validate_bboxes` | Areas of pairwise and triple intersections of rectangles satisfy inclusion-exclusion inequalities axis by axis; the triangle inequality of the Jaccard distance then is algebra. Boxes with a positive intersection are well formed. |
| C111 | `Tracker.update` over two runs with two orders of the coordinates | a simulation as in C93: states that agree up to the order of coordinates are kept by every function of the tracker and by the three filters; sums over coordinates do not depend on the order |
| C112 | the `lru_cache` of `_get_grid`, arrays shared with the cache | The keys held are the first four of the keys ordered by last use (induction over the calls); the arrays held are the grids of their keys as long as nobody writes into them |
| C113 | two trackers with different coordinate transformations in each call | Simulation of the two trackers call by call: equal up to relative points and transformations |
| C114 | `Paths` with tracked objects, colors, radius and thickness | Induction over the video; reduces to the masks of C72 |
| C115 | the arrays into which `AbsolutePaths.draw` draws | Induction over the steps, from the steps given by C71 |

Every property has a status in `MANIFEST.json`: "partial" where the statement in `properties.jsonl` is
false or proved only in part (the theorem is then called `_partial`, with a `_refuted` theorem where it is
false); where the statement itself names the exceptional case, the `_refuted` theorem is part of the
proof and the status is "proved".

## 8. Testing the theorems
`seeded/LOG.jsonl` lists faults put into a copy of the model, the theorems that stopped compiling and the
theorems that were tightened because they did not. A theorem counts as failed if its proof or a proof it
depends on no longer compiles, so the lists are upper bounds on what a statement detects.
`seeded/AUTO.jsonl` lists edits made automatically (an operator, constant, comparison or text of the model replaced), chosen
at random. For each it gives the first proof that failed, which may be that of an auxiliary lemma; examples do
not count. Edits after which everything but examples still compiled led to the tightened theorems named there,
or carry a note why they are not observable.
