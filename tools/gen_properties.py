#!/usr/bin/env python3
"""Writes /verif/properties.jsonl (one JSON object per line)."""
import json, os
P = []
def p(title, statement, quantifier, why, anchors):
    P.append(dict(id="C%02d" % (len(P) + 1), title=title, statement=statement,
                  quantifier=quantifier, why_tests_cant=why, anchors=anchors))
T = "norfair/tracker.py:"
D = "norfair/distances.py:"
F = "norfair/filter.py:"
M = "norfair/camera_motion.py:"

# ---------------------------------------------------------------- matching
p("Matching is one-to-one and within threshold",
  "Tracker.match_dets_and_objs returns two index lists of equal length, without repetition, in range, and every returned pair has a distance strictly below distance_threshold; inside update() no detection is used twice and no object is hit twice in one association phase.",
  "every distance matrix (any numbers of detections and objects, finite or infinite entries, NaN-free) and every threshold",
  "The matrix has unboundedly many shapes and tie patterns; tests check a handful of 1x1 cases.",
  [T + "Tracker.match_dets_and_objs", T + "Tracker._update_objects_in_place"])
p("Matching is greedy-stable",
  "No detection/object pair that is strictly below distance_threshold is left 'blocking': if a pair below the threshold was not matched together, then its detection or its object was matched to a partner at a distance not larger. In particular no detection and object that both stay unmatched are below the threshold, and the pairs are produced in non-decreasing order of distance.",
  "every NaN-free distance matrix and every threshold",
  "It relates the output to every entry of an arbitrary matrix.",
  [T + "Tracker.match_dets_and_objs"])
p("Matching always terminates",
  "Tracker.match_dets_and_objs returns after at most min(#detections, #objects) rounds.",
  "every NaN-free distance matrix and every distance_threshold",
  "Non-termination depends on how distance_threshold + 1 is stored in the float32 matrix; tests only use small thresholds.",
  [T + "Tracker.match_dets_and_objs", D + "ScalarDistance.get_distances"])
p("Matching does not depend on the order of detections",
  "If the distances below the threshold are pairwise different, the set of matched (detection, object) pairs is the only greedy-stable matching, so presenting the same detections (or objects) in another order gives the same pairs.",
  "every distance matrix without ties below the threshold and every permutation of its rows and columns",
  "Quantifies over all permutations of all inputs.",
  [T + "Tracker.match_dets_and_objs"])
p("Every detection is accounted for",
  "When update() returns normally, each detection passed in was either matched to exactly one existing tracked object (whose last_detection it becomes) or became the last_detection of exactly one newly created tracked object, and nothing else is created.",
  "every tracker state, every list of detections, every distance function, period and camera transformation",
  "Needs all histories and all association outcomes.",
  [T + "Tracker.update", T + "Tracker._update_objects_in_place"])
p("Initialized objects have priority over initializing ones",
  "In one update() call an object that is still initializing can be matched only to a detection that no initialized object took; if an initialized live object stays unmatched then every detection below the threshold for it went to another initialized object at a distance not larger.",
  "every tracker state and every update() call",
  "Depends on two chained association phases over arbitrary states.",
  [T + "Tracker.update"])
p("Labels never mix",
  "With a scalar distance function, an object is only ever matched to detections whose label equals its own label, including after re-identification merges; the label of an object never changes and always equals the label of its last_detection.",
  "every history of update() calls, all labels, any distance function and threshold (including an infinite one)",
  "A history property over arbitrary label assignments.",
  [D + "ScalarDistance.get_distances", T + "TrackedObject.label", T + "Tracker.update"])
p("Scalar and vectorized distances agree",
  "For a pointwise distance, VectorizedDistance/ScipyDistance.get_distances returns the same matrix as ScalarDistance.get_distances: entry (c, o) is the distance when the labels are equal and +inf otherwise.",
  "all lists of objects and candidates and all labels",
  "The vectorized version groups by the string form of labels; the tests have one object, one candidate, no labels.",
  [D + "VectorizedDistance.get_distances", D + "ScalarDistance.get_distances"])
# ---------------------------------------------------------------- ids
p("Ids are unique and never reused",
  "At any time the id values of all objects a tracker ever initialized are pairwise different and lie between 1 and total_object_count; an id is never given to a second object, even after its owner was destroyed or an update() call raised.",
  "every history of update() calls, including calls that raised an exception",
  "A safety property over unbounded histories and crash points.",
  [T + "_TrackedObjectFactory.get_ids", T + "TrackedObject._acquire_ids"])
p("Global ids are unique across trackers",
  "global_id values are pairwise different over all objects of all trackers of the process and lie between 1 and the total number of initialized objects.",
  "every number of trackers and every interleaving of their update() calls (also interleaved at the level of single bytecodes for trackers run in threads)",
  "Quantifies over schedules.",
  [T + "_TrackedObjectFactory.get_ids", T + "_TrackedObjectFactory.global_count"])
p("Identity is stable",
  "id and global_id are None exactly while the object is initializing; once set they never change; an initialized object never becomes initializing again; initializing_id never changes and is unique within the tracker.",
  "every history, every object ever created",
  "A temporal property over unbounded histories.",
  [T + "TrackedObject.hit", T + "TrackedObject.__init__", T + "TrackedObject.merge"])
p("total_object_count counts initialized objects",
  "total_object_count always equals the number of objects that completed initialization, it never decreases, and it equals the number of different objects ever returned to the user by update().",
  "every history",
  "Needs all histories; the second half involves re-identification.",
  [T + "Tracker.total_object_count", T + "_TrackedObjectFactory.get_ids"])
# ---------------------------------------------------------------- lifecycle
p("update() returns exactly the active objects",
  "A normal return of update() is the list of tracked objects that are initialized and whose hit_counter is >= 0, in tracking order without duplicates; get_active_objects() called right after gives the same list and current_object_count its length.",
  "every state and every update() call", "All states.",
  [T + "Tracker.update", T + "Tracker.get_active_objects", T + "Tracker.current_object_count"])
p("Hit counter law",
  "In one update() call with period p, every tracked object that is kept and not merged changes its hit_counter h to min(h - 1 + 2p, hit_counter_max) if it was matched to a detection and to h - 1 otherwise; its age grows by exactly one.",
  "every object of every reachable state, every update() call that returns",
  "All histories and all periods.",
  [T + "TrackedObject.hit", T + "TrackedObject.tracker_step"])
p("Hit counter is bounded",
  "The hit_counter of every object is at most hit_counter_max.",
  "every history with any periods, with and without re-identification",
  "An invariant over all histories; creation and merge write the counter without the cap.",
  [T + "TrackedObject.__init__", T + "TrackedObject.hit", T + "TrackedObject.merge"])
p("A lost object disappears on time and for good",
  "Without re-identification, an active object with hit_counter h that no detection matches any more is returned by exactly the next h update() calls and by no later call.",
  "every state, every h, every continuation in which it is not matched (other objects may do anything)",
  "Unbounded continuations.",
  [T + "Tracker.update", T + "TrackedObject.tracker_step"])
p("Initialization delay is exact",
  "With period 1, an object matched in every call after the one that created it is first returned by the call number initialization_delay after its creation (0 = the creating call) and is returned by every further call as long as it keeps being matched.",
  "all 0 <= initialization_delay < hit_counter_max, all histories",
  "Unbounded parameters and lengths.",
  [T + "TrackedObject.hit", T + "TrackedObject.__init__", T + "Tracker.update"])
p("A continuously matched object is never lost",
  "An initialized object that is matched to a detection in every update() call is returned by every one of these calls.",
  "every history, with and without re-identification (reid_hit_counter_max)",
  "A liveness-like property over unbounded histories.",
  [T + "Tracker.update", T + "TrackedObject.hit", T + "TrackedObject.tracker_step"])
p("Skipping frames with period is handled",
  "If the detector runs every p frames (update(dets, period=p) followed by p-1 calls update()), an initialized object matched in every detector frame is never destroyed and is returned in all frames, provided hit_counter_max >= p - 1. With re-identification this needs hit_counter_max >= p (and, with a reid_distance_function, an object created with a period of at least p/2): with hit_counter_max = p - 1 and reid_hit_counter_max the object is dropped.",
  "all p >= 1, all hit_counter_max, any number of cycles, every object that is returned (with re-identification: that has a hit left and no countdown)",
  "Unbounded period and number of cycles.",
  [T + "Tracker.update", T + "TrackedObject.hit"])
p("age counts update() calls",
  "The age of a tracked object equals the number of update() calls made since the call that created it, for as long as the tracker holds it.",
  "every history (calls that returned normally, any arguments)",
  "All histories, including merges.",
  [T + "TrackedObject.tracker_step", T + "TrackedObject.merge"])
p("Dead objects are kept exactly reid_hit_counter_max frames",
  "With reid_hit_counter_max = r, an object that is never matched or merged again once its hit_counter is 0 is kept for re-identification (not returned) during exactly the next r + 2 update() calls and is dropped by the one after; once dropped it never comes back.",
  "every state, every r >= 0, every continuation in which it is not matched",
  "Unbounded r and continuations.",
  [T + "TrackedObject.tracker_step", T + "Tracker.update"])
p("Re-identification keeps the old identity",
  "When an initializing object is merged into an older one by the re-id distance, the survivor keeps its id, global_id, label, age, initializing_id and is alive with hit_counter 2*initial period and no reid countdown, takes the estimate, last_detection, last_distance and point counters of the new object, and the new object disappears from the tracker; merges only happen below reid_distance_threshold between equal labels.",
  "every state and every update() call with a reid_distance_function",
  "All states and re-id matrices.",
  [T + "TrackedObject.merge", T + "Tracker.update", T + "Tracker._update_objects_in_place"])
p("past_detections is bounded and ordered",
  "past_detections never holds more than past_detections_length detections (none when it is 0), each entry is a detection that was matched to the object (or merged into it), and when Detection objects are not reused their ages are non-decreasing and at most the object's age.",
  "every history, every past_detections_length",
  "An invariant over unbounded histories with shared mutable Detection objects.",
  [T + "TrackedObject._conditionally_add_to_past_detections", T + "TrackedObject.merge"])
p("Live points",
  "Every point counter stays at most max(pointwise_hit_counter_max, period); a point not seen above detection_threshold during the last pointwise maximum many frames is not live; a point seen above the threshold in the current frame is live.",
  "every history, all scores and thresholds",
  "Unbounded histories per point.",
  [T + "TrackedObject.live_points", T + "TrackedObject.hit"])
p("Points below detection_threshold are ignored",
  "When a detection is matched, the coordinates it gives for points whose score is not above detection_threshold have no influence on the object's estimate.",
  "every object state, detection, number of points and dimensions, filter",
  "Quantifies over pairs of detections differing only in ignored points.",
  [T + "TrackedObject.hit", T + "Detection.scores"])
p("First detection of a point resets it",
  "When a point of a tracked object is detected above the threshold for the first time, its position estimate is set exactly to the detected position with zero velocity.",
  "every object state, number of points and dimensions, mask",
  "The masks over points and coordinates range over all shapes.",
  [T + "TrackedObject.hit"])
p("Exceptions leave the tracker consistent",
  "If the distance function yields NaN, update() raises ValueError; after this or any other exception raised inside update() no two objects share an id and all later calls still satisfy the identity and counting properties; a NaN raise in the first phase creates no object and assigns no id.",
  "every history and every crash point inside update()",
  "Quantifies over crash points.",
  [T + "Tracker._update_objects_in_place", T + "Tracker.update"])
p("Updates without detections only age the tracker",
  "update() with None or an empty list creates no object, assigns no id, matches nothing and changes each kept object only by one tracker step (hit_counter - 1, age + 1, prediction).",
  "every state and period", "All states.",
  [T + "Tracker.update"])
p("Trackers do not interfere",
  "Two trackers that are given different Detection objects behave exactly as if each ran alone: the ids, counters, estimates and returned lists of one do not depend on the calls made to the other; only global_id does.",
  "every interleaving of calls of any number of trackers",
  "Quantifies over all interleavings.",
  [T + "Tracker.update", T + "_TrackedObjectFactory.global_count"])
p("Constructor validation",
  "Tracker(...) raises ValueError exactly when distance_function is neither a known name nor callable, past_detections_length < 0, or an explicit initialization_delay is negative or >= hit_counter_max; otherwise the effective delay is the given one or hit_counter_max/2 rounded toward zero.",
  "all argument values", "All integers.",
  [T + "Tracker.__init__", D + "get_distance_by_name"])
p("Frames without detections are accepted",
  "update() called with detections=None behaves as with an empty list of detections, whatever the other arguments.",
  "every state, period and camera transformation",
  "All argument combinations.",
  [T + "Tracker.update"])
# ---------------------------------------------------------------- filter
p("The optimized filter is a Kalman filter",
  "Filters made by OptimizedKalmanFilterFactory produce exactly (over the reals) the estimates of the textbook matrix Kalman filter with constant-velocity model, process noise Q*I, measurement noise R*I and the same initial covariance.",
  "any number of coordinates, any sequence of predict() and masked update() calls",
  "Equality of two algorithms on all sequences.",
  [F + "OptimizedKalmanFilter", F + "FilterPyKalmanFilterFactory.create_filter"])
p("Filter variances stay positive",
  "For positive R, pos_variance, vel_variance, non-negative Q and a positive semidefinite start, the position and velocity variances stay positive and the covariance matrix stays positive definite forever, so no division by zero or NaN can appear and the gain is strictly between 0 and 1.",
  "every sequence of predicts and masked updates, any dimension",
  "An invariant over unbounded sequences of nonlinear updates.",
  [F + "OptimizedKalmanFilter.update"])
p("Estimates lie between prediction and measurement",
  "After an update the estimated position of every measured coordinate lies strictly between its prediction and the measurement unless they are equal, and coordinates that are not measured keep their prediction.",
  "every reachable filter state and measurement",
  "All real inputs.",
  [F + "OptimizedKalmanFilter.update"])
p("Static objects do not drift",
  "If every detection matched to an object has the same position then its estimate is exactly that position and its velocity zero, however many frames pass, detected or not.",
  "all sequences of matched and missed frames, any initial position",
  "Unbounded sequences.",
  [F + "OptimizedKalmanFilter", T + "TrackedObject.estimate"])
p("Filter is translation equivariant and coordinates are independent",
  "Shifting all measurements of a coordinate by a constant shifts its position estimates by the same constant and leaves velocities unchanged; the estimate of a coordinate depends only on the measurements and masks of that coordinate.",
  "all sequences of predicts and updates",
  "Relates pairs of unbounded runs.",
  [F + "OptimizedKalmanFilter", F + "NoFilter"])
p("NoFilter repeats the last seen position",
  "With NoFilterFactory the estimate of each point is the position in the last matched detection in which this point was above the threshold and the velocity is always zero.",
  "all sequences of updates and masks",
  "Unbounded sequences.",
  [F + "NoFilter", F + "NoFilterFactory"])
# ---------------------------------------------------------------- camera motion
p("Translation round trip",
  "For TranslationTransformation, rel_to_abs and abs_to_rel are inverse to each other on every array of points.",
  "all vectors and points", "All reals.",
  [M + "TranslationTransformation"])
p("Homography round trip",
  "For an invertible homography, rel_to_abs(abs_to_rel(p)) = p and abs_to_rel(rel_to_abs(p)) = p for every point that is not sent to infinity; singular matrices are rejected on construction.",
  "all 3x3 matrices and points", "All reals.",
  [M + "HomographyTransformation"])
p("Camera translation accumulates correctly",
  "If the optical flow mode between reference frame and current frame equals the true camera displacement, the transformation returned for each frame is the displacement from the first frame, whenever and however often the reference frame is replaced.",
  "all camera trajectories and all schedules of reference updates",
  "Quantifies over schedules of reference updates.",
  [M + "TranslationTransformationGetter.__call__", M + "MotionEstimator.update"])
p("Camera homography accumulates correctly",
  "If findHomography returns the true homography from reference frame to current frame, the returned transformation maps first-frame coordinates to current-frame coordinates, whenever the reference frame is replaced, also when frames with too few points occur.",
  "all camera trajectories and all schedules of reference updates and low-point frames",
  "Quantifies over schedules.",
  [M + "HomographyTransformationGetter.__call__", M + "MotionEstimator.update"])
p("Motion estimation failures are contained",
  "MotionEstimator.update never lets an exception of the optical flow or of the transformation getter escape: it returns None for that frame and starts over with a fresh getter and the current frame as reference.",
  "every frame sequence and every failure pattern of the flow and of the getter",
  "Quantifies over failure points.",
  [M + "MotionEstimator.update"])
p("Absolute coordinates of detections",
  "After update(dets, coord_transformations=T) each detection's absolute_points equal T.rel_to_abs(points).",
  "every list of detections, including Detection objects used before or listed twice",
  "Depends on the history of mutable Detection objects.",
  [T + "Detection.update_coordinate_transformation", T + "Tracker.update"])
p("Tracking is invariant under camera translation",
  "Tracking detections seen by a translating camera with the true transformations gives the same objects, ids, counters and absolute estimates as tracking the same detections in fixed coordinates without transformations, for every distance that depends only on differences of positions.",
  "all camera trajectories and detection histories",
  "A relational property of two unbounded runs.",
  [T + "Tracker.update", T + "TrackedObject.get_estimate", M + "TranslationTransformation"])
p("Absolute estimates need a transformation",
  "get_estimate(absolute=True) raises ValueError exactly when no transformation has ever been given while the object existed; with a transformation, get_estimate() is abs_to_rel of get_estimate(absolute=True).",
  "every history", "All histories.",
  [T + "TrackedObject.get_estimate", T + "TrackedObject.update_coordinate_transformation"])
# ---------------------------------------------------------------- distances
p("Built-in point distances are metrics",
  "frobenius, mean_euclidean and mean_manhattan are non-negative, zero exactly when detection and estimate coincide, symmetric, and satisfy the triangle inequality.",
  "all point arrays of equal shape, any number of points and dimensions",
  "All real arrays of all sizes.",
  [D + "frobenius", D + "mean_euclidean", D + "mean_manhattan"])
p("IoU distance is well behaved",
  "For well formed boxes the iou distance is between 0 and 1, symmetric, 0 exactly for equal boxes and 1 exactly when the interiors do not overlap, never NaN.",
  "all pairs of boxes with x_min < x_max and y_min < y_max", "All reals.",
  [D + "iou"])
p("Keypoint voting distance",
  "The keypoints voting distance is 1/(1+k) where k is the number of keypoints that are close and confident in both; it is in (0, 1], equals 1 exactly when nothing matches, and does not increase when more keypoints match.",
  "all arrays, scores and thresholds", "All real arrays.",
  [D + "create_keypoints_voting_distance"])
p("Normalized mean euclidean distance is in [0, 1]",
  "For points inside the image the normalized mean euclidean distance is between 0 and 1, where 1 indicates opposite corners of the image.",
  "all image sizes and all points inside the image", "All reals.",
  [D + "create_normalized_mean_euclidean_distance"])
p("Distance lookup by name",
  "get_distance_by_name accepts exactly the documented names, returns the scalar, scipy or vectorized wrapper of that name, and raises ValueError on every other string.",
  "all strings", "All strings.",
  [D + "get_distance_by_name"])
exec(open(os.path.join(os.path.dirname(os.path.abspath(__file__)), "more_properties.py")).read()) \
    if os.path.exists(os.path.join(os.path.dirname(os.path.abspath(__file__)), "more_properties.py")) else None
with open(os.path.join(os.path.dirname(os.path.abspath(__file__)), "..", "properties.jsonl"), "w") as f:
    for x in P:
        f.write(json.dumps(x) + "\n")
print(len(P))
