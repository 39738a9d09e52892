{"id": "C01", "title": "Matching is one-to-one and within threshold", "statement": "Tracker.match_dets_and_objs returns two index lists of equal length, without repetition, in range, and every returned pair has a distance strictly below distance_threshold; inside update() no detection is used twice and no object is hit twice in one association phase.", "quantifier": "every distance matrix (any numbers of detections and objects, finite or infinite entries, NaN-free) and every threshold", "why_tests_cant": "The matrix has unboundedly many shapes and tie patterns; tests check a handful of 1x1 cases.", "anchors": ["norfair/tracker.py:Tracker.match_dets_and_objs", "norfair/tracker.py:Tracker._update_objects_in_place"]}
{"id": "C02", "title": "Matching is greedy-stable", "statement": "No detection/object pair that is strictly below distance_threshold is left 'blocking': if a pair below the threshold was not matched together, then its detection or its object was matched to a partner at a distance not larger. In particular no detection and object that both stay unmatched are below the threshold, and the pairs are produced in non-decreasing order of distance.", "quantifier": "every NaN-free distance matrix and every threshold", "why_tests_cant": "It relates the output to every entry of an arbitrary matrix.", "anchors": ["norfair/tracker.py:Tracker.match_dets_and_objs"]}
{"id": "C03", "title": "Matching always terminates", "statement": "Tracker.match_dets_and_objs returns after at most min(#detections, #objects) rounds.", "quantifier": "every NaN-free distance matrix and every distance_threshold", "why_tests_cant": "Non-termination depends on how distance_threshold + 1 is stored in the float32 matrix; tests only use small thresholds.", "anchors": ["norfair/tracker.py:Tracker.match_dets_and_objs", "norfair/distances.py:ScalarDistance.get_distances"]}
{"id": "C04", "title": "Matching does not depend on the order of detections", "statement": "If the distances below the threshold are pairwise different, the set of matched (detection, object) pairs is the only greedy-stable matching, so presenting the same detections (or objects) in another order gives the same pairs.", "quantifier": "every distance matrix without ties below the threshold and every permutation of its rows and columns", "why_tests_cant": "It compares the results of the same call on all permutations of the same input; a test fixes one order.", "anchors": ["norfair/tracker.py:Tracker.match_dets_and_objs"]}
{"id": "C05", "title": "Every detection is accounted for", "statement": "When update() returns normally, each detection passed in was either matched to exactly one existing tracked object (whose last_detection it becomes) or became the last_detection of exactly one newly created tracked object, and nothing else is created.", "quantifier": "every tracker state, every list of detections, every distance function, period and camera transformation", "why_tests_cant": "The outcome depends on the whole association history of the tracker; tests fix one or two frames.", "anchors": ["norfair/tracker.py:Tracker.update", "norfair/tracker.py:Tracker._update_objects_in_place"]}
{"id": "C06", "title": "Initialized objects have priority over initializing ones", "statement": "In one update() call an object that is still initializing can be matched only to a detection that no initialized object took; if an initialized live object stays unmatched then every detection below the threshold for it went to another initialized object at a distance not larger.", "quantifier": "every tracker state and every update() call", "why_tests_cant": "Depends on two chained association phases over arbitrary states.", "anchors": ["norfair/tracker.py:Tracker.update"]}
{"id": "C07", "title": "Labels never mix", "statement": "With a scalar distance function, an object is only ever matched to detections whose label equals its own label, including after re-identification merges; the label of an object never changes and always equals the label of its last_detection.", "quantifier": "every history of update() calls, all labels, any distance function and threshold (including an infinite one)", "why_tests_cant": "The labels can be wrong only after particular sequences of matches and merges; tests use one or two labels in short videos.", "anchors": ["norfair/distances.py:ScalarDistance.get_distances", "norfair/tracker.py:TrackedObject.label", "norfair/tracker.py:Tracker.update"]}
{"id": "C08", "title": "Scalar and vectorized distances agree", "statement": "For a pointwise distance, VectorizedDistance/ScipyDistance.get_distances returns the same matrix as ScalarDistance.get_distances: entry (c, o) is the distance when the labels are equal and +inf otherwise.", "quantifier": "all lists of objects and candidates and all labels", "why_tests_cant": "The vectorized version groups by the string form of labels; the tests have one object, one candidate, no labels.", "anchors": ["norfair/distances.py:VectorizedDistance.get_distances", "norfair/distances.py:ScalarDistance.get_distances"]}
{"id": "C09", "title": "Ids are unique and never reused", "statement": "At any time the id values of all objects a tracker ever initialized are pairwise different and lie between 1 and total_object_count; an id is never given to a second object, even after its owner was destroyed or an update() call raised.", "quantifier": "every history of update() calls, including calls that raised an exception", "why_tests_cant": "A safety property over unbounded histories and crash points.", "anchors": ["norfair/tracker.py:_TrackedObjectFactory.get_ids", "norfair/tracker.py:TrackedObject._acquire_ids"]}
{"id": "C10", "title": "Global ids are unique across trackers", "statement": "global_id values are pairwise different over all objects of all trackers of the process and lie between 1 and the total number of initialized objects.", "quantifier": "every number of trackers and every interleaving of their update() calls (also interleaved at the level of single bytecodes for trackers run in threads)", "why_tests_cant": "It quantifies over the schedules of the threads, which a test cannot choose.", "anchors": ["norfair/tracker.py:_TrackedObjectFactory.get_ids", "norfair/tracker.py:_TrackedObjectFactory.global_count"]}
{"id": "C11", "title": "Identity is stable", "statement": "id and global_id are None exactly while the object is initializing; once set they never change; an initialized object never becomes initializing again; initializing_id never changes and is unique within the tracker.", "quantifier": "every history, every object ever created", "why_tests_cant": "The violation may come arbitrarily late in a history, for example after a re-identification.", "anchors": ["norfair/tracker.py:TrackedObject.hit", "norfair/tracker.py:TrackedObject.__init__", "norfair/tracker.py:TrackedObject.merge"]}
{"id": "C12", "title": "total_object_count counts initialized objects", "statement": "total_object_count always equals the number of objects that completed initialization, it never decreases, and it equals the number of different objects ever returned to the user by update().", "quantifier": "every history", "why_tests_cant": "Needs all histories; the count goes wrong only when initialized objects are re-identified.", "anchors": ["norfair/tracker.py:Tracker.total_object_count", "norfair/tracker.py:_TrackedObjectFactory.get_ids"]}
{"id": "C13", "title": "update() returns exactly the active objects", "statement": "A normal return of update() is the list of tracked objects that are initialized and whose hit_counter is >= 0, in tracking order without duplicates; get_active_objects() called right after gives the same list and current_object_count its length.", "quantifier": "every state and every update() call", "why_tests_cant": "The set of active objects depends on counters with unboundedly many values; tests look at a few frames.", "anchors": ["norfair/tracker.py:Tracker.update", "norfair/tracker.py:Tracker.get_active_objects", "norfair/tracker.py:Tracker.current_object_count"]}
{"id": "C14", "title": "Hit counter law", "statement": "In one update() call with period p, every tracked object that is kept and not merged changes its hit_counter h to min(h - 1 + 2p, hit_counter_max) if it was matched to a detection and to h - 1 otherwise; its age grows by exactly one.", "quantifier": "every object of every reachable state, every update() call that returns", "why_tests_cant": "The law relates the counters before and after every call, with any period, in every reachable state.", "anchors": ["norfair/tracker.py:TrackedObject.hit", "norfair/tracker.py:TrackedObject.tracker_step"]}
{"id": "C15", "title": "Hit counter is bounded", "statement": "The hit_counter of every object is at most hit_counter_max.", "quantifier": "every history with any periods, with and without re-identification", "why_tests_cant": "An invariant over all histories; creation and merge write the counter without the cap.", "anchors": ["norfair/tracker.py:TrackedObject.__init__", "norfair/tracker.py:TrackedObject.hit", "norfair/tracker.py:TrackedObject.merge"]}
{"id": "C16", "title": "A lost object disappears on time and for good", "statement": "Without re-identification, an active object with hit_counter h that no detection matches any more is returned by exactly the next h update() calls and by no later call.", "quantifier": "every state, every h, every continuation in which it is not matched (other objects may do anything)", "why_tests_cant": "The other objects may do anything in the meantime, for unboundedly many calls.", "anchors": ["norfair/tracker.py:Tracker.update", "norfair/tracker.py:TrackedObject.tracker_step"]}
{"id": "C17", "title": "Initialization delay is exact", "statement": "With period 1, an object matched in every call after the one that created it is first returned by the call number initialization_delay after its creation (0 = the creating call) and is returned by every further call as long as it keeps being matched.", "quantifier": "all 0 <= initialization_delay < hit_counter_max, all histories", "why_tests_cant": "The parameters and the number of frames are unbounded and the interesting values are at the boundaries.", "anchors": ["norfair/tracker.py:TrackedObject.hit", "norfair/tracker.py:TrackedObject.__init__", "norfair/tracker.py:Tracker.update"]}
{"id": "C18", "title": "A continuously matched object is never lost", "statement": "An initialized object that is matched to a detection in every update() call is returned by every one of these calls.", "quantifier": "every history, with and without re-identification (reid_hit_counter_max)", "why_tests_cant": "It speaks about arbitrarily long videos in which nothing is ever missed.", "anchors": ["norfair/tracker.py:Tracker.update", "norfair/tracker.py:TrackedObject.hit", "norfair/tracker.py:TrackedObject.tracker_step"]}
{"id": "C19", "title": "Skipping frames with period is handled", "statement": "If the detector runs every p frames (update(dets, period=p) followed by p-1 calls update()), an initialized object matched in every detector frame is never destroyed and is returned in all frames, provided hit_counter_max >= p - 1. With re-identification this needs hit_counter_max >= p (and, with a reid_distance_function, an object created with a period of at least p/2): with hit_counter_max = p - 1 and reid_hit_counter_max the object is dropped.", "quantifier": "all p >= 1, all hit_counter_max, any number of cycles, every object that is returned (with re-identification: that has a hit left and no countdown)", "why_tests_cant": "The period, the counters and the number of cycles are unbounded.", "anchors": ["norfair/tracker.py:Tracker.update", "norfair/tracker.py:TrackedObject.hit"]}
{"id": "C20", "title": "age counts update() calls", "statement": "The age of a tracked object equals the number of update() calls made since the call that created it, for as long as the tracker holds it.", "quantifier": "every history (calls that returned normally, any arguments)", "why_tests_cant": "The age is affected by calls that raise, by merges and by the period only in some histories.", "anchors": ["norfair/tracker.py:TrackedObject.tracker_step", "norfair/tracker.py:TrackedObject.merge"]}
{"id": "C21", "title": "Dead objects are kept exactly reid_hit_counter_max frames", "statement": "With reid_hit_counter_max = r, an object that is never matched or merged again once its hit_counter is 0 is kept for re-identification (not returned) during exactly the next r + 2 update() calls and is dropped by the one after; once dropped it never comes back.", "quantifier": "every state, every r >= 0, every continuation in which it is not matched", "why_tests_cant": "The countdown may be arbitrarily long and other objects may be re-identified in the meantime.", "anchors": ["norfair/tracker.py:TrackedObject.tracker_step", "norfair/tracker.py:Tracker.update"]}
{"id": "C22", "title": "Re-identification keeps the old identity", "statement": "When an initializing object is merged into an older one by the re-id distance, the survivor keeps its id, global_id, label, age, initializing_id and is alive with hit_counter 2*initial period and no reid countdown, takes the estimate, last_detection, last_distance and point counters of the new object, and the new object disappears from the tracker; merges only happen below reid_distance_threshold between equal labels.", "quantifier": "every state and every update() call with a reid_distance_function", "why_tests_cant": "The merge depends on the state of two objects and on a matrix of arbitrary size.", "anchors": ["norfair/tracker.py:TrackedObject.merge", "norfair/tracker.py:Tracker.update", "norfair/tracker.py:Tracker._update_objects_in_place"]}
{"id": "C23", "title": "past_detections is bounded and ordered", "statement": "past_detections never holds more than past_detections_length detections (none when it is 0), each entry is a detection that was matched to the object (or merged into it), and when Detection objects are not reused their ages are non-decreasing and at most the object's age.", "quantifier": "every history, every past_detections_length", "why_tests_cant": "An invariant over unbounded histories with shared mutable Detection objects.", "anchors": ["norfair/tracker.py:TrackedObject._conditionally_add_to_past_detections", "norfair/tracker.py:TrackedObject.merge"]}
{"id": "C24", "title": "Live points", "statement": "Every point counter stays at most max(pointwise_hit_counter_max, period); a point not seen above detection_threshold during the last pointwise maximum many frames is not live; a point seen above the threshold in the current frame is live.", "quantifier": "every history, all scores and thresholds", "why_tests_cant": "Each point has its own history of scores, of unbounded length.", "anchors": ["norfair/tracker.py:TrackedObject.live_points", "norfair/tracker.py:TrackedObject.hit"]}
{"id": "C25", "title": "Points below detection_threshold are ignored", "statement": "When a detection is matched, the coordinates it gives for points whose score is not above detection_threshold have no influence on the object's estimate.", "quantifier": "every object state, detection, number of points and dimensions, filter", "why_tests_cant": "Quantifies over pairs of detections differing only in ignored points.", "anchors": ["norfair/tracker.py:TrackedObject.hit", "norfair/tracker.py:Detection.scores"]}
{"id": "C26", "title": "First detection of a point resets it", "statement": "When a point of a tracked object is detected above the threshold for the first time, its position estimate is set exactly to the detected position with zero velocity.", "quantifier": "every object state, number of points and dimensions, mask", "why_tests_cant": "The masks over points and coordinates range over all shapes.", "anchors": ["norfair/tracker.py:TrackedObject.hit"]}
{"id": "C27", "title": "Exceptions leave the tracker consistent", "statement": "If the distance function yields NaN, update() raises ValueError; after this or any other exception raised inside update() no two objects share an id and all later calls still satisfy the identity and counting properties; a NaN raise in the first phase creates no object and assigns no id.", "quantifier": "every history and every crash point inside update()", "why_tests_cant": "Quantifies over crash points.", "anchors": ["norfair/tracker.py:Tracker._update_objects_in_place", "norfair/tracker.py:Tracker.update"]}
{"id": "C28", "title": "Updates without detections only age the tracker", "statement": "update() with None or an empty list creates no object, assigns no id, matches nothing and changes each kept object only by one tracker step (hit_counter - 1, age + 1, prediction).", "quantifier": "every state and period", "why_tests_cant": "It speaks about all states a tracker can be in, including objects at the boundary values of their counters.", "anchors": ["norfair/tracker.py:Tracker.update"]}
{"id": "C29", "title": "Trackers do not interfere", "statement": "Two trackers that are given different Detection objects behave exactly as if each ran alone: the ids, counters, estimates and returned lists of one do not depend on the calls made to the other; only global_id does.", "quantifier": "every interleaving of calls of any number of trackers", "why_tests_cant": "It quantifies over all interleavings of calls of several trackers that share one id counter and one heap of detections.", "anchors": ["norfair/tracker.py:Tracker.update", "norfair/tracker.py:_TrackedObjectFactory.global_count"]}
{"id": "C30", "title": "Constructor validation", "statement": "Tracker(...) raises ValueError exactly when distance_function is neither a known name nor callable, past_detections_length < 0, or an explicit initialization_delay is negative or >= hit_counter_max; otherwise the effective delay is the given one or hit_counter_max/2 rounded toward zero.", "quantifier": "all argument values", "why_tests_cant": "The arguments are unbounded integers and optional values; the boundary cases matter.", "anchors": ["norfair/tracker.py:Tracker.__init__", "norfair/distances.py:get_distance_by_name"]}
{"id": "C31", "title": "Frames without detections are accepted", "statement": "update() called with detections=None behaves as with an empty list of detections, whatever the other arguments.", "quantifier": "every state, period and camera transformation", "why_tests_cant": "Missing detections behave differently with and without a camera transformation and in each state.", "anchors": ["norfair/tracker.py:Tracker.update"]}
{"id": "C32", "title": "The optimized filter is a Kalman filter", "statement": "Filters made by OptimizedKalmanFilterFactory produce exactly (over the reals) the estimates of the textbook matrix Kalman filter with constant-velocity model, process noise Q*I, measurement noise R*I and the same initial covariance.", "quantifier": "any number of coordinates, any sequence of predict() and masked update() calls", "why_tests_cant": "It is the equality of a closed-form filter with the matrix filter, on all dimensions and all sequences of calls.", "anchors": ["norfair/filter.py:OptimizedKalmanFilter", "norfair/filter.py:FilterPyKalmanFilterFactory.create_filter"]}
{"id": "C33", "title": "Filter variances stay positive", "statement": "For positive R, pos_variance, vel_variance, non-negative Q and a positive semidefinite start, the position and velocity variances stay positive and the covariance matrix stays positive definite forever, so no division by zero or NaN can appear and the gain is strictly between 0 and 1.", "quantifier": "every sequence of predicts and masked updates, any dimension", "why_tests_cant": "The update is nonlinear; the variances could become zero or negative only after long sequences.", "anchors": ["norfair/filter.py:OptimizedKalmanFilter.update"]}
{"id": "C34", "title": "Estimates lie between prediction and measurement", "statement": "After an update the estimated position of every measured coordinate lies strictly between its prediction and the measurement unless they are equal, and coordinates that are not measured keep their prediction.", "quantifier": "every reachable filter state and measurement", "why_tests_cant": "The gain depends on the whole history of the filter; it ranges over real numbers.", "anchors": ["norfair/filter.py:OptimizedKalmanFilter.update"]}
{"id": "C35", "title": "Static objects do not drift", "statement": "If every detection matched to an object has the same position then its estimate is exactly that position and its velocity zero, however many frames pass, detected or not.", "quantifier": "all sequences of matched and missed frames, any initial position", "why_tests_cant": "The drift could accumulate over any number of matched and missed frames.", "anchors": ["norfair/filter.py:OptimizedKalmanFilter", "norfair/tracker.py:TrackedObject.estimate"]}
{"id": "C36", "title": "Filter is translation equivariant and coordinates are independent", "statement": "Shifting all measurements of a coordinate by a constant shifts its position estimates by the same constant and leaves velocities unchanged; the estimate of a coordinate depends only on the measurements and masks of that coordinate.", "quantifier": "all sequences of predicts and updates", "why_tests_cant": "It relates two runs of unbounded length.", "anchors": ["norfair/filter.py:OptimizedKalmanFilter", "norfair/filter.py:NoFilter"]}
{"id": "C37", "title": "NoFilter repeats the last seen position", "statement": "With NoFilterFactory the estimate of each point is the position in the last matched detection in which this point was above the threshold and the velocity is always zero.", "quantifier": "all sequences of updates and masks", "why_tests_cant": "It speaks about any sequence of masks and measurements.", "anchors": ["norfair/filter.py:NoFilter", "norfair/filter.py:NoFilterFactory"]}
{"id": "C38", "title": "Translation round trip", "statement": "For TranslationTransformation, rel_to_abs and abs_to_rel are inverse to each other on every array of points.", "quantifier": "all vectors and points", "why_tests_cant": "An identity between real functions; tests sample a few vectors.", "anchors": ["norfair/camera_motion.py:TranslationTransformation"]}
{"id": "C39", "title": "Homography round trip", "statement": "For an invertible homography, rel_to_abs(abs_to_rel(p)) = p and abs_to_rel(rel_to_abs(p)) = p for every point that is not sent to infinity; singular matrices are rejected on construction.", "quantifier": "all 3x3 matrices and points", "why_tests_cant": "An identity between rational functions with singular cases; tests sample a few matrices.", "anchors": ["norfair/camera_motion.py:HomographyTransformation"]}
{"id": "C40", "title": "Camera translation accumulates correctly", "statement": "If the optical flow mode between reference frame and current frame equals the true camera displacement, the transformation returned for each frame is the displacement from the first frame, whenever and however often the reference frame is replaced.", "quantifier": "all camera trajectories and all schedules of reference updates", "why_tests_cant": "The reference frame changes at arbitrary moments of an arbitrarily long trajectory.", "anchors": ["norfair/camera_motion.py:TranslationTransformationGetter.__call__", "norfair/camera_motion.py:MotionEstimator.update"]}
{"id": "C41", "title": "Camera homography accumulates correctly", "statement": "If findHomography returns the true homography from reference frame to current frame, the returned transformation maps first-frame coordinates to current-frame coordinates, whenever the reference frame is replaced, also when frames with too few points occur.", "quantifier": "all camera trajectories and all schedules of reference updates and low-point frames", "why_tests_cant": "The reference frame changes at arbitrary moments; frames with few points take another branch.", "anchors": ["norfair/camera_motion.py:HomographyTransformationGetter.__call__", "norfair/camera_motion.py:MotionEstimator.update"]}
{"id": "C42", "title": "Motion estimation failures are contained", "statement": "MotionEstimator.update never lets an exception of the optical flow or of the transformation getter escape: it returns None for that frame and starts over with a fresh getter and the current frame as reference.", "quantifier": "every frame sequence and every failure pattern of the flow and of the getter", "why_tests_cant": "The flow and the getter can fail in any subset of the frames.", "anchors": ["norfair/camera_motion.py:MotionEstimator.update"]}
{"id": "C43", "title": "Absolute coordinates of detections", "statement": "After update(dets, coord_transformations=T) each detection's absolute_points equal T.rel_to_abs(points).", "quantifier": "every list of detections, including Detection objects used before or listed twice", "why_tests_cant": "Detection objects are mutable and shared, so the result depends on their whole history.", "anchors": ["norfair/tracker.py:Detection.update_coordinate_transformation", "norfair/tracker.py:Tracker.update"]}
{"id": "C44", "title": "Tracking is invariant under camera translation", "statement": "Tracking detections seen by a translating camera with the true transformations gives the same objects, ids, counters and absolute estimates as tracking the same detections in fixed coordinates without transformations, for every distance that depends only on differences of positions.", "quantifier": "all camera trajectories and detection histories", "why_tests_cant": "A relational property of two unbounded runs.", "anchors": ["norfair/tracker.py:Tracker.update", "norfair/tracker.py:TrackedObject.get_estimate", "norfair/camera_motion.py:TranslationTransformation"]}
{"id": "C45", "title": "Absolute estimates need a transformation", "statement": "get_estimate(absolute=True) raises ValueError exactly when no transformation has ever been given while the object existed; with a transformation, get_estimate() is abs_to_rel of get_estimate(absolute=True).", "quantifier": "every history", "why_tests_cant": "It speaks about all sequences of calls with and without a transformation.", "anchors": ["norfair/tracker.py:TrackedObject.get_estimate", "norfair/tracker.py:TrackedObject.update_coordinate_transformation"]}
{"id": "C46", "title": "Built-in point distances are metrics", "statement": "frobenius, mean_euclidean and mean_manhattan are non-negative, zero exactly when detection and estimate coincide, symmetric, and satisfy the triangle inequality.", "quantifier": "all point arrays of equal shape, any number of points and dimensions", "why_tests_cant": "It quantifies over all arrays of all shapes, including NaN-free special cases such as equal arrays.", "anchors": ["norfair/distances.py:frobenius", "norfair/distances.py:mean_euclidean", "norfair/distances.py:mean_manhattan"]}
{"id": "C47", "title": "IoU distance is well behaved", "statement": "For well formed boxes the iou distance is between 0 and 1, symmetric, 0 exactly for equal boxes and 1 exactly when the interiors do not overlap, never NaN.", "quantifier": "all pairs of boxes with x_min < x_max and y_min < y_max", "why_tests_cant": "It ranges over all real boxes, with equality cases that a sample does not hit.", "anchors": ["norfair/distances.py:iou"]}
{"id": "C48", "title": "Keypoint voting distance", "statement": "The keypoints voting distance is 1/(1+k) where k is the number of keypoints that are close and confident in both; it is in (0, 1], equals 1 exactly when nothing matches, and does not increase when more keypoints match.", "quantifier": "all arrays, scores and thresholds", "why_tests_cant": "It ranges over all arrays and scores, with strict and non-strict boundaries.", "anchors": ["norfair/distances.py:create_keypoints_voting_distance"]}
{"id": "C49", "title": "Normalized mean euclidean distance is in [0, 1]", "statement": "For points inside the image the normalized mean euclidean distance is between 0 and 1, where 1 indicates opposite corners of the image.", "quantifier": "all image sizes and all points inside the image", "why_tests_cant": "The extreme value is attained only at special configurations of real points.", "anchors": ["norfair/distances.py:create_normalized_mean_euclidean_distance"]}
{"id": "C50", "title": "Distance lookup by name", "statement": "get_distance_by_name accepts exactly the documented names, returns the scalar, scipy or vectorized wrapper of that name, and raises ValueError on every other string.", "quantifier": "all strings", "why_tests_cant": "It quantifies over all strings.", "anchors": ["norfair/distances.py:get_distance_by_name"]}
{"id": "C51", "title": "Matching is exactly the greedy assignment", "statement": "The list of pairs returned by Tracker.match_dets_and_objs is the greedy one: each pair has the smallest distance among the rows and columns not used so far, the first in row-major order among equal ones, and it stops when no remaining distance is below distance_threshold. This determines the result uniquely, also with ties.", "quantifier": "every NaN-free distance matrix and every threshold", "why_tests_cant": "Ties are broken by position; a test fixes one tie pattern of one small matrix.", "anchors": ["norfair/tracker.py:Tracker.match_dets_and_objs"]}
{"id": "C52", "title": "Objects remember the distance of their match", "statement": "After update(), last_distance of every object matched in this call is the distance of the matched pair and it is unchanged for objects that were not matched (or comes from the object merged into it); current_min_distance is the smallest distance of the object to a candidate if that is below distance_threshold and None otherwise, and is left alone if all distances of the step are 0 or there is no candidate.", "quantifier": "every tracker state and every update() call", "why_tests_cant": "The attributes are written in several places per call; the interesting cases (all distances 0, merges, no candidates) need particular histories.", "anchors": ["norfair/tracker.py:Tracker._update_objects_in_place", "norfair/tracker.py:TrackedObject.merge"]}
{"id": "C53", "title": "Which detections are remembered", "statement": "When a detection is matched, past_detections appends it if there is room; if the list is full the oldest entry is dropped and the new one appended exactly when the age of the object is at least the age of the oldest entry times past_detections_length, and otherwise the list is unchanged. The detection gets the age of the object exactly when it is appended; ages of all other detections are unchanged.", "quantifier": "every tracker without re-identification and every call with new, distinct detections", "why_tests_cant": "The list is thinned out by a rule over unbounded ages.", "anchors": ["norfair/tracker.py:TrackedObject._conditionally_add_to_past_detections"]}
{"id": "C54", "title": "State of a new object", "statement": "An object created by update() starts with hit_counter equal to the period, age 0, the label of its detection, no last_distance or current_min_distance, initializing exactly when the period is not larger than initialization_delay, point counters 1 for the points above detection_threshold and 0 for the others, estimate equal to the detected points (in the coordinates of the camera), zero velocity and the detection as only past detection.", "quantifier": "every tracker state, detection, period and camera transformation, all three filters", "why_tests_cant": "Everything one can read off a new object, for detections of all shapes and scores.", "anchors": ["norfair/tracker.py:TrackedObject.__init__", "norfair/filter.py:OptimizedKalmanFilterFactory.create_filter", "norfair/filter.py:NoFilterFactory.create_filter", "norfair/filter.py:FilterPyKalmanFilterFactory.create_filter"]}
{"id": "C55", "title": "The estimate is the filter run on the matched detections", "statement": "The estimate and velocity of an object are those of its filter after exactly one prediction per update() call and one correction per matched detection, the correction using the absolute points of the detection with the points above detection_threshold as sensors.", "quantifier": "every tracker without re-identification, every video, every object whose points were all above the threshold in the first detection, all three filters", "why_tests_cant": "It ties the object after an arbitrarily long video to a replay of the filter on exactly its own detections.", "anchors": ["norfair/tracker.py:TrackedObject.tracker_step", "norfair/tracker.py:TrackedObject.hit", "norfair/tracker.py:Tracker.update"]}
{"id": "C56", "title": "The re-identification step", "statement": "In a call with a reid_distance_function the candidates are the initializing objects that got a detection in this call, the objects they are compared to are the initialized objects without detection in this call followed by the objects whose hit_counter is below 0 and whose countdown is not over; the merges are the greedy assignment below reid_distance_threshold; the merged object takes over detection, distances and filter and the candidate disappears, the other candidates stay.", "quantifier": "every tracker state and every update() call with a reid_distance_function", "why_tests_cant": "A third association step whose input depends on the outcome of the first two.", "anchors": ["norfair/tracker.py:Tracker.update", "norfair/tracker.py:TrackedObject.merge"]}
{"id": "C57", "title": "The stabilized view shows a still world", "statement": "FixedCamera.adjust_frame never fails on translations (scale >= 0, frames of any sizes, the frame may leave the canvas partly or completely); all results have the size round(height*scale) x round(width*scale) of the first frame; every pixel is the pixel of the last frame that covered the position, with the frame centered and moved by minus the camera motion (rounded to pixels), faded once per later call, or black if no frame covered it. Fading never brightens, ends in black after at most 255 calls if attenuation > 0 and changes nothing if attenuation = 0. A negative scale raises ValueError in the first call, unless both sides of the canvas round to zero. The warning that the frame is cropped is asked for exactly in those calls in which a part of the frame comes to lie outside of the canvas.", "quantifier": "every sequence of frames and translations of any length, every scale and attenuation", "why_tests_cant": "The view accumulates over the whole video and clipping has many cases at the four borders.", "anchors": ["norfair/drawing/fixed_camera.py:FixedCamera.adjust_frame"]}
{"id": "C58", "title": "Cut-outs are the part of the image in the bounding box", "statement": "get_cutout(points, image) returns the pixels with truncated minimum <= coordinate < truncated maximum in both directions, clipped to the image, when no coordinate is negative. With a negative coordinate the result is in general not the overlap with the image (it is usually empty).", "quantifier": "every image and every non-empty list of points", "why_tests_cant": "Negative coordinates silently wrap around in numpy slices.", "anchors": ["norfair/utils.py:get_cutout"]}
{"id": "C59", "title": "Sequence information is looked up by name", "statement": "InformationFile.search(name) returns the value of the line name=value, as an int if it consists of digits, provided no earlier key starts with name; it raises ValueError exactly when no line starts with name. If an earlier key has name as a proper prefix the wrong line is read.", "quantifier": "every file and every name without '='", "why_tests_cant": "It ranges over all files; the collision needs particular keys.", "anchors": ["norfair/metrics.py:InformationFile.search"]}
{"id": "C60", "title": "The predictions file lists exactly the tracked boxes", "statement": "After one update() per frame, the text written by PredictionsTextFile is, frame by frame from 1, one line frame,id,left,top,width,height,-1,-1,-1,-1 per object in the given order; the file is closed exactly when seqLength frames were written, and later updates with objects raise and write nothing.", "quantifier": "every video not longer than seqLength, every list of objects per frame", "why_tests_cant": "The file is the result of an arbitrarily long run.", "anchors": ["norfair/metrics.py:PredictionsTextFile.update"]}
{"id": "C61", "title": "The detections file is split into frames", "statement": "Iterating over DetectionFileParser yields exactly seqLength lists, the k-th consisting of exactly the detections of the rows with frame number k (corners left, top, left+width, top+height and the confidence of the row as both scores), in any order of rows in the file, again after every new iter(). Files with fewer than two rows raise IndexError.", "quantifier": "every file with at least seven columns, every sorting function used for the rows", "why_tests_cant": "It ranges over all files, row orders and partial iterations.", "anchors": ["norfair/metrics.py:DetectionFileParser"]}
{"id": "C62", "title": "Files written are read back", "statement": "Reading the file of PredictionsTextFile with DetectionFileParser gives for every frame exactly the boxes written for it, up to order; with float32 rounding in between, exactly the rounded boxes.", "quantifier": "every video of seqLength frames with at least two boxes, every text format of numbers without separators that can be read back", "why_tests_cant": "Round trip over all videos and all numbers.", "anchors": ["norfair/metrics.py:PredictionsTextFile.update", "norfair/metrics.py:DetectionFileParser"]}
{"id": "C63", "title": "Metrics are computed on the boxes of each sequence", "statement": "If update() was called exactly seqLength times after each create_accumulator(), and no video contains exactly one box, compute_metrics() compares for each sequence exactly the boxes given for it, with frames numbered from 1 and one subtracted from left and top. One update too many makes the following sequences be evaluated with wrong boxes, a video with one box raises, and of sequences with the same last path component only the last is evaluated. An update() before create_accumulator(), or after a first create_accumulator() that raised, raises and keeps no predictions. If a later create_accumulator() raises, the updates after it go on with what is left of the previous progress bar: until it ends their boxes are collected, with frames numbered from 1, and stored for the new path.", "quantifier": "every list of sequences with distinct names, every length and every list of objects per frame", "why_tests_cant": "The state is shared between sequences and the effect of a miscount only appears in later sequences.", "anchors": ["norfair/metrics.py:Accumulators", "norfair/metrics.py:load_motchallenge", "norfair/metrics.py:eval_motChallenge"]}
{"id": "C64", "title": "Hexadecimal colors", "statement": "A color '#rrggbb' with lowercase digits is read as (blue, green, red), '#rgb' as the color with every digit doubled, and every other string starting with '#' (apart from one newline at the end) raises ValueError, including the form '#FF0000' given in the documentation of draw_points and draw_boxes.", "quantifier": "every string", "why_tests_cant": "It ranges over all 16.8 million colors and all strings.", "anchors": ["norfair/drawing/color.py:hex_to_bgr", "norfair/drawing/color.py:parse_color"]}
{"id": "C65", "title": "Named colors", "statement": "A color given as a string is a triple of integers between 0 and 255; strings starting with '#' otherwise raise ValueError and other strings raise AttributeError, except the names of CSS (148 of them), tab1 to tab20 and cb1 to cb10, which give the colors that CSS, matplotlib (tab20) and seaborn (colorblind) define.", "quantifier": "every string", "why_tests_cant": "It ranges over all strings.", "anchors": ["norfair/drawing/color.py:parse_color", "norfair/drawing/color.py:Color"]}
{"id": "C66", "title": "Palettes", "statement": "Palette.set accepts exactly the three names or a list of colors and leaves the palette unchanged if it raises; the chosen color is in the palette, is the default color for None, and two ids that differ by less than the number of colors get different colors (the predefined palettes are those of matplotlib and seaborn and have no repeated color; tab10 is the initial one). With an empty palette choosing a color raises ZeroDivisionError.", "quantifier": "every palette, every key and every pair of ids below 2^61 - 1", "why_tests_cant": "It ranges over all ids and palettes; the palette is global state.", "anchors": ["norfair/drawing/color.py:Palette"]}
{"id": "C67", "title": "Texts of drawn objects", "statement": "The text of an object consists of its label, its id and the mean of its scores, each only if asked for and known, joined by single '-' without leading or trailing '-'.", "quantifier": "every object or detection and all eight combinations of the flags", "why_tests_cant": "Combinations of absent parts with labels of any content, including the empty string.", "anchors": ["norfair/drawing/utils.py:_build_text"]}
{"id": "C68", "title": "Points drawn", "statement": "draw_points draws object by object exactly one circle for each live point (for every point if hide_dead_points is False), at the estimate truncated to integers, in the color of the object; the text is drawn once with its shadow, at the mean of the live points minus the radius. An object without live points has no effect when dead points are hidden. It does not fail for valid colors. With drawables=None it returns None instead of the frame, and color_by_label=False acts like True.", "quantifier": "every list of objects and detections, frame size and all options", "why_tests_cant": "It ranges over all objects, live masks and options.", "anchors": ["norfair/drawing/draw_points.py:draw_points", "norfair/drawing/drawer.py:Drawer.text", "norfair/drawing/drawer.py:Drawable"]}
{"id": "C69", "title": "Boxes drawn", "statement": "draw_boxes draws object by object exactly one rectangle from the first to the second point, truncated to integers, in the color of the object, and the text with its shadow at the first point exactly when it is not empty. It does not fail for valid colors and objects of two points. color_by_label=False acts like True and random_color=False like True.", "quantifier": "every list of objects and detections, frame size and all options", "why_tests_cant": "It ranges over all objects and options.", "anchors": ["norfair/drawing/draw_boxes.py:draw_boxes", "norfair/drawing/drawer.py:Drawer.text", "norfair/drawing/drawer.py:Drawable"]}
{"id": "C70", "title": "The absolute grid", "statement": "draw_absolute_grid draws a cross at a grid point exactly when its position in the current frame is inside the frame (borders included).", "quantifier": "every camera transformation, every grid and frame size", "why_tests_cant": "It ranges over all camera motions.", "anchors": ["norfair/drawing/absolute_grid.py:draw_absolute_grid", "norfair/drawing/drawer.py:Drawer.cross"]}
{"id": "C71", "title": "Paths in absolute coordinates", "statement": "AbsolutePaths remembers for every id exactly its last max_history positions in absolute coordinates; each call draws for every object with a live point circles at its current points and one line per pair of consecutive remembered positions, in the coordinates of the current frame, with weights falling from 0.99 to 0.01 with age. Calling draw without coord_transform, its default, raises AttributeError as soon as an object has a live point.", "quantifier": "every sequence of calls, every camera motion and every max_history; ids of the objects of a call are distinct", "why_tests_cant": "The drawing depends on the history of all calls.", "anchors": ["norfair/drawing/path.py:AbsolutePaths"]}
{"id": "C72", "title": "Fading paths", "statement": "With Paths every pixel of the mask has the color of the last circle drawn over it, faded once per later call, or is black; the result is the frame plus the mask, saturating at 255, so where no path went the frame is unchanged.", "quantifier": "every video of any length, every shape of circles and every attenuation", "why_tests_cant": "The mask accumulates over the whole video.", "anchors": ["norfair/drawing/path.py:Paths"]}
{"id": "C73", "title": "Making a video", "statement": "Video(...) succeeds exactly when one source is given and usable: an int camera, or a path (after expanding '~') of an existing file in which OpenCV finds at least one frame. Both or none, or a camera that is not an int, raise ValueError; a missing or unreadable file raises RuntimeError. The frame rate is output_fps if given and otherwise that of the source.", "quantifier": "all arguments and every state of the file system", "why_tests_cant": "It ranges over all combinations of arguments and files.", "anchors": ["norfair/video.py:Video.__init__"]}
{"id": "C74", "title": "Frames of a video", "statement": "Iterating over a Video yields each frame that can be read from the source exactly once and in order, up to the first failed read, however many iterators are made and however reading is interleaved with writing. With one iterator the frame counter counts the reads, the failed one included, and the source is closed exactly when that one is made. If no time has passed since the start when a frame is read, the frame is lost: next raises ZeroDivisionError, the iteration is over and the source is left open.", "quantifier": "every source, finite or endless, every sequence of next calls on any number of iterators and of write calls", "why_tests_cant": "Interleavings of several iterators and writes over sources of any length.", "anchors": ["norfair/video.py:Video.__iter__", "norfair/video.py:Video.write"]}
{"id": "C75", "title": "Frames written", "statement": "The output file is opened at the first write, with the size of that frame, and gets exactly the frames written, in order; when the loop over the video ends it is closed after the last of them, and so is the source, so everything written inside the loop is saved. Leaving the loop early closes neither. Frames written after the loop has ended are lost without an error.", "quantifier": "every video, every body of the loop and every sequence of reads and writes", "why_tests_cant": "It concerns every order of reads and writes over a whole run.", "anchors": ["norfair/video.py:Video.__iter__", "norfair/video.py:Video.write"]}
{"id": "C76", "title": "The output file", "statement": "With output_path a folder, the output is written in it under the name of the input up to its first dot followed by '_out.' and the extension, and is never the input; two inputs share an output exactly when their names agree up to the first dot, so 'a.1.mp4' and 'a.2.mp4' overwrite each other. All cameras share one name. With any other output_path this is the output, even if it is the input.", "quantifier": "all paths, folders and extensions", "why_tests_cant": "It ranges over all pairs of paths.", "anchors": ["norfair/video.py:Video.get_output_file_path"]}
{"id": "C77", "title": "Codecs", "statement": "The codec is output_fourcc if given, otherwise XVID for names ending in 'avi' and mp4v for names ending in 'mp4', in upper or lower case; for any other name RuntimeError is raised and a write leaves nothing behind.", "quantifier": "all file names and values of output_fourcc", "why_tests_cant": "It ranges over all strings.", "anchors": ["norfair/video.py:Video.get_codec_fourcc", "norfair/video.py:Video.write"]}
{"id": "C78", "title": "Text of the progress bar", "statement": "In a terminal of 32 columns or more the description is shown in full if it is shorter than the columns minus 25, and otherwise as a beginning and an end of it, of equal length up to one, around ' ... ', so that it fits. With 31 columns a description of six or more characters becomes longer instead. The size of the terminal is that of the first standard stream that has one. The description names the file without its folder, or the camera, and the label if there is one; the bar counts up to the number of frames of the file.", "quantifier": "all descriptions and terminal sizes", "why_tests_cant": "It ranges over all strings and widths.", "anchors": ["norfair/video.py:Video._get_progress_description", "norfair/utils.py:get_terminal_size"]}
{"id": "C79", "title": "Frames in a folder", "statement": "VideoFromFrames yields the paths of the frames 1 to seqLength, numbered with at least six digits, each once and in order, and again for each new loop. With make_video the video gets the frame given for each of them and is closed after the last. A frameRate that is not a whole number is passed on as a string, which OpenCV rejects.", "quantifier": "every information file, length and pair of paths", "why_tests_cant": "It ranges over sequences of any length.", "anchors": ["norfair/video.py:VideoFromFrames"]}
{"id": "C80", "title": "Showing a frame", "statement": "show divides the size of the frame by an int ratio, rounding down, and shows the frame itself for the ratio 1; the ratio 0 raises ZeroDivisionError; any other float ratio is passed on as a float size, which OpenCV rejects.", "quantifier": "every frame and ratio", "why_tests_cant": "It ranges over all ratios and sizes.", "anchors": ["norfair/video.py:Video.show"]}
{"id": "C81", "title": "The table of objects", "statement": "print_objects_as_table prints one row per object, in order, if every object has been matched at least once, and otherwise raises TypeError, in particular if the list contains an object made by the last update.", "quantifier": "every tracker state and list of objects", "why_tests_cant": "Which objects have been matched depends on the whole run.", "anchors": ["norfair/utils.py:print_objects_as_table"]}
{"id": "C82", "title": "Warnings", "statement": "warn_once logs every distinct message exactly once, in the order in which they first occur.", "quantifier": "every sequence of messages", "why_tests_cant": "The sequence has any length.", "anchors": ["norfair/utils.py:warn_once"]}
{"id": "C83", "title": "Points of the absolute grid", "statement": "The grid of draw_absolute_grid consists of grid_size squared points: those of a half sphere in front of the camera at evenly spread angles, projected on the image plane, around the equator or (polar) around the pole.", "quantifier": "all grid sizes and frame sizes; exact real arithmetic", "why_tests_cant": "It concerns real functions over all sizes.", "anchors": ["norfair/drawing/absolute_grid.py:_get_grid"]}
{"id": "C84", "title": "Classes do not interact", "statement": "A tracker given all detections of a video and an equal one given only those with certain labels return, after every call, the same objects with those labels, in the same order and the same throughout, except for id, global_id, initializing_id and current_min_distance. This holds for scalar distances that do not read these and for all vectorized distances, re-identification included, except that for vectorized distances labels with the same str, as 1 and '1', do interact.", "quantifier": "every configuration, video and set of labels in which the tracker with all detections raises no error", "why_tests_cant": "It compares two runs of any length.", "anchors": ["norfair/tracker.py:Tracker.update", "norfair/tracker.py:Tracker._update_objects_in_place", "norfair/distances.py:ScalarDistance.get_distances", "norfair/distances.py:VectorizedDistance.get_distances"]}
{"id": "C85", "title": "A steady motion is learned", "statement": "If all points of the first detection of an object are above the threshold, it is matched with a new detection in every later call and a coordinate of one of its points, above the threshold, advances by the same amount v per call, then its estimate and its estimate_velocity become as exact as desired, after a number of calls that depends only on v and the filter parameters, and stay so; in all calls the estimate is at most K |v| away from the true position, where K depends only on the filter parameters (2 for the default OptimizedKalmanFilterFactory). The same holds for FilterPyKalmanFilterFactory.", "quantifier": "every tracker without re-identification, video, object, coordinate, speed and precision, and all filter parameters with R > 0, Q >= 0 and a positive definite initial covariance; exact real arithmetic", "why_tests_cant": "It is a limit over videos of any length.", "anchors": ["norfair/filter.py:OptimizedKalmanFilter", "norfair/filter.py:FilterPyKalmanFilterFactory", "norfair/tracker.py:TrackedObject.hit", "norfair/tracker.py:TrackedObject.tracker_step"]}
{"id": "C86", "title": "Well-formed calls return", "statement": "A program that creates detections with the same number of points and dimensions (and one score per point, if any) and passes them in any number, order and combination, also repeatedly or not at all, with any periods, gets no error from update: the distances, if they are defined and not NaN for such detections, make a matrix that the matching terminates on, no past detection lacks an age, and a re-identified object is always removed exactly once. The scalar distances of the library are defined for all such detections, whatever the filter has made of the estimate. The distance 'iou' is not: the filter can predict a box with negative area, and then a call with proper boxes can raise ValueError.", "quantifier": "every configuration whose thresholds survive adding 1, every sequence of calls, filter and camera motion that keeps the shape of points", "why_tests_cant": "The absence of errors concerns all sequences of calls; the errors depend on states reached only after many of them.", "anchors": ["norfair/tracker.py:Tracker.update", "norfair/tracker.py:TrackedObject._conditionally_add_to_past_detections", "norfair/tracker.py:TrackedObject.merge", "norfair/distances.py:VectorizedDistance.get_distances", "norfair/distances.py:iou"]}
{"id": "C87", "title": "No identity switches when distances tell things apart", "statement": "If in every call each thing is detected at most once and the distance between an object and a detection with its label, after the objects have made their step, is below distance_threshold exactly if the detection shows the thing of the object's last detection, then every detection of a thing that an object follows goes to that object, a new object is made exactly for every detected thing that no object with non-negative hit_counter follows, no object changes from one thing to another, ever, and no two objects with non-negative hit_counter follow the same thing.", "quantifier": "every scalar distance that does not read the age of detections, configuration without re-identification, and video, including missed and reappearing things", "why_tests_cant": "It concerns videos of any length, with any number of things, over all ways in which distances can be ordered within the threshold.", "anchors": ["norfair/tracker.py:Tracker.update", "norfair/tracker.py:Tracker._update_objects_in_place", "norfair/tracker.py:Tracker._match_dets_and_objs", "norfair/distances.py:ScalarDistance.get_distances"]}
{"id": "C88", "title": "Steadily moving things are followed", "statement": "A new tracker, without re-identification, is called with one new detection of each thing per call, in any order. The points of each thing move by the same vector per call, K times this motion is below distance_threshold, and things with the same label stay further apart than distance_threshold plus K times the motion. Then no call raises; the first call makes one object per thing and no other object is ever made or dropped; every object is matched with the detection of its thing in every call; and update returns no object before call initialization_delay and all of them from then on. The estimates are never further from the things than a constant times their speed and, with a Kalman filter, estimate and estimate_velocity become as exact as desired. K depends only on the filter (1 for NoFilterFactory, 6.4 for the default OptimizedKalmanFilterFactory, 2.2 for the default FilterPyKalmanFilterFactory).", "quantifier": "any number of things, points, dimensions and calls, all positions, motions, labels and scores above the threshold, the distances frobenius, mean_euclidean and mean_manhattan, all filter parameters with R > 0, Q >= 0 and a positive definite initial covariance; exact real arithmetic", "why_tests_cant": "It is a statement about the whole tracker over videos of any length and real positions.", "anchors": ["norfair/tracker.py:Tracker.update", "norfair/tracker.py:Tracker._update_objects_in_place", "norfair/tracker.py:TrackedObject.hit", "norfair/filter.py:OptimizedKalmanFilter", "norfair/filter.py:FilterPyKalmanFilterFactory", "norfair/filter.py:NoFilter", "norfair/distances.py:mean_euclidean", "norfair/distances.py:mean_manhattan", "norfair/distances.py:frobenius"]}
{"id": "C89", "title": "The deprecated drawing functions", "statement": "draw_tracked_objects draws what draw_points draws with dead points hidden, and returns nothing. Without radius the circles have radius floor(height/200), without id_thickness the text has thickness floor(height/500), 0 for low frames, and without label_size the text has size 1 (frames lower than 20000); id_size, if positive, has no influence unless label_size is 0. draw_tracked_boxes draws what draw_boxes draws, writes ids only if a positive id_size is given, and so writes nothing by default. color_by_label=True means coloring by label in both.", "quantifier": "all objects, frame shapes, palettes and arguments; up to the calls of OpenCV", "why_tests_cant": "It is about all combinations of the arguments with the frame size; examples show single ones.", "anchors": ["norfair/drawing/draw_points.py:draw_tracked_objects", "norfair/drawing/draw_boxes.py:draw_tracked_boxes"]}
{"id": "C90", "title": "A tracker does not accumulate objects", "statement": "After every call of a new tracker the number of tracked objects is at most the number of detections passed in the latest hit_counter_max + 2 calls (with re-identification, reid_hit_counter_max + 1 calls more), and the number of returned objects at most that of the latest hit_counter_max + 1 calls; if a call has a period above hit_counter_max, or there is re-identification and twice a period is above it, that takes the place of hit_counter_max. So with a bounded number of detections per call the number of objects held is bounded by a constant, however long the video.", "quantifier": "every configuration, filter, distance, sequence of calls that return, periods and camera motions", "why_tests_cant": "Tests run for a bounded time; this bounds all videos, and for every number and placement of detections.", "anchors": ["norfair/tracker.py:Tracker.update", "norfair/tracker.py:TrackedObject.hit", "norfair/tracker.py:TrackedObject.tracker_step", "norfair/tracker.py:TrackedObject.merge", "norfair/tracker.py:TrackedObject.hit_counter_is_positive", "norfair/tracker.py:TrackedObject.reid_hit_counter_is_positive"]}
{"id": "C91", "title": "Inexactly detected things that change their speed are followed", "statement": "If the motion of a coordinate changes by at most acc per call and each of its detections is off by at most eps, then the position, the velocity and the prediction of a Kalman filter with R > 0, Q > 0 and a positive definite initial covariance are never further off than an explicit bound, linear in eps, acc and the first motion v, whose dependence on v fades geometrically; without a filter the bound is the greatest motion plus eps. A new tracker without re-identification that gets one new detection of each thing per call, in any order, raises no error, makes one object per thing in the first call and no other ever, matches every object with its thing in every call, returns all of them from call initialization_delay on, and has estimates and velocities within the bound, provided that arrays that differ everywhere by the bound plus eps are closer than distance_threshold and that detections of things with the same label are further apart than distance_threshold plus this distance.", "quantifier": "any number of things, points, dimensions and calls, all paths, errors of the detections, labels and scores above the threshold, the distances frobenius, mean_euclidean and mean_manhattan, and all filter parameters; exact real arithmetic", "why_tests_cant": "It is a statement about the whole tracker over videos of any length, all paths and all errors of the detections.", "anchors": ["norfair/tracker.py:Tracker.update", "norfair/tracker.py:Tracker._update_objects_in_place", "norfair/tracker.py:TrackedObject.hit", "norfair/filter.py:OptimizedKalmanFilter", "norfair/filter.py:FilterPyKalmanFilterFactory", "norfair/filter.py:NoFilter", "norfair/distances.py:mean_euclidean", "norfair/distances.py:mean_manhattan", "norfair/distances.py:frobenius"]}
{"id": "C92", "title": "The order of the detections does not matter", "statement": "Two equal trackers are shown the same video, the second one with the detections of each call in some other order. If no detection is passed twice and, in the first run, no two distances below the threshold of one matching are equal, then the second tracker raises an error only if the first does, and in every call both return the same objects, hold the same objects and have the same total_object_count, except for the order of objects, id, global_id, initializing_id and current_min_distance; and the same is written to the detections. This holds for distances computed pair by pair, as all distances of the library are except those of scipy, and with re-identification. Where two distances are equal, the order can decide which detection an object gets.", "quantifier": "every configuration, video and reordering of its calls", "why_tests_cant": "It compares two runs of any length under all permutations.", "anchors": ["norfair/tracker.py:Tracker.update", "norfair/tracker.py:Tracker._update_objects_in_place", "norfair/tracker.py:Tracker._match_dets_and_objs", "norfair/distances.py:ScalarDistance.get_distances", "norfair/distances.py:VectorizedDistance.get_distances"]}
{"id": "C93", "title": "Tracking does not depend on the unit and the origin of the coordinates", "statement": "Two trackers are shown the same video in two coordinate systems, in which coordinate k is x_k and scale_k * x_k + shift_k, with all other arguments the same. If the distance functions and thresholds of the second are those of the first in the new units, every call has the same outcome: the same exception or the same objects returned, the same objects held, with the same id, age, counters, matched detections and past detections, estimates and velocities that are those of the first in the new units, and the same age and absolute_points (in the new units) written to the detections. Concretely: with frobenius, mean_euclidean or mean_manhattan and all axes scaled by the same factor c (or mirrored), only distance_threshold is multiplied by c; with keypoints voting, only keypoint_distance_threshold; with the normalized distance, the image size; with iou each axis can be stretched by its own positive factor and nothing is changed. This holds for NoFilter, OptimizedKalmanFilter and FilterPyKalmanFilter, whose parameters need no change, and with translating cameras and with re-identification. Exchanging x and y is not such a change: with points that are not detected, the estimates of the exchanged video can be others.", "quantifier": "every configuration, every video of points of one dimension, every scale and shift; exact arithmetic (rounding to float32 is only respected where it commutes with the change of unit)", "why_tests_cant": "It compares two runs of any length under a continuous family of coordinate changes.", "anchors": ["norfair/tracker.py:Tracker.update", "norfair/tracker.py:TrackedObject.hit", "norfair/tracker.py:TrackedObject.merge", "norfair/tracker.py:TrackedObject.get_estimate", "norfair/filter.py:OptimizedKalmanFilter", "norfair/filter.py:FilterPyKalmanFilterFactory", "norfair/filter.py:NoFilter", "norfair/distances.py:frobenius", "norfair/distances.py:mean_euclidean", "norfair/distances.py:mean_manhattan", "norfair/distances.py:iou", "norfair/distances.py:create_keypoints_voting_distance", "norfair/distances.py:create_normalized_mean_euclidean_distance"]}
{"id": "C94", "title": "What a detection keeps of the array it is made of", "statement": "Detection(points) accepts arrays of rank up to 2 and raises ValueError for others; a rank 1 array counts as one point. Whatever the user writes into arrays afterwards, and whatever other detections are made of them, detection.points shows what is in the array now and detection.absolute_points what was in it when the detection was made; writing to an array never changes another. If nothing is written, both are the given points. A buffer that is reused for the next detection therefore moves the points of all detections made of it, but not their absolute_points. An array of rank 0 is accepted but no object can be made of the detection (IndexError).", "quantifier": "every program of making arrays, writing into them and making detections, of any length; every shape", "why_tests_cant": "The effect of shared memory depends on the order of writes and constructions in arbitrarily long programs.", "anchors": ["norfair/tracker.py:Detection.__init__", "norfair/utils.py:validate_points", "norfair/tracker.py:TrackedObject.__init__"]}
{"id": "C95", "title": "The report compares each sequence with its own ground truth", "statement": "compute_metrics() succeeds exactly if all ground truth files can be read, no sequence lacks frames (fewer finished sequences than paths) and none consists of exactly one box. Its report has one row per different last path component, in the order of first appearance, and the row compares the ground truth and the predictions of the same position, that of the last path with the name. Afterwards save_metrics() writes exactly that text to the given file and to no other and print_metrics() prints it; computing again gives the same. Without motmetrics, create_accumulator() and compute_metrics() raise ImportError and change nothing. Saving before computing raises AttributeError, and leaves the file empty.", "quantifier": "every list of sequences (also with equal names), every ground truth, every sequence of saves; motmetrics is arbitrary", "why_tests_cant": "The pairing depends on all paths and all updates before.", "anchors": ["norfair/metrics.py:Accumulators.compute_metrics", "norfair/metrics.py:Accumulators.save_metrics", "norfair/metrics.py:Accumulators.print_metrics", "norfair/metrics.py:compare_dataframes", "norfair/metrics.py:eval_motChallenge", "norfair/utils.py:DummyMOTMetricsImport"]}
{"id": "C96", "title": "Predictions of an object that is not seen for a while", "statement": "If a coordinate moves by v per call and its filter is corrected, exactly, in some of the calls only, with at most G calls without a correction between two corrections, then after up to T more calls without a correction the prediction is at most a constant times |v| away from the coordinate: T + 1 without a filter, and an explicit constant, independent of the number of calls, for FilterPyKalmanFilter and all G, and for OptimizedKalmanFilter with G = 0. For OptimizedKalmanFilter with gaps there need not be any constant: with the default parameters and a correction in every 64th call the error grows beyond every bound, since its predict() does not widen the covariance.", "quantifier": "all motions, patterns of corrections within the bounds, numbers of calls, and filter parameters with R > 0, Q >= 0 and positive definite initial covariance; exact real arithmetic", "why_tests_cant": "It bounds an error over all patterns of occlusion of any length; the divergence needs arbitrarily long runs.", "anchors": ["norfair/filter.py:OptimizedKalmanFilter.predict", "norfair/filter.py:OptimizedKalmanFilter.update", "norfair/filter.py:FilterPyKalmanFilterFactory", "norfair/filter.py:NoFilter", "norfair/tracker.py:TrackedObject.tracker_step"]}
{"id": "C97", "title": "Things that appear, leave and are occluded keep their objects", "statement": "A new tracker without re-identification gets, in each call, one new detection of each of the things visible in it, in any order. The credit of a thing is 1 with its first detection, then grows by 1 with every detection, up to hit_counter_max, and shrinks by 1 with every call without one. If no thing is detected again once its credit is negative, each thing moves steadily and slowly enough, and detected things are far enough from all other things with the same label and credit, then no call raises, every thing that has been detected has exactly one object and there are no other objects; a detection is matched with the object of its thing, also after an occlusion; the hit counter of the object is the credit of the thing; the object is kept exactly while the credit is at least -1 and returned exactly while it is at least 0, once it has been above initialization_delay; and while its thing is not detected the estimate moves on with it, within K times the motion per call. With the default parameters and filterpy, K is about hit_counter_max + 2 for all occlusions; with the optimized filter it is about 1.05 hit_counter_max + 3 for things that are detected in every call between their appearing and leaving.", "quantifier": "any number of things, points, dimensions and calls, all steady motions, labels, patterns of visibility, orders and scores above the threshold, the distances frobenius, mean_euclidean and mean_manhattan, all hit_counter_max and initialization_delay, and all filter parameters; exact real arithmetic", "why_tests_cant": "It is a statement about the whole tracker over videos of any length, all motions and all patterns of occlusion.", "anchors": ["norfair/tracker.py:Tracker.update", "norfair/tracker.py:Tracker._update_objects_in_place", "norfair/tracker.py:TrackedObject.hit", "norfair/tracker.py:TrackedObject.tracker_step", "norfair/tracker.py:TrackedObject.hit_counter_is_positive", "norfair/filter.py:OptimizedKalmanFilter", "norfair/filter.py:FilterPyKalmanFilterFactory", "norfair/filter.py:NoFilter", "norfair/distances.py:mean_euclidean", "norfair/distances.py:mean_manhattan", "norfair/distances.py:frobenius"]}
{"id": "C98", "title": "A thing that comes back gets its old object back", "statement": "Every detection shows one of some things. If, in every call, each thing is detected at most once, an object that can be matched is near the detection of the thing it was matched with last and near no other, and the re-identification distance is below its threshold exactly for two objects of the same thing, then: an object never changes to another thing, also when it is re-identified; a detection goes to the object that follows its thing; a new object is made exactly for things for which no object can be matched; and when an object that is still initializing gets a detection while there is a retired object of the same thing (no hits left, countdown not over), the retired object takes the detection over, with its ids, and the other one is dropped. So two successive detections of a returned thing bring its object back, if the period is at most initialization_delay: the second call returns it. The condition on the re-identification distance holds if it compares embeddings that tell the things apart. If the period is always larger than initialization_delay (always with initialization_delay=0) no object is ever re-identified, whatever the distances.", "quantifier": "all videos of any length, any number of things, all distances, filters, labels, periods and configurations with a scalar distance; exact arithmetic is not needed", "why_tests_cant": "It is a statement about all calls of arbitrarily long videos and all ways in which things can leave and return.", "anchors": ["norfair/tracker.py:Tracker.update", "norfair/tracker.py:Tracker._update_objects_in_place", "norfair/tracker.py:TrackedObject.merge", "norfair/tracker.py:TrackedObject.tracker_step", "norfair/tracker.py:TrackedObject.reid_hit_counter_is_positive", "norfair/tracker.py:Detection.embedding"]}
{"id": "C99", "title": "Bookkeeping parameters and the names of labels do not influence tracking", "statement": "Take two new trackers with the same distance functions, thresholds, hit_counter_max, initialization_delay and reid_hit_counter_max, and show them the same detections in the same calls. They may differ in past_detections_length, in pointwise_hit_counter_max and in the names of the labels (different labels stay different), and in detection_threshold as long as the same scores are above it. If no detection object is overwritten and the distance functions look at neither labels, past detections nor point counters, every call has the same outcome: it returns the same objects or raises the same exception, and all objects held have the same ids, ages, counters, last detections, filter states and estimates. All the distance functions of the library are of this kind. A distance function that looks at past_detections makes past_detections_length matter.", "quantifier": "all videos of any length, all configurations, filters, number types, injective renamings of labels and distances, with and without re-identification", "why_tests_cant": "It compares two runs of any length over all values of the parameters; a test compares a few runs.", "anchors": ["norfair/tracker.py:Tracker.__init__", "norfair/tracker.py:Tracker.update", "norfair/tracker.py:TrackedObject.hit", "norfair/tracker.py:TrackedObject._conditionally_add_to_past_detections", "norfair/tracker.py:TrackedObject.merge", "norfair/distances.py:ScalarDistance"]}
{"id": "C100", "title": "Only the order of the distances and the threshold matters", "statement": "Take two new trackers with the same arguments except that the distances stored by the second one, and its threshold, are obtained from those of the first one by a function that keeps the order, NaN, zero and infinity (and the same, with another such function, for re-identification). Shown the same detections in the same calls, every call has the same outcome: it returns the same objects or raises the same exception, and all objects held are the same except for the distances they remember. For example, in exact arithmetic, any strictly increasing function of a distance of the library with the function of the threshold, such as the square of frobenius with the square of the threshold. The distances that count are the stored float32 numbers: an increasing function of the exact distances may separate two that are stored as the same number, and then the outcome may change.", "quantifier": "all videos of any length, all scalar and vectorized distances that do not look at the remembered distances, all filters, number types and configurations, with and without re-identification", "why_tests_cant": "It compares two runs of any length for all increasing functions; a test compares a few runs.", "anchors": ["norfair/tracker.py:Tracker.__init__", "norfair/tracker.py:Tracker.update", "norfair/tracker.py:Tracker._update_objects_in_place", "norfair/tracker.py:Tracker._match_dets_and_objs", "norfair/distances.py:ScalarDistance.get_distances", "norfair/distances.py:VectorizedDistance.get_distances"]}
{"id": "C101", "title": "Distances are stored as the nearest float32 number", "statement": "The distance that an object remembers (last_distance) for a detection it got, and that is compared with the threshold and the other distances, is the value of the scalar distance function rounded as IEEE 754 binary32: the nearest number with 24 significant bits that is a multiple of 2^-149, the one with even significand of two, and infinity from 2^128 on. So no float32 number is closer to the value, a value that is a float32 number is stored exactly, and storing never reverses the order of two distances. But it can make two different distances equal, such as 2^24 and 2^24 + 1.", "quantifier": "all finite rational distances, all scalar distance functions, all tracker states and calls", "why_tests_cant": "It is about all numbers; tests try a few, and a wrong last bit or a wrong subnormal shows only in rare ties.", "anchors": ["norfair/distances.py:ScalarDistance.get_distances", "norfair/tracker.py:Tracker._update_objects_in_place", "norfair/tracker.py:Tracker._match_dets_and_objs", "norfair/tracker.py:TrackedObject.last_distance"]}
{"id": "C102", "title": "What one call of a transformation getter returns and remembers", "statement": "TranslationTransformationGetter called with the tracked points of the current and the reference frame returns a translation whose movement vector is the most frequent binned flow (the smallest in lexicographic order if several are), added to the movement accumulated so far; it returns True, and accumulates this movement, exactly if the share of points with that flow is below the wanted proportion, and otherwise remembers nothing. Without arrays it raises TypeError, without points ValueError, and remembers nothing. HomographyTransformationGetter with at least four points returns the homography it fitted multiplied by the accumulated one, asks for a new reference and accumulates the product exactly if the share of inliers is too low; it raises LinAlgError if that product cannot be inverted. With fewer points it returns True and the accumulated homography, or None, and remembers nothing new. If no homography can be fitted the call raises, and, when the share of inliers is too low, forgets the accumulated one.", "quantifier": "all getters, all accumulated states, all pairs of point arrays, all rounding functions and all results of the fit", "why_tests_cant": "It ranges over all sets of flows, ties included, and all histories accumulated before; tests use a few frames.", "anchors": ["norfair/camera_motion.py:TranslationTransformationGetter.__call__", "norfair/camera_motion.py:HomographyTransformationGetter.__call__"]}
{"id": "C103", "title": "Estimates are weighted sums of the measurements", "statement": "For both Kalman filters, given the parameters and the list of calls (predict, or update together with the information whether this coordinate was measured), there are fixed weights such that the estimate of a coordinate is the weighted sum of its first position and its measurements, and its velocity is another weighted sum of them. The weights of a position have sum 1 and those of a velocity sum 0; measurements that were masked have weight 0. The weights do not depend on the values, on the other coordinates, on which coordinate it is or on the number of points. With the default parameters the first correction after a prediction moves the estimate by 111/151 (filterpy: 3/4) of the difference to the measurement and sets the velocity to 10/151 (filterpy: 5/8) of it.", "quantifier": "all parameters with R > 0 and the other variances not negative, all first detections, all sequences of calls, all values and masks, every coordinate", "why_tests_cant": "It asserts that the weights are the same for all values and all dimensions, for sequences of any length; a test evaluates a few sequences on a few values.", "anchors": ["norfair/filter.py:OptimizedKalmanFilter", "norfair/filter.py:OptimizedKalmanFilterFactory", "norfair/filter.py:FilterPyKalmanFilterFactory"]}
{"id": "C104", "title": "Things that are far from each other do not influence each other", "statement": "If, in a video, no detection ever has a distance below distance_threshold to an object that can be matched and was last matched with a detection of another group, then a tracker that is given only the detections of one group returns and holds, after every call, exactly the objects of that group which the tracker given all detections returns and holds, in the same order and with the same estimates, counters, past detections and so on; only the numbers given to objects (id, global_id, initializing_id) and current_min_distance differ. So far-away clutter or another crowd in the frame changes no track. As soon as one detection comes near an object of the other group this is false.", "quantifier": "all videos, all ways to divide the detections into two groups, all scalar distances that read neither numbers nor ages, all tracker configurations without re-identification, all filters", "why_tests_cant": "It compares two whole runs, for any number of objects and calls; the greedy matching goes through all pairs of both groups in one order, and tests cover a few scenes.", "anchors": ["norfair/tracker.py:Tracker.update", "norfair/tracker.py:Tracker._update_objects_in_place", "norfair/tracker.py:Tracker._match_dets_and_objs", "norfair/distances.py:ScalarDistance.get_distances"]}
{"id": "C105", "title": "The matching finds at least half of the pairs, and a larger threshold only adds pairs", "statement": "In each matching step of update (and of the matching of detections and objects in general), if detections and objects could be paired one-to-one in some way with k pairs below the threshold, then at least k/2 pairs are made; this bound is reached for every k, so pairs can be missed. If no detection is below the threshold for two objects and no object for two detections, every pair below the threshold is made. It is not true that the total distance of the pairs made is the smallest possible: for two detections and two objects it can exceed the best one by any factor. With a larger threshold all pairs are made again, in the same order and before all others, and the additional pairs are at distances not below the smaller threshold; in update this holds for the first step (initialized objects) of a call from the same state. It is not true of the second step: an initializing object can lose its detection when the threshold grows.", "quantifier": "all tables of distances of all sizes, all thresholds, all competing assignments, all tracker states and calls", "why_tests_cant": "It compares the result with every possible assignment of any number of detections and objects; tests compute a few tables.", "anchors": ["norfair/tracker.py:Tracker._match_dets_and_objs", "norfair/tracker.py:Tracker._update_objects_in_place", "norfair/tracker.py:Tracker.update"]}
{"id": "C106", "title": "Small errors change nothing unless something is close to the threshold or to a tie", "statement": "Take two programs that track the same video with the same arguments, one perhaps in exact and the other in floating point arithmetic: their filters and distance functions differ, but the distances they store differ by at most eps. If, whenever the first program computes a table of distances, no distance is within eps of the threshold and no two distances below the threshold are within 2 eps of each other, then the second program gives the same tracking: every call returns, and holds, the same objects with the same ids, counters, labels and past detections, matched with the same detections. The same holds for every other notion of near numbers, as long as near tables compare alike; with equal distances it holds without any condition, ties included. For example norfair, which stores distances in float32, tracks as if it stored them exactly as long as rounding moves no distance across the threshold and makes no two distances below it equal. Without the condition it is false: if two objects are equally far from a detection, an error of a millionth decides which of them gets it.", "quantifier": "all videos of any length, all pairs of filters and of scalar or vectorized distances, all configurations with and without re-identification, all eps", "why_tests_cant": "It compares two runs of any length for all errors of a given size; tests compare runs on the same machine with the same arithmetic.", "anchors": ["norfair/tracker.py:Tracker.update", "norfair/tracker.py:Tracker._update_objects_in_place", "norfair/tracker.py:Tracker._match_dets_and_objs", "norfair/distances.py:ScalarDistance.get_distances", "norfair/distances.py:VectorizedDistance.get_distances", "norfair/filter.py:FilterFactory"]}
{"id": "C107", "title": "The predictions file of a tracked video", "statement": "Track a video of boxes with a new tracker and write the objects returned by each call to a predictions file (or give them to the accumulators). If detections are created once and have at least two points of at least two dimensions, and the distance is defined for them, all calls return, all writes succeed, and in the file every id occurs at most once per frame, stands for the same object in all frames, and is one of 1, ..., total_object_count. Without re-identification every one of these ids occurs in the file, and in consecutive frames; with re-identification an id can be missing for some frames and come back. In the table that the accumulators compare with the ground truth of a sequence no two rows have the same frame and id.", "quantifier": "all videos of any length, all filters and distances that keep shapes, all configurations, all numbers of sequences", "why_tests_cant": "It composes tracker, estimates and writers over whole videos of any length; tests check a single file or a single call.", "anchors": ["norfair/tracker.py:Tracker.update", "norfair/tracker.py:Tracker.get_active_objects", "norfair/metrics.py:PredictionsTextFile.update", "norfair/metrics.py:Accumulators.update", "norfair/metrics.py:eval_motChallenge"]}
{"id": "C108", "title": "Drawing the optical flow does not change the camera motion", "statement": "A MotionEstimator with draw_flow returns for every video the same transformations as one without, and fails in the same way, whatever is painted and even when OpenCV's drawing functions raise, as long as every frame is a new array. update changes the frame that the user passed: for each tracked point, in their order, a line of thickness 2 from the position now to the position in the reference image and a disc of radius 3 at the position now, both truncated to integers; a drawing call that raises ends the drawing for this frame. Nothing is painted without draw_flow, or when the flow cannot be computed. If the same array is passed twice, the painted flow is part of the second image and can change its transformation. Without flow_color the drawing is dark red ([0, 0, 100] in OpenCV's order), not blue as documented.", "quantifier": "all videos of any length, all getters, all images and all (possibly failing) OpenCV functions, all colours", "why_tests_cant": "It ranges over all videos and all failures of the drawing functions; tests look at one drawn image.", "anchors": ["norfair/camera_motion.py:MotionEstimator.__init__", "norfair/camera_motion.py:MotionEstimator.update"]}
{"id": "C109", "title": "The text of an object identifies it", "statement": "The text of a tracked object (repr, print) shows its id, age, hit_counter, last_distance with two decimals and initializing_id, each under its name: two texts are equal exactly if these agree. Different objects of one tracker therefore never have the same text, not even at different times and not while they are initializing. Objects of two trackers can have the same text, because the global id is not shown.", "quantifier": "all objects in all states reachable by any sequence of operations on any number of trackers", "why_tests_cant": "It compares the texts of any two objects at any two times; tests compare a text with a literal.", "anchors": ["norfair/tracker.py:TrackedObject.__repr__", "norfair/tracker.py:TrackedObject.__init__", "norfair/tracker.py:_TrackedObjectFactory.get_initializing_id"]}
{"id": "C110", "title": "The IoU distance is a metric, and what it does with malformed boxes", "statement": "The iou distance of well-formed boxes satisfies the triangle inequality (so together with C47 it is a metric: two detections within t of an object are within 2t of each other). If one of two boxes is not well formed (x_min < x_max and y_min < y_max), their distance is 1, except that it is NaN when their signed areas add up to zero; it is never outside [0, 1]. A warning is logged exactly when a candidate is not well formed, and candidates without four columns raise AssertionError. The boxes of the objects are not checked: without any warning the distance can be NaN.", "quantifier": "all real boxes, well formed or not, and all stacks of boxes", "why_tests_cant": "The triangle inequality and the cases of malformed boxes range over all real boxes; tests compute a few distances.", "anchors": ["norfair/distances.py:iou", "norfair/distances.py:_validate_bboxes", "norfair/distances.py:_boxes_area"]}
{"id": "C111", "title": "Without scores the order of the points and axes does not matter", "statement": "If no detection has scores and all detections list their points and their axes in another order (the same one throughout, the camera's translation included), every call of update has the same outcome: the same result or exception, the same objects with the same ids, ages, counters, distances and matched detections, and estimates and velocities that are the old ones in the new order. This holds with each of the three filters and with every distance function that does not depend on the order: frobenius and mean_manhattan for any order of all coordinates, mean_euclidean for any order of points and axes, iou for the exchange of x and y. With scores it fails: of two points of which one is not detected, the estimate of that point depends on whether it is listed first or second.", "quantifier": "all numbers of points and axes, all orders, all videos without scores, all arguments of Tracker, all filters that treat coordinates alike; the named distances over the real numbers and without re-identification", "why_tests_cant": "It compares two whole runs for every video and every order; a test compares one pair of runs.", "anchors": ["norfair/tracker.py:Tracker.update", "norfair/tracker.py:TrackedObject.hit", "norfair/tracker.py:Detection.__init__", "norfair/filter.py:OptimizedKalmanFilter", "norfair/filter.py:FilterPyKalmanFilterFactory", "norfair/filter.py:NoFilter", "norfair/distances.py:frobenius", "norfair/distances.py:mean_euclidean", "norfair/distances.py:mean_manhattan", "norfair/distances.py:iou"]}
{"id": "C112", "title": "The absolute grid is computed once and used again", "statement": "draw_absolute_grid keeps the grids of the last four different combinations of grid size, frame size and polar it was called with, and never more. Whatever calls are made before, a call gets the same positions (or the same exception) as if the grid were computed in each call, provided that the coordinate transformations do not write into the array they are given; those of the library do not. A transformation that works in place moves the grid of all later calls.", "quantifier": "every sequence of calls, with any sizes of grids and frames and any transformations", "why_tests_cant": "It depends on the history of calls of the whole program, of any length.", "anchors": ["norfair/drawing/absolute_grid.py:_get_grid", "norfair/drawing/absolute_grid.py:draw_absolute_grid", "norfair/camera_motion.py:CoordinatesTransformation"]}
{"id": "C113", "title": "With distances in absolute coordinates the motion of the camera does not matter", "statement": "Two trackers with the same arguments follow the same world through two cameras that move, turn and zoom in any way, each camera with a new coordinate transformation in each call. If the distance functions look only at absolute points and absolute estimates, every call of update has the same result for both cameras: the same objects with the same ids, ages, counters, filters and matched detections and the same absolute estimates, and the relative estimate of each object is the absolute one as the camera of that tracker sees it. Every camera whose transformation can be undone on the points of the world gives such a pair with a still camera, in particular every invertible homography that sends none of them to infinity. With a distance of relative points and estimates it fails: a camera that zooms in loses the objects that a still camera keeps.", "quantifier": "all filters and arguments of Tracker, all distance functions of absolute coordinates, all transformations of both cameras, all videos", "why_tests_cant": "It compares two whole runs for every motion of the camera; a test uses one motion.", "anchors": ["norfair/tracker.py:Tracker.update", "norfair/tracker.py:Detection", "norfair/tracker.py:TrackedObject.get_estimate", "norfair/tracker.py:TrackedObject.update_coordinate_transformation", "norfair/camera_motion.py:HomographyTransformation", "norfair/camera_motion.py:TranslationTransformation"]}
{"id": "C114", "title": "Paths draws every object at the mean of its estimate", "statement": "Over any video Paths draws in each call, for each tracked object (also one without a live point), the circles of its points to draw: by default one, at the whole part of the mean of the estimate. The color is that of the drawer or else that of the id in the palette, and radius and thickness are the given ones or follow once and for all from the height of the first frame. No call fails, unless the palette is empty and an object with an id needs a color from it (ZeroDivisionError). The warning about moving cameras is asked for exactly when some object has a coordinate transformation; there the path is wrong: a still object leaves a path.", "quantifier": "all videos with frames of one size, all tracked objects, all arguments of Paths, all palettes", "why_tests_cant": "It ranges over all videos, and over all pixels together with the theorem about the mask.", "anchors": ["norfair/drawing/path.py:Paths"]}
{"id": "C115", "title": "AbsolutePaths writes a part of its drawing into the frame it is given", "statement": "AbsolutePaths.draw returns a frame with everything it draws. The array it is given gets exactly the circles of the objects with a live point up to and including the first one that was drawn in an earlier call; what is drawn after that goes into new arrays. Only if no object with a live point was drawn before is the given array itself returned. So the array of the caller is neither left alone nor does it show what is returned.", "quantifier": "all sequences of calls, all transformations that keep the number of points, all objects of one number of points with different ids, max_history at least 1, any pictures and any drawing functions", "why_tests_cant": "Which array is written depends on the history of all calls; a test sees one history.", "anchors": ["norfair/drawing/path.py:AbsolutePaths.draw"]}
