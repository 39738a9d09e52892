# Read by gen_properties.py: longer reasons for C01-C50, then C51 onwards.
WHY = {
 "C04": "It compares the results of the same call on all permutations of the same input; a test fixes one order.",
 "C05": "The outcome depends on the whole association history of the tracker; tests fix one or two frames.",
 "C07": "The labels can be wrong only after particular sequences of matches and merges; tests use one or two labels in short videos.",
 "C10": "It quantifies over the schedules of the threads, which a test cannot choose.",
 "C11": "The violation may come arbitrarily late in a history, for example after a re-identification.",
 "C12": "Needs all histories; the count goes wrong only when initialized objects are re-identified.",
 "C13": "The set of active objects depends on counters with unboundedly many values; tests look at a few frames.",
 "C14": "The law relates the counters before and after every call, with any period, in every reachable state.",
 "C16": "The other objects may do anything in the meantime, for unboundedly many calls.",
 "C17": "The parameters and the number of frames are unbounded and the interesting values are at the boundaries.",
 "C18": "It speaks about arbitrarily long videos in which nothing is ever missed.",
 "C19": "The period, the counters and the number of cycles are unbounded.",
 "C20": "The age is affected by calls that raise, by merges and by the period only in some histories.",
 "C21": "The countdown may be arbitrarily long and other objects may be re-identified in the meantime.",
 "C22": "The merge depends on the state of two objects and on a matrix of arbitrary size.",
 "C24": "Each point has its own history of scores, of unbounded length.",
 "C28": "It speaks about all states a tracker can be in, including objects at the boundary values of their counters.",
 "C29": "It quantifies over all interleavings of calls of several trackers that share one id counter and one heap of detections.",
 "C30": "The arguments are unbounded integers and optional values; the boundary cases matter.",
 "C31": "Missing detections behave differently with and without a camera transformation and in each state.",
 "C32": "It is the equality of a closed-form filter with the matrix filter, on all dimensions and all sequences of calls.",
 "C33": "The update is nonlinear; the variances could become zero or negative only after long sequences.",
 "C34": "The gain depends on the whole history of the filter; it ranges over real numbers.",
 "C35": "The drift could accumulate over any number of matched and missed frames.",
 "C36": "It relates two runs of unbounded length.",
 "C37": "It speaks about any sequence of masks and measurements.",
 "C38": "An identity between real functions; tests sample a few vectors.",
 "C39": "An identity between rational functions with singular cases; tests sample a few matrices.",
 "C40": "The reference frame changes at arbitrary moments of an arbitrarily long trajectory.",
 "C41": "The reference frame changes at arbitrary moments; frames with few points take another branch.",
 "C42": "The flow and the getter can fail in any subset of the frames.",
 "C43": "Detection objects are mutable and shared, so the result depends on their whole history.",
 "C45": "It speaks about all sequences of calls with and without a transformation.",
 "C46": "It quantifies over all arrays of all shapes, including NaN-free special cases such as equal arrays.",
 "C47": "It ranges over all real boxes, with equality cases that a sample does not hit.",
 "C48": "It ranges over all arrays and scores, with strict and non-strict boundaries.",
 "C49": "The extreme value is attained only at special configurations of real points.",
 "C50": "It quantifies over all strings.",
}
for x in P:
    x["why_tests_cant"] = WHY.get(x["id"], x["why_tests_cant"])

# ---------------------------------------------------------------- what update() writes
p("Matching is exactly the greedy assignment",
  "The list of pairs returned by Tracker.match_dets_and_objs is the greedy one: each pair has the smallest distance among the rows and columns not used so far, the first in row-major order among equal ones, and it stops when no remaining distance is below distance_threshold. This determines the result uniquely, also with ties.",
  "every NaN-free distance matrix and every threshold",
  "Ties are broken by position; a test fixes one tie pattern of one small matrix.",
  [T + "Tracker.match_dets_and_objs"])
p("Objects remember the distance of their match",
  "After update(), last_distance of every object matched in this call is the distance of the matched pair and it is unchanged for objects that were not matched (or comes from the object merged into it); current_min_distance is the smallest distance of the object to a candidate if that is below distance_threshold and None otherwise, and is left alone if all distances of the step are 0 or there is no candidate.",
  "every tracker state and every update() call",
  "The attributes are written in several places per call; the interesting cases (all distances 0, merges, no candidates) need particular histories.",
  [T + "Tracker._update_objects_in_place", T + "TrackedObject.merge"])
p("Which detections are remembered",
  "When a detection is matched, past_detections appends it if there is room; if the list is full the oldest entry is dropped and the new one appended exactly when the age of the object is at least the age of the oldest entry times past_detections_length, and otherwise the list is unchanged. The detection gets the age of the object exactly when it is appended; ages of all other detections are unchanged.",
  "every tracker without re-identification and every call with new, distinct detections",
  "The list is thinned out by a rule over unbounded ages.",
  [T + "TrackedObject._conditionally_add_to_past_detections"])
p("State of a new object",
  "An object created by update() starts with hit_counter equal to the period, age 0, the label of its detection, no last_distance or current_min_distance, initializing exactly when the period is not larger than initialization_delay, point counters 1 for the points above detection_threshold and 0 for the others, estimate equal to the detected points (in the coordinates of the camera), zero velocity and the detection as only past detection.",
  "every tracker state, detection, period and camera transformation, all three filters",
  "Everything one can read off a new object, for detections of all shapes and scores.",
  [T + "TrackedObject.__init__", F + "OptimizedKalmanFilterFactory.create_filter", F + "NoFilterFactory.create_filter", F + "FilterPyKalmanFilterFactory.create_filter"])
p("The estimate is the filter run on the matched detections",
  "The estimate and velocity of an object are those of its filter after exactly one prediction per update() call and one correction per matched detection, the correction using the absolute points of the detection with the points above detection_threshold as sensors.",
  "every tracker without re-identification, every video, every object whose points were all above the threshold in the first detection, all three filters",
  "It ties the object after an arbitrarily long video to a replay of the filter on exactly its own detections.",
  [T + "TrackedObject.tracker_step", T + "TrackedObject.hit", T + "Tracker.update"])
p("The re-identification step",
  "In a call with a reid_distance_function the candidates are the initializing objects that got a detection in this call, the objects they are compared to are the initialized objects without detection in this call followed by the objects whose hit_counter is below 0 and whose countdown is not over; the merges are the greedy assignment below reid_distance_threshold; the merged object takes over detection, distances and filter and the candidate disappears, the other candidates stay.",
  "every tracker state and every update() call with a reid_distance_function",
  "A third association step whose input depends on the outcome of the first two.",
  [T + "Tracker.update", T + "TrackedObject.merge"])

# ---------------------------------------------------------------- images and files
FC = "norfair/drawing/fixed_camera.py:"
U = "norfair/utils.py:"
M = "norfair/metrics.py:"
p("The stabilized view shows a still world",
  "FixedCamera.adjust_frame never fails on translations (scale >= 0, frames of any sizes, the frame may leave the canvas partly or completely); all results have the size round(height*scale) x round(width*scale) of the first frame; every pixel is the pixel of the last frame that covered the position, with the frame centered and moved by minus the camera motion (rounded to pixels), faded once per later call, or black if no frame covered it. Fading never brightens, ends in black after at most 255 calls if attenuation > 0 and changes nothing if attenuation = 0. A negative scale raises ValueError in the first call, unless both sides of the canvas round to zero. The warning that the frame is cropped is asked for exactly in those calls in which a part of the frame comes to lie outside of the canvas.",
  "every sequence of frames and translations of any length, every scale and attenuation",
  "The view accumulates over the whole video and clipping has many cases at the four borders.",
  [FC + "FixedCamera.adjust_frame"])
p("Cut-outs are the part of the image in the bounding box",
  "get_cutout(points, image) returns the pixels with truncated minimum <= coordinate < truncated maximum in both directions, clipped to the image, when no coordinate is negative. With a negative coordinate the result is in general not the overlap with the image (it is usually empty).",
  "every image and every non-empty list of points",
  "Negative coordinates silently wrap around in numpy slices.",
  [U + "get_cutout"])
p("Sequence information is looked up by name",
  "InformationFile.search(name) returns the value of the line name=value, as an int if it consists of digits, provided no earlier key starts with name; it raises ValueError exactly when no line starts with name. If an earlier key has name as a proper prefix the wrong line is read.",
  "every file and every name without '='",
  "It ranges over all files; the collision needs particular keys.",
  [M + "InformationFile.search"])
p("The predictions file lists exactly the tracked boxes",
  "After one update() per frame, the text written by PredictionsTextFile is, frame by frame from 1, one line frame,id,left,top,width,height,-1,-1,-1,-1 per object in the given order; the file is closed exactly when seqLength frames were written, and later updates with objects raise and write nothing.",
  "every video not longer than seqLength, every list of objects per frame",
  "The file is the result of an arbitrarily long run.",
  [M + "PredictionsTextFile.update"])
p("The detections file is split into frames",
  "Iterating over DetectionFileParser yields exactly seqLength lists, the k-th consisting of exactly the detections of the rows with frame number k (corners left, top, left+width, top+height and the confidence of the row as both scores), in any order of rows in the file, again after every new iter(). Files with fewer than two rows raise IndexError.",
  "every file with at least seven columns, every sorting function used for the rows",
  "It ranges over all files, row orders and partial iterations.",
  [M + "DetectionFileParser"])
p("Files written are read back",
  "Reading the file of PredictionsTextFile with DetectionFileParser gives for every frame exactly the boxes written for it, up to order; with float32 rounding in between, exactly the rounded boxes.",
  "every video of seqLength frames with at least two boxes, every text format of numbers without separators that can be read back",
  "Round trip over all videos and all numbers.",
  [M + "PredictionsTextFile.update", M + "DetectionFileParser"])
p("Metrics are computed on the boxes of each sequence",
  "If update() was called exactly seqLength times after each create_accumulator(), and no video contains exactly one box, compute_metrics() compares for each sequence exactly the boxes given for it, with frames numbered from 1 and one subtracted from left and top. One update too many makes the following sequences be evaluated with wrong boxes, a video with one box raises, and of sequences with the same last path component only the last is evaluated. An update() before create_accumulator(), or after a first create_accumulator() that raised, raises and keeps no predictions. If a later create_accumulator() raises, the updates after it go on with what is left of the previous progress bar: until it ends their boxes are collected, with frames numbered from 1, and stored for the new path.",
  "every list of sequences with distinct names, every length and every list of objects per frame",
  "The state is shared between sequences and the effect of a miscount only appears in later sequences.",
  [M + "Accumulators", M + "load_motchallenge", M + "eval_motChallenge"])

# ---------------------------------------------------------------- colors and drawing
CO = "norfair/drawing/color.py:"
DP = "norfair/drawing/draw_points.py:"
DB = "norfair/drawing/draw_boxes.py:"
DR = "norfair/drawing/drawer.py:"
PA = "norfair/drawing/path.py:"
p("Hexadecimal colors",
  "A color '#rrggbb' with lowercase digits is read as (blue, green, red), '#rgb' as the color with every digit doubled, and every other string starting with '#' (apart from one newline at the end) raises ValueError, including the form '#FF0000' given in the documentation of draw_points and draw_boxes.",
  "every string",
  "It ranges over all 16.8 million colors and all strings.",
  [CO + "hex_to_bgr", CO + "parse_color"])
p("Named colors",
  "A color given as a string is a triple of integers between 0 and 255; strings starting with '#' otherwise raise ValueError and other strings raise AttributeError, except the names of CSS (148 of them), tab1 to tab20 and cb1 to cb10, which give the colors that CSS, matplotlib (tab20) and seaborn (colorblind) define.",
  "every string",
  "It ranges over all strings.",
  [CO + "parse_color", CO + "Color"])
p("Palettes",
  "Palette.set accepts exactly the three names or a list of colors and leaves the palette unchanged if it raises; the chosen color is in the palette, is the default color for None, and two ids that differ by less than the number of colors get different colors (the predefined palettes are those of matplotlib and seaborn and have no repeated color; tab10 is the initial one). With an empty palette choosing a color raises ZeroDivisionError.",
  "every palette, every key and every pair of ids below 2^61 - 1",
  "It ranges over all ids and palettes; the palette is global state.",
  [CO + "Palette"])
p("Texts of drawn objects",
  "The text of an object consists of its label, its id and the mean of its scores, each only if asked for and known, joined by single '-' without leading or trailing '-'.",
  "every object or detection and all eight combinations of the flags",
  "Combinations of absent parts with labels of any content, including the empty string.",
  ["norfair/drawing/utils.py:_build_text"])
p("Points drawn",
  "draw_points draws object by object exactly one circle for each live point (for every point if hide_dead_points is False), at the estimate truncated to integers, in the color of the object; the text is drawn once with its shadow, at the mean of the live points minus the radius. An object without live points has no effect when dead points are hidden. It does not fail for valid colors. With drawables=None it returns None instead of the frame, and color_by_label=False acts like True.",
  "every list of objects and detections, frame size and all options",
  "It ranges over all objects, live masks and options.",
  [DP + "draw_points", DR + "Drawer.text", DR + "Drawable"])
p("Boxes drawn",
  "draw_boxes draws object by object exactly one rectangle from the first to the second point, truncated to integers, in the color of the object, and the text with its shadow at the first point exactly when it is not empty. It does not fail for valid colors and objects of two points. color_by_label=False acts like True and random_color=False like True.",
  "every list of objects and detections, frame size and all options",
  "It ranges over all objects and options.",
  [DB + "draw_boxes", DR + "Drawer.text", DR + "Drawable"])
p("The absolute grid",
  "draw_absolute_grid draws a cross at a grid point exactly when its position in the current frame is inside the frame (borders included).",
  "every camera transformation, every grid and frame size",
  "It ranges over all camera motions.",
  ["norfair/drawing/absolute_grid.py:draw_absolute_grid", DR + "Drawer.cross"])
p("Paths in absolute coordinates",
  "AbsolutePaths remembers for every id exactly its last max_history positions in absolute coordinates; each call draws for every object with a live point circles at its current points and one line per pair of consecutive remembered positions, in the coordinates of the current frame, with weights falling from 0.99 to 0.01 with age. Calling draw without coord_transform, its default, raises AttributeError as soon as an object has a live point.",
  "every sequence of calls, every camera motion and every max_history; ids of the objects of a call are distinct",
  "The drawing depends on the history of all calls.",
  [PA + "AbsolutePaths"])
p("Fading paths",
  "With Paths every pixel of the mask has the color of the last circle drawn over it, faded once per later call, or is black; the result is the frame plus the mask, saturating at 255, so where no path went the frame is unchanged.",
  "every video of any length, every shape of circles and every attenuation",
  "The mask accumulates over the whole video.",
  [PA + "Paths"])
V = "norfair/video.py:"
p("Making a video",
  "Video(...) succeeds exactly when one source is given and usable: an int camera, or a path (after expanding '~') of an existing file in which OpenCV finds at least one frame. Both or none, or a camera that is not an int, raise ValueError; a missing or unreadable file raises RuntimeError. The frame rate is output_fps if given and otherwise that of the source.",
  "all arguments and every state of the file system",
  "It ranges over all combinations of arguments and files.",
  [V + "Video.__init__"])
p("Frames of a video",
  "Iterating over a Video yields each frame that can be read from the source exactly once and in order, up to the first failed read, however many iterators are made and however reading is interleaved with writing. With one iterator the frame counter counts the reads, the failed one included, and the source is closed exactly when that one is made. If no time has passed since the start when a frame is read, the frame is lost: next raises ZeroDivisionError, the iteration is over and the source is left open.",
  "every source, finite or endless, every sequence of next calls on any number of iterators and of write calls",
  "Interleavings of several iterators and writes over sources of any length.",
  [V + "Video.__iter__", V + "Video.write"])
p("Frames written",
  "The output file is opened at the first write, with the size of that frame, and gets exactly the frames written, in order; when the loop over the video ends it is closed after the last of them, and so is the source, so everything written inside the loop is saved. Leaving the loop early closes neither. Frames written after the loop has ended are lost without an error.",
  "every video, every body of the loop and every sequence of reads and writes",
  "It concerns every order of reads and writes over a whole run.",
  [V + "Video.__iter__", V + "Video.write"])
p("The output file",
  "With output_path a folder, the output is written in it under the name of the input up to its first dot followed by '_out.' and the extension, and is never the input; two inputs share an output exactly when their names agree up to the first dot, so 'a.1.mp4' and 'a.2.mp4' overwrite each other. All cameras share one name. With any other output_path this is the output, even if it is the input.",
  "all paths, folders and extensions",
  "It ranges over all pairs of paths.",
  [V + "Video.get_output_file_path"])
p("Codecs",
  "The codec is output_fourcc if given, otherwise XVID for names ending in 'avi' and mp4v for names ending in 'mp4', in upper or lower case; for any other name RuntimeError is raised and a write leaves nothing behind.",
  "all file names and values of output_fourcc",
  "It ranges over all strings.",
  [V + "Video.get_codec_fourcc", V + "Video.write"])
p("Text of the progress bar",
  "In a terminal of 32 columns or more the description is shown in full if it is shorter than the columns minus 25, and otherwise as a beginning and an end of it, of equal length up to one, around ' ... ', so that it fits. With 31 columns a description of six or more characters becomes longer instead. The size of the terminal is that of the first standard stream that has one. The description names the file without its folder, or the camera, and the label if there is one; the bar counts up to the number of frames of the file.",
  "all descriptions and terminal sizes",
  "It ranges over all strings and widths.",
  [V + "Video._get_progress_description", "norfair/utils.py:get_terminal_size"])
p("Frames in a folder",
  "VideoFromFrames yields the paths of the frames 1 to seqLength, numbered with at least six digits, each once and in order, and again for each new loop. With make_video the video gets the frame given for each of them and is closed after the last. A frameRate that is not a whole number is passed on as a string, which OpenCV rejects.",
  "every information file, length and pair of paths",
  "It ranges over sequences of any length.",
  [V + "VideoFromFrames"])
p("Showing a frame",
  "show divides the size of the frame by an int ratio, rounding down, and shows the frame itself for the ratio 1; the ratio 0 raises ZeroDivisionError; any other float ratio is passed on as a float size, which OpenCV rejects.",
  "every frame and ratio",
  "It ranges over all ratios and sizes.",
  [V + "Video.show"])
p("The table of objects",
  "print_objects_as_table prints one row per object, in order, if every object has been matched at least once, and otherwise raises TypeError, in particular if the list contains an object made by the last update.",
  "every tracker state and list of objects",
  "Which objects have been matched depends on the whole run.",
  ["norfair/utils.py:print_objects_as_table"])
p("Warnings",
  "warn_once logs every distinct message exactly once, in the order in which they first occur.",
  "every sequence of messages",
  "The sequence has any length.",
  ["norfair/utils.py:warn_once"])
p("Points of the absolute grid",
  "The grid of draw_absolute_grid consists of grid_size squared points: those of a half sphere in front of the camera at evenly spread angles, projected on the image plane, around the equator or (polar) around the pole.",
  "all grid sizes and frame sizes; exact real arithmetic",
  "It concerns real functions over all sizes.",
  ["norfair/drawing/absolute_grid.py:_get_grid"])
p("Classes do not interact",
  "A tracker given all detections of a video and an equal one given only those with certain labels return, after every call, the same objects with those labels, in the same order and the same throughout, except for id, global_id, initializing_id and current_min_distance. This holds for scalar distances that do not read these and for all vectorized distances, re-identification included, except that for vectorized distances labels with the same str, as 1 and '1', do interact.",
  "every configuration, video and set of labels in which the tracker with all detections raises no error",
  "It compares two runs of any length.",
  ["norfair/tracker.py:Tracker.update", "norfair/tracker.py:Tracker._update_objects_in_place", "norfair/distances.py:ScalarDistance.get_distances", "norfair/distances.py:VectorizedDistance.get_distances"])
p("A steady motion is learned",
  "If all points of the first detection of an object are above the threshold, it is matched with a new detection in every later call and a coordinate of one of its points, above the threshold, advances by the same amount v per call, then its estimate and its estimate_velocity become as exact as desired, after a number of calls that depends only on v and the filter parameters, and stay so; in all calls the estimate is at most K |v| away from the true position, where K depends only on the filter parameters (2 for the default OptimizedKalmanFilterFactory). The same holds for FilterPyKalmanFilterFactory.",
  "every tracker without re-identification, video, object, coordinate, speed and precision, and all filter parameters with R > 0, Q >= 0 and a positive definite initial covariance; exact real arithmetic",
  "It is a limit over videos of any length.",
  [F + "OptimizedKalmanFilter", F + "FilterPyKalmanFilterFactory", T + "TrackedObject.hit", T + "TrackedObject.tracker_step"])
p("Well-formed calls return",
  "A program that creates detections with the same number of points and dimensions (and one score per point, if any) and passes them in any number, order and combination, also repeatedly or not at all, with any periods, gets no error from update: the distances, if they are defined and not NaN for such detections, make a matrix that the matching terminates on, no past detection lacks an age, and a re-identified object is always removed exactly once. The scalar distances of the library are defined for all such detections, whatever the filter has made of the estimate. The distance 'iou' is not: the filter can predict a box with negative area, and then a call with proper boxes can raise ValueError.",
  "every configuration whose thresholds survive adding 1, every sequence of calls, filter and camera motion that keeps the shape of points",
  "The absence of errors concerns all sequences of calls; the errors depend on states reached only after many of them.",
  [T + "Tracker.update", T + "TrackedObject._conditionally_add_to_past_detections", T + "TrackedObject.merge", "norfair/distances.py:VectorizedDistance.get_distances", "norfair/distances.py:iou"])
p("No identity switches when distances tell things apart",
  "If in every call each thing is detected at most once and the distance between an object and a detection with its label, after the objects have made their step, is below distance_threshold exactly if the detection shows the thing of the object's last detection, then every detection of a thing that an object follows goes to that object, a new object is made exactly for every detected thing that no object with non-negative hit_counter follows, no object changes from one thing to another, ever, and no two objects with non-negative hit_counter follow the same thing.",
  "every scalar distance that does not read the age of detections, configuration without re-identification, and video, including missed and reappearing things",
  "It concerns videos of any length, with any number of things, over all ways in which distances can be ordered within the threshold.",
  [T + "Tracker.update", T + "Tracker._update_objects_in_place", T + "Tracker._match_dets_and_objs", "norfair/distances.py:ScalarDistance.get_distances"])
p("Steadily moving things are followed",
  "A new tracker, without re-identification, is called with one new detection of each thing per call, in any order. The points of each thing move by the same vector per call, K times this motion is below distance_threshold, and things with the same label stay further apart than distance_threshold plus K times the motion. Then no call raises; the first call makes one object per thing and no other object is ever made or dropped; every object is matched with the detection of its thing in every call; and update returns no object before call initialization_delay and all of them from then on. The estimates are never further from the things than a constant times their speed and, with a Kalman filter, estimate and estimate_velocity become as exact as desired. K depends only on the filter (1 for NoFilterFactory, 6.4 for the default OptimizedKalmanFilterFactory, 2.2 for the default FilterPyKalmanFilterFactory).",
  "any number of things, points, dimensions and calls, all positions, motions, labels and scores above the threshold, the distances frobenius, mean_euclidean and mean_manhattan, all filter parameters with R > 0, Q >= 0 and a positive definite initial covariance; exact real arithmetic",
  "It is a statement about the whole tracker over videos of any length and real positions.",
  [T + "Tracker.update", T + "Tracker._update_objects_in_place", T + "TrackedObject.hit", F + "OptimizedKalmanFilter", F + "FilterPyKalmanFilterFactory", F + "NoFilter", "norfair/distances.py:mean_euclidean", "norfair/distances.py:mean_manhattan", "norfair/distances.py:frobenius"])
p("The deprecated drawing functions",
  "draw_tracked_objects draws what draw_points draws with dead points hidden, and returns nothing. Without radius the circles have radius floor(height/200), without id_thickness the text has thickness floor(height/500), 0 for low frames, and without label_size the text has size 1 (frames lower than 20000); id_size, if positive, has no influence unless label_size is 0. draw_tracked_boxes draws what draw_boxes draws, writes ids only if a positive id_size is given, and so writes nothing by default. color_by_label=True means coloring by label in both.",
  "all objects, frame shapes, palettes and arguments; up to the calls of OpenCV",
  "It is about all combinations of the arguments with the frame size; examples show single ones.",
  [DP + "draw_tracked_objects", DB + "draw_tracked_boxes"])
p("A tracker does not accumulate objects",
  "After every call of a new tracker the number of tracked objects is at most the number of detections passed in the latest hit_counter_max + 2 calls (with re-identification, reid_hit_counter_max + 1 calls more), and the number of returned objects at most that of the latest hit_counter_max + 1 calls; if a call has a period above hit_counter_max, or there is re-identification and twice a period is above it, that takes the place of hit_counter_max. So with a bounded number of detections per call the number of objects held is bounded by a constant, however long the video.",
  "every configuration, filter, distance, sequence of calls that return, periods and camera motions",
  "Tests run for a bounded time; this bounds all videos, and for every number and placement of detections.",
  [T + "Tracker.update", T + "TrackedObject.hit", T + "TrackedObject.tracker_step", T + "TrackedObject.merge", T + "TrackedObject.hit_counter_is_positive", T + "TrackedObject.reid_hit_counter_is_positive"])
p("Inexactly detected things that change their speed are followed",
  "If the motion of a coordinate changes by at most acc per call and each of its detections is off by at most eps, then the position, the velocity and the prediction of a Kalman filter with R > 0, Q > 0 and a positive definite initial covariance are never further off than an explicit bound, linear in eps, acc and the first motion v, whose dependence on v fades geometrically; without a filter the bound is the greatest motion plus eps. A new tracker without re-identification that gets one new detection of each thing per call, in any order, raises no error, makes one object per thing in the first call and no other ever, matches every object with its thing in every call, returns all of them from call initialization_delay on, and has estimates and velocities within the bound, provided that arrays that differ everywhere by the bound plus eps are closer than distance_threshold and that detections of things with the same label are further apart than distance_threshold plus this distance.",
  "any number of things, points, dimensions and calls, all paths, errors of the detections, labels and scores above the threshold, the distances frobenius, mean_euclidean and mean_manhattan, and all filter parameters; exact real arithmetic",
  "It is a statement about the whole tracker over videos of any length, all paths and all errors of the detections.",
  [T + "Tracker.update", T + "Tracker._update_objects_in_place", T + "TrackedObject.hit", F + "OptimizedKalmanFilter", F + "FilterPyKalmanFilterFactory", F + "NoFilter", "norfair/distances.py:mean_euclidean", "norfair/distances.py:mean_manhattan", "norfair/distances.py:frobenius"])
p("The order of the detections does not matter",
  "Two equal trackers are shown the same video, the second one with the detections of each call in some other order. If no detection is passed twice and, in the first run, no two distances below the threshold of one matching are equal, then the second tracker raises an error only if the first does, and in every call both return the same objects, hold the same objects and have the same total_object_count, except for the order of objects, id, global_id, initializing_id and current_min_distance; and the same is written to the detections. This holds for distances computed pair by pair, as all distances of the library are except those of scipy, and with re-identification. Where two distances are equal, the order can decide which detection an object gets.",
  "every configuration, video and reordering of its calls",
  "It compares two runs of any length under all permutations.",
  [T + "Tracker.update", T + "Tracker._update_objects_in_place", T + "Tracker._match_dets_and_objs", D + "ScalarDistance.get_distances", D + "VectorizedDistance.get_distances"])
p("Tracking does not depend on the unit and the origin of the coordinates",
  "Two trackers are shown the same video in two coordinate systems, in which coordinate k is x_k and scale_k * x_k + shift_k, with all other arguments the same. If the distance functions and thresholds of the second are those of the first in the new units, every call has the same outcome: the same exception or the same objects returned, the same objects held, with the same id, age, counters, matched detections and past detections, estimates and velocities that are those of the first in the new units, and the same age and absolute_points (in the new units) written to the detections. Concretely: with frobenius, mean_euclidean or mean_manhattan and all axes scaled by the same factor c (or mirrored), only distance_threshold is multiplied by c; with keypoints voting, only keypoint_distance_threshold; with the normalized distance, the image size; with iou each axis can be stretched by its own positive factor and nothing is changed. This holds for NoFilter, OptimizedKalmanFilter and FilterPyKalmanFilter, whose parameters need no change, and with translating cameras and with re-identification. Exchanging x and y is not such a change: with points that are not detected, the estimates of the exchanged video can be others.",
  "every configuration, every video of points of one dimension, every scale and shift; exact arithmetic (rounding to float32 is only respected where it commutes with the change of unit)",
  "It compares two runs of any length under a continuous family of coordinate changes.",
  [T + "Tracker.update", T + "TrackedObject.hit", T + "TrackedObject.merge", T + "TrackedObject.get_estimate", F + "OptimizedKalmanFilter", F + "FilterPyKalmanFilterFactory", F + "NoFilter", D + "frobenius", D + "mean_euclidean", D + "mean_manhattan", D + "iou", D + "create_keypoints_voting_distance", D + "create_normalized_mean_euclidean_distance"])
p("What a detection keeps of the array it is made of",
  "Detection(points) accepts arrays of rank up to 2 and raises ValueError for others; a rank 1 array counts as one point. Whatever the user writes into arrays afterwards, and whatever other detections are made of them, detection.points shows what is in the array now and detection.absolute_points what was in it when the detection was made; writing to an array never changes another. If nothing is written, both are the given points. A buffer that is reused for the next detection therefore moves the points of all detections made of it, but not their absolute_points. An array of rank 0 is accepted but no object can be made of the detection (IndexError).",
  "every program of making arrays, writing into them and making detections, of any length; every shape",
  "The effect of shared memory depends on the order of writes and constructions in arbitrarily long programs.",
  [T + "Detection.__init__", "norfair/utils.py:validate_points", T + "TrackedObject.__init__"])
p("The report compares each sequence with its own ground truth",
  "compute_metrics() succeeds exactly if all ground truth files can be read, no sequence lacks frames (fewer finished sequences than paths) and none consists of exactly one box. Its report has one row per different last path component, in the order of first appearance, and the row compares the ground truth and the predictions of the same position, that of the last path with the name. Afterwards save_metrics() writes exactly that text to the given file and to no other and print_metrics() prints it; computing again gives the same. Without motmetrics, create_accumulator() and compute_metrics() raise ImportError and change nothing. Saving before computing raises AttributeError, and leaves the file empty.",
  "every list of sequences (also with equal names), every ground truth, every sequence of saves; motmetrics is arbitrary",
  "The pairing depends on all paths and all updates before.",
  ["norfair/metrics.py:Accumulators.compute_metrics", "norfair/metrics.py:Accumulators.save_metrics", "norfair/metrics.py:Accumulators.print_metrics", "norfair/metrics.py:compare_dataframes", "norfair/metrics.py:eval_motChallenge", "norfair/utils.py:DummyMOTMetricsImport"])
p("Predictions of an object that is not seen for a while",
  "If a coordinate moves by v per call and its filter is corrected, exactly, in some of the calls only, with at most G calls without a correction between two corrections, then after up to T more calls without a correction the prediction is at most a constant times |v| away from the coordinate: T + 1 without a filter, and an explicit constant, independent of the number of calls, for FilterPyKalmanFilter and all G, and for OptimizedKalmanFilter with G = 0. For OptimizedKalmanFilter with gaps there need not be any constant: with the default parameters and a correction in every 64th call the error grows beyond every bound, since its predict() does not widen the covariance.",
  "all motions, patterns of corrections within the bounds, numbers of calls, and filter parameters with R > 0, Q >= 0 and positive definite initial covariance; exact real arithmetic",
  "It bounds an error over all patterns of occlusion of any length; the divergence needs arbitrarily long runs.",
  [F + "OptimizedKalmanFilter.predict", F + "OptimizedKalmanFilter.update", F + "FilterPyKalmanFilterFactory", F + "NoFilter", T + "TrackedObject.tracker_step"])
p("Things that appear, leave and are occluded keep their objects",
  "A new tracker without re-identification gets, in each call, one new detection of each of the things visible in it, in any order. The credit of a thing is 1 with its first detection, then grows by 1 with every detection, up to hit_counter_max, and shrinks by 1 with every call without one. If no thing is detected again once its credit is negative, each thing moves steadily and slowly enough, and detected things are far enough from all other things with the same label and credit, then no call raises, every thing that has been detected has exactly one object and there are no other objects; a detection is matched with the object of its thing, also after an occlusion; the hit counter of the object is the credit of the thing; the object is kept exactly while the credit is at least -1 and returned exactly while it is at least 0, once it has been above initialization_delay; and while its thing is not detected the estimate moves on with it, within K times the motion per call. With the default parameters and filterpy, K is about hit_counter_max + 2 for all occlusions; with the optimized filter it is about 1.05 hit_counter_max + 3 for things that are detected in every call between their appearing and leaving.",
  "any number of things, points, dimensions and calls, all steady motions, labels, patterns of visibility, orders and scores above the threshold, the distances frobenius, mean_euclidean and mean_manhattan, all hit_counter_max and initialization_delay, and all filter parameters; exact real arithmetic",
  "It is a statement about the whole tracker over videos of any length, all motions and all patterns of occlusion.",
  [T + "Tracker.update", T + "Tracker._update_objects_in_place", T + "TrackedObject.hit", T + "TrackedObject.tracker_step", T + "TrackedObject.hit_counter_is_positive", F + "OptimizedKalmanFilter", F + "FilterPyKalmanFilterFactory", F + "NoFilter", "norfair/distances.py:mean_euclidean", "norfair/distances.py:mean_manhattan", "norfair/distances.py:frobenius"])
p("A thing that comes back gets its old object back",
  "Every detection shows one of some things. If, in every call, each thing is detected at most once, an object that can be matched is near the detection of the thing it was matched with last and near no other, and the re-identification distance is below its threshold exactly for two objects of the same thing, then: an object never changes to another thing, also when it is re-identified; a detection goes to the object that follows its thing; a new object is made exactly for things for which no object can be matched; and when an object that is still initializing gets a detection while there is a retired object of the same thing (no hits left, countdown not over), the retired object takes the detection over, with its ids, and the other one is dropped. So two successive detections of a returned thing bring its object back, if the period is at most initialization_delay: the second call returns it. The condition on the re-identification distance holds if it compares embeddings that tell the things apart. If the period is always larger than initialization_delay (always with initialization_delay=0) no object is ever re-identified, whatever the distances.",
  "all videos of any length, any number of things, all distances, filters, labels, periods and configurations with a scalar distance; exact arithmetic is not needed",
  "It is a statement about all calls of arbitrarily long videos and all ways in which things can leave and return.",
  [T + "Tracker.update", T + "Tracker._update_objects_in_place", T + "TrackedObject.merge", T + "TrackedObject.tracker_step", T + "TrackedObject.reid_hit_counter_is_positive", T + "Detection.embedding"])
p("Bookkeeping parameters and the names of labels do not influence tracking",
  "Take two new trackers with the same distance functions, thresholds, hit_counter_max, initialization_delay and reid_hit_counter_max, and show them the same detections in the same calls. They may differ in past_detections_length, in pointwise_hit_counter_max and in the names of the labels (different labels stay different), and in detection_threshold as long as the same scores are above it. If no detection object is overwritten and the distance functions look at neither labels, past detections nor point counters, every call has the same outcome: it returns the same objects or raises the same exception, and all objects held have the same ids, ages, counters, last detections, filter states and estimates. All the distance functions of the library are of this kind. A distance function that looks at past_detections makes past_detections_length matter.",
  "all videos of any length, all configurations, filters, number types, injective renamings of labels and distances, with and without re-identification",
  "It compares two runs of any length over all values of the parameters; a test compares a few runs.",
  [T + "Tracker.__init__", T + "Tracker.update", T + "TrackedObject.hit", T + "TrackedObject._conditionally_add_to_past_detections", T + "TrackedObject.merge", "norfair/distances.py:ScalarDistance"])
p("Only the order of the distances and the threshold matters",
  "Take two new trackers with the same arguments except that the distances stored by the second one, and its threshold, are obtained from those of the first one by a function that keeps the order, NaN, zero and infinity (and the same, with another such function, for re-identification). Shown the same detections in the same calls, every call has the same outcome: it returns the same objects or raises the same exception, and all objects held are the same except for the distances they remember. For example, in exact arithmetic, any strictly increasing function of a distance of the library with the function of the threshold, such as the square of frobenius with the square of the threshold. The distances that count are the stored float32 numbers: an increasing function of the exact distances may separate two that are stored as the same number, and then the outcome may change.",
  "all videos of any length, all scalar and vectorized distances that do not look at the remembered distances, all filters, number types and configurations, with and without re-identification",
  "It compares two runs of any length for all increasing functions; a test compares a few runs.",
  [T + "Tracker.__init__", T + "Tracker.update", T + "Tracker._update_objects_in_place", T + "Tracker._match_dets_and_objs", "norfair/distances.py:ScalarDistance.get_distances", "norfair/distances.py:VectorizedDistance.get_distances"])
p("Distances are stored as the nearest float32 number",
  "The distance that an object remembers (last_distance) for a detection it got, and that is compared with the threshold and the other distances, is the value of the scalar distance function rounded as IEEE 754 binary32: the nearest number with 24 significant bits that is a multiple of 2^-149, the one with even significand of two, and infinity from 2^128 on. So no float32 number is closer to the value, a value that is a float32 number is stored exactly, and storing never reverses the order of two distances. But it can make two different distances equal, such as 2^24 and 2^24 + 1.",
  "all finite rational distances, all scalar distance functions, all tracker states and calls",
  "It is about all numbers; tests try a few, and a wrong last bit or a wrong subnormal shows only in rare ties.",
  ["norfair/distances.py:ScalarDistance.get_distances", T + "Tracker._update_objects_in_place", T + "Tracker._match_dets_and_objs", T + "TrackedObject.last_distance"])
p("What one call of a transformation getter returns and remembers",
  "TranslationTransformationGetter called with the tracked points of the current and the reference frame returns a translation whose movement vector is the most frequent binned flow (the smallest in lexicographic order if several are), added to the movement accumulated so far; it returns True, and accumulates this movement, exactly if the share of points with that flow is below the wanted proportion, and otherwise remembers nothing. Without arrays it raises TypeError, without points ValueError, and remembers nothing. HomographyTransformationGetter with at least four points returns the homography it fitted multiplied by the accumulated one, asks for a new reference and accumulates the product exactly if the share of inliers is too low; it raises LinAlgError if that product cannot be inverted. With fewer points it returns True and the accumulated homography, or None, and remembers nothing new. If no homography can be fitted the call raises, and, when the share of inliers is too low, forgets the accumulated one.",
  "all getters, all accumulated states, all pairs of point arrays, all rounding functions and all results of the fit",
  "It ranges over all sets of flows, ties included, and all histories accumulated before; tests use a few frames.",
  ["norfair/camera_motion.py:TranslationTransformationGetter.__call__", "norfair/camera_motion.py:HomographyTransformationGetter.__call__"])
p("Estimates are weighted sums of the measurements",
  "For both Kalman filters, given the parameters and the list of calls (predict, or update together with the information whether this coordinate was measured), there are fixed weights such that the estimate of a coordinate is the weighted sum of its first position and its measurements, and its velocity is another weighted sum of them. The weights of a position have sum 1 and those of a velocity sum 0; measurements that were masked have weight 0. The weights do not depend on the values, on the other coordinates, on which coordinate it is or on the number of points. With the default parameters the first correction after a prediction moves the estimate by 111/151 (filterpy: 3/4) of the difference to the measurement and sets the velocity to 10/151 (filterpy: 5/8) of it.",
  "all parameters with R > 0 and the other variances not negative, all first detections, all sequences of calls, all values and masks, every coordinate",
  "It asserts that the weights are the same for all values and all dimensions, for sequences of any length; a test evaluates a few sequences on a few values.",
  ["norfair/filter.py:OptimizedKalmanFilter", "norfair/filter.py:OptimizedKalmanFilterFactory", "norfair/filter.py:FilterPyKalmanFilterFactory"])
p("Things that are far from each other do not influence each other",
  "If, in a video, no detection ever has a distance below distance_threshold to an object that can be matched and was last matched with a detection of another group, then a tracker that is given only the detections of one group returns and holds, after every call, exactly the objects of that group which the tracker given all detections returns and holds, in the same order and with the same estimates, counters, past detections and so on; only the numbers given to objects (id, global_id, initializing_id) and current_min_distance differ. So far-away clutter or another crowd in the frame changes no track. As soon as one detection comes near an object of the other group this is false.",
  "all videos, all ways to divide the detections into two groups, all scalar distances that read neither numbers nor ages, all tracker configurations without re-identification, all filters",
  "It compares two whole runs, for any number of objects and calls; the greedy matching goes through all pairs of both groups in one order, and tests cover a few scenes.",
  [T + "Tracker.update", T + "Tracker._update_objects_in_place", T + "Tracker._match_dets_and_objs", "norfair/distances.py:ScalarDistance.get_distances"])
p("The matching finds at least half of the pairs, and a larger threshold only adds pairs",
  "In each matching step of update (and of the matching of detections and objects in general), if detections and objects could be paired one-to-one in some way with k pairs below the threshold, then at least k/2 pairs are made; this bound is reached for every k, so pairs can be missed. If no detection is below the threshold for two objects and no object for two detections, every pair below the threshold is made. It is not true that the total distance of the pairs made is the smallest possible: for two detections and two objects it can exceed the best one by any factor. With a larger threshold all pairs are made again, in the same order and before all others, and the additional pairs are at distances not below the smaller threshold; in update this holds for the first step (initialized objects) of a call from the same state. It is not true of the second step: an initializing object can lose its detection when the threshold grows.",
  "all tables of distances of all sizes, all thresholds, all competing assignments, all tracker states and calls",
  "It compares the result with every possible assignment of any number of detections and objects; tests compute a few tables.",
  [T + "Tracker._match_dets_and_objs", T + "Tracker._update_objects_in_place", T + "Tracker.update"])
p("Small errors change nothing unless something is close to the threshold or to a tie",
  "Take two programs that track the same video with the same arguments, one perhaps in exact and the other in floating point arithmetic: their filters and distance functions differ, but the distances they store differ by at most eps. If, whenever the first program computes a table of distances, no distance is within eps of the threshold and no two distances below the threshold are within 2 eps of each other, then the second program gives the same tracking: every call returns, and holds, the same objects with the same ids, counters, labels and past detections, matched with the same detections. The same holds for every other notion of near numbers, as long as near tables compare alike; with equal distances it holds without any condition, ties included. For example norfair, which stores distances in float32, tracks as if it stored them exactly as long as rounding moves no distance across the threshold and makes no two distances below it equal. Without the condition it is false: if two objects are equally far from a detection, an error of a millionth decides which of them gets it.",
  "all videos of any length, all pairs of filters and of scalar or vectorized distances, all configurations with and without re-identification, all eps",
  "It compares two runs of any length for all errors of a given size; tests compare runs on the same machine with the same arithmetic.",
  [T + "Tracker.update", T + "Tracker._update_objects_in_place", T + "Tracker._match_dets_and_objs", "norfair/distances.py:ScalarDistance.get_distances", "norfair/distances.py:VectorizedDistance.get_distances", "norfair/filter.py:FilterFactory"])

p("The predictions file of a tracked video",
  "Track a video of boxes with a new tracker and write the objects returned by each call to a predictions file (or give them to the accumulators). If detections are created once and have at least two points of at least two dimensions, and the distance is defined for them, all calls return, all writes succeed, and in the file every id occurs at most once per frame, stands for the same object in all frames, and is one of 1, ..., total_object_count. Without re-identification every one of these ids occurs in the file, and in consecutive frames; with re-identification an id can be missing for some frames and come back. In the table that the accumulators compare with the ground truth of a sequence no two rows have the same frame and id.",
  "all videos of any length, all filters and distances that keep shapes, all configurations, all numbers of sequences",
  "It composes tracker, estimates and writers over whole videos of any length; tests check a single file or a single call.",
  [T + "Tracker.update", T + "Tracker.get_active_objects", "norfair/metrics.py:PredictionsTextFile.update", "norfair/metrics.py:Accumulators.update", "norfair/metrics.py:eval_motChallenge"])
p("Drawing the optical flow does not change the camera motion",
  "A MotionEstimator with draw_flow returns for every video the same transformations as one without, and fails in the same way, whatever is painted and even when OpenCV's drawing functions raise, as long as every frame is a new array. update changes the frame that the user passed: for each tracked point, in their order, a line of thickness 2 from the position now to the position in the reference image and a disc of radius 3 at the position now, both truncated to integers; a drawing call that raises ends the drawing for this frame. Nothing is painted without draw_flow, or when the flow cannot be computed. If the same array is passed twice, the painted flow is part of the second image and can change its transformation. Without flow_color the drawing is dark red ([0, 0, 100] in OpenCV's order), not blue as documented.",
  "all videos of any length, all getters, all images and all (possibly failing) OpenCV functions, all colours",
  "It ranges over all videos and all failures of the drawing functions; tests look at one drawn image.",
  ["norfair/camera_motion.py:MotionEstimator.__init__", "norfair/camera_motion.py:MotionEstimator.update"])
p("The text of an object identifies it",
  "The text of a tracked object (repr, print) shows its id, age, hit_counter, last_distance with two decimals and initializing_id, each under its name: two texts are equal exactly if these agree. Different objects of one tracker therefore never have the same text, not even at different times and not while they are initializing. Objects of two trackers can have the same text, because the global id is not shown.",
  "all objects in all states reachable by any sequence of operations on any number of trackers",
  "It compares the texts of any two objects at any two times; tests compare a text with a literal.",
  [T + "TrackedObject.__repr__", T + "TrackedObject.__init__", T + "_TrackedObjectFactory.get_initializing_id"])
p("The IoU distance is a metric, and what it does with malformed boxes",
  "The iou distance of well-formed boxes satisfies the triangle inequality (so together with C47 it is a metric: two detections within t of an object are within 2t of each other). If one of two boxes is not well formed (x_min < x_max and y_min < y_max), their distance is 1, except that it is NaN when their signed areas add up to zero; it is never outside [0, 1]. A warning is logged exactly when a candidate is not well formed, and candidates without four columns raise AssertionError. The boxes of the objects are not checked: without any warning the distance can be NaN.",
  "all real boxes, well formed or not, and all stacks of boxes",
  "The triangle inequality and the cases of malformed boxes range over all real boxes; tests compute a few distances.",
  ["norfair/distances.py:iou", "norfair/distances.py:_validate_bboxes", "norfair/distances.py:_boxes_area"])
p("Without scores the order of the points and axes does not matter",
  "If no detection has scores and all detections list their points and their axes in another order (the same one throughout, the camera's translation included), every call of update has the same outcome: the same result or exception, the same objects with the same ids, ages, counters, distances and matched detections, and estimates and velocities that are the old ones in the new order. This holds with each of the three filters and with every distance function that does not depend on the order: frobenius and mean_manhattan for any order of all coordinates, mean_euclidean for any order of points and axes, iou for the exchange of x and y. With scores it fails: of two points of which one is not detected, the estimate of that point depends on whether it is listed first or second.",
  "all numbers of points and axes, all orders, all videos without scores, all arguments of Tracker, all filters that treat coordinates alike; the named distances over the real numbers and without re-identification",
  "It compares two whole runs for every video and every order; a test compares one pair of runs.",
  [T + "Tracker.update", T + "TrackedObject.hit", T + "Detection.__init__", "norfair/filter.py:OptimizedKalmanFilter", "norfair/filter.py:FilterPyKalmanFilterFactory", "norfair/filter.py:NoFilter", "norfair/distances.py:frobenius", "norfair/distances.py:mean_euclidean", "norfair/distances.py:mean_manhattan", "norfair/distances.py:iou"])
p("The absolute grid is computed once and used again",
  "draw_absolute_grid keeps the grids of the last four different combinations of grid size, frame size and polar it was called with, and never more. Whatever calls are made before, a call gets the same positions (or the same exception) as if the grid were computed in each call, provided that the coordinate transformations do not write into the array they are given; those of the library do not. A transformation that works in place moves the grid of all later calls.",
  "every sequence of calls, with any sizes of grids and frames and any transformations",
  "It depends on the history of calls of the whole program, of any length.",
  ["norfair/drawing/absolute_grid.py:_get_grid", "norfair/drawing/absolute_grid.py:draw_absolute_grid", "norfair/camera_motion.py:CoordinatesTransformation"])
p("With distances in absolute coordinates the motion of the camera does not matter",
  "Two trackers with the same arguments follow the same world through two cameras that move, turn and zoom in any way, each camera with a new coordinate transformation in each call. If the distance functions look only at absolute points and absolute estimates, every call of update has the same result for both cameras: the same objects with the same ids, ages, counters, filters and matched detections and the same absolute estimates, and the relative estimate of each object is the absolute one as the camera of that tracker sees it. Every camera whose transformation can be undone on the points of the world gives such a pair with a still camera, in particular every invertible homography that sends none of them to infinity. With a distance of relative points and estimates it fails: a camera that zooms in loses the objects that a still camera keeps.",
  "all filters and arguments of Tracker, all distance functions of absolute coordinates, all transformations of both cameras, all videos",
  "It compares two whole runs for every motion of the camera; a test uses one motion.",
  [T + "Tracker.update", T + "Detection", T + "TrackedObject.get_estimate", T + "TrackedObject.update_coordinate_transformation", "norfair/camera_motion.py:HomographyTransformation", "norfair/camera_motion.py:TranslationTransformation"])
p("Paths draws every object at the mean of its estimate",
  "Over any video Paths draws in each call, for each tracked object (also one without a live point), the circles of its points to draw: by default one, at the whole part of the mean of the estimate. The color is that of the drawer or else that of the id in the palette, and radius and thickness are the given ones or follow once and for all from the height of the first frame. No call fails, unless the palette is empty and an object with an id needs a color from it (ZeroDivisionError). The warning about moving cameras is asked for exactly when some object has a coordinate transformation; there the path is wrong: a still object leaves a path.",
  "all videos with frames of one size, all tracked objects, all arguments of Paths, all palettes",
  "It ranges over all videos, and over all pixels together with the theorem about the mask.",
  [PA + "Paths"])
p("AbsolutePaths writes a part of its drawing into the frame it is given",
  "AbsolutePaths.draw returns a frame with everything it draws. The array it is given gets exactly the circles of the objects with a live point up to and including the first one that was drawn in an earlier call; what is drawn after that goes into new arrays. Only if no object with a live point was drawn before is the given array itself returned. So the array of the caller is neither left alone nor does it show what is returned.",
  "all sequences of calls, all transformations that keep the number of points, all objects of one number of points with different ids, max_history at least 1, any pictures and any drawing functions",
  "Which array is written depends on the history of all calls; a test sees one history.",
  [PA + "AbsolutePaths.draw"])
