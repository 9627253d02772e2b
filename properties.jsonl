{"id": "C01", "title": "Merging pairing sets keeps every pairing, in order", "statement": "After `a.push_back(b)` (copy overload) the five correspondence lists of `a` are its old lists followed by `b`'s lists, `a.size()` grows by exactly `b.size()`, and the potential-pairings counter of `a` is the sum of the two.", "quantifier": "every pair of Pairings objects of any sizes", "why_tests_cant": "sizes are unbounded; a test fixes a handful of containers", "anchors": ["mp2p_icp/src/Pairings.cpp:Pairings::push_back(const Pairings&)", "mp2p_icp/src/Pairings.cpp:Pairings::size", "mp2p_icp/include/mp2p_icp/Pairings.h"]}
{"id": "C02", "title": "Merging by move appends the same pairings as merging by copy", "statement": "`a.push_back(std::move(b))` leaves in `a` the same five lists of pairings as `a.push_back(b)`, for every a and b, and the two results are equal in everything exactly when the potential-pairings counter of `a` was 0.", "quantifier": "every pair of Pairings objects", "why_tests_cant": "the difference shows only when the receiver already has a non-zero potential-pairings counter, or b carries weights", "anchors": ["mp2p_icp/src/Pairings.cpp:Pairings::push_back(Pairings&&)", "mp2p_icp/src/Pairings.cpp:Pairings::push_back(const Pairings&)"]}
{"id": "C03", "title": "Pairings survive serialization", "statement": "Writing a Pairings object to an archive and reading it back from those bytes (with anything following) yields an equal object and leaves the stream positioned exactly after it; no truncated prefix of the bytes is accepted as a full object; and any version byte other than the known ones is rejected.", "quantifier": "every Pairings value with representable field widths, every suffix, every truncation point", "why_tests_cant": "infinitely many values and truncation points", "anchors": ["mp2p_icp/src/Pairings.cpp:Pairings::serializeTo", "mp2p_icp/src/Pairings.cpp:Pairings::serializeFrom"]}
{"id": "C04", "title": "Robust centroids are the mean of the non-outlier pairs", "statement": "eval_centroids_robust returns, for local and global points separately, the sum of the coordinates of exactly the pairs whose index is not in the outlier list, divided by their number; and if the outlier list is not strictly increasing and within range, it throws instead of returning a number.", "quantifier": "every list of point pairs and every outlier index list", "why_tests_cant": "unbounded lists and arbitrary (also malformed) outlier lists", "anchors": ["mp2p_icp/src/Pairings.cpp:eval_centroids_robust"]}
{"id": "C05", "title": "A matcher only runs in its configured iteration window", "statement": "A matcher contributes pairings at an ICP iteration iff it is enabled, the iteration is at least runFromIteration, and (runUpToIteration is 0 or the iteration is at most runUpToIteration); otherwise match() returns false and leaves the output and match state untouched.", "quantifier": "every parameter combination and iteration number", "why_tests_cant": "unbounded integers, boundary combinations", "anchors": ["mp2p_icp/src/Matcher.cpp:Matcher::match"]}
{"id": "C06", "title": "run_matchers is the ordered concatenation of all matchers' outputs", "statement": "run_matchers returns, for each correspondence type, the concatenation in pipeline order of the outputs of every matcher allowed to run, each called on the match state left by the previous ones; potential pairings add up.", "quantifier": "every matcher list, every matcher behaviour", "why_tests_cant": "matchers are user-extensible virtual classes", "anchors": ["mp2p_icp/src/Matcher.cpp:run_matchers"]}
{"id": "C07", "title": "Distance-threshold pairings respect the configured bound", "statement": "Every point-to-point pairing emitted by Matcher_Points_DistanceThreshold relates an existing local point with an existing global point, stores exactly their coordinates, and the squared distance between the transformed local point and the global point is strictly below threshold^2 + thresholdAngular^2*|transformed local point|^2.", "quantifier": "every pair of clouds, pose, match state and parameters", "why_tests_cant": "geometry and clouds are unbounded", "anchors": ["mp2p_icp/src/Matcher_Points_DistanceThreshold.cpp:implMatchOneLayer"]}
{"id": "C08", "title": "No global point is paired twice when re-matching is forbidden", "statement": "If every point matcher in the pipeline has allowMatchAlreadyMatchedGlobalPoints=false, no global point of a layer appears in two point-to-point pairings of one run_matchers() call, whatever the number of matchers and of pairings per point.", "quantifier": "every sequence of matchers and of clouds", "why_tests_cant": "histories of matchers sharing a match state", "anchors": ["mp2p_icp/src/Matcher_Points_DistanceThreshold.cpp:implMatchOneLayer", "mp2p_icp/src/Matcher_Points_InlierRatio.cpp:implMatchOneLayer", "mp2p_icp/include/mp2p_icp/Matcher.h:MatchState"]}
{"id": "C09", "title": "A local point marked by an earlier matcher is skipped by later ones", "statement": "With allowMatchAlreadyMatchedPoints=false, a local point paired by an earlier matcher of the same run that marks what it pairs (the inlier-ratio matcher always, the distance-threshold matcher when allowMatchAlreadyMatchedGlobalPoints=false) is not paired again by a later one.", "quantifier": "every sequence of matchers, flags and clouds", "why_tests_cant": "depends on the interaction of two flags across matchers", "anchors": ["mp2p_icp/src/Matcher_Points_DistanceThreshold.cpp:implMatchOneLayer", "mp2p_icp/include/mp2p_icp/Matcher_Points_Base.h"]}
{"id": "C10", "title": "Distance-threshold matching is complete within the metric threshold", "statement": "Without subsampling, a local point that is not excluded by the match state and has a global neighbour nearer than the metric threshold is paired with it, or with pairingsPerPoint=k points at least as near (when re-matching is forbidden, \"paired\" includes \"the global point was already taken\"); nothing in range is silently dropped.", "quantifier": "every pair of clouds, parameters and match states", "why_tests_cant": "unbounded geometry", "anchors": ["mp2p_icp/src/Matcher_Points_DistanceThreshold.cpp:implMatchOneLayer"]}
{"id": "C11", "title": "Inlier-ratio matcher keeps the best fraction", "statement": "Matcher_Points_InlierRatio keeps round(ratio*N) of the N candidate pairs (before global-reuse removal), and every kept candidate has an error no larger than every discarded one; at most one pairing per local point.", "quantifier": "every candidate list and ratio", "why_tests_cant": "unbounded inputs, ties", "anchors": ["mp2p_icp/src/Matcher_Points_InlierRatio.cpp:implMatchOneLayer"]}
{"id": "C12", "title": "Layer selection and per-layer weights", "statement": "With no weight table, Matcher_Points_Base matches each global layer against the local layer of the same name only if present; with a table, exactly the listed (global, local) pairs are matched, a missing listed local layer is an error, and the emitted weight blocks partition the emitted pairings in order: the sum of block lengths equals the number of pairings and each block carries the configured weight.", "quantifier": "every map pair and weight table", "why_tests_cant": "unbounded layer sets", "anchors": ["mp2p_icp/src/Matcher_Points_Base.cpp:impl_match"]}
{"id": "C13", "title": "Local cloud subsampling picks distinct points and a valid bounding box", "statement": "transform_local_to_global with maxLocalPoints=m>0 and a larger cloud selects m distinct valid points; with m=0 or a small cloud all points are used in order; the bounding box contains every transformed point used.", "quantifier": "every cloud, limit and random permutation", "why_tests_cant": "random choice and unbounded sizes", "anchors": ["mp2p_icp/src/Matcher_Points_Base.cpp:transform_local_to_global"]}
{"id": "C14", "title": "Parallel matching gives the sequential pairings when re-matching is allowed", "statement": "When built with TBB and both re-matching flags are true, every schedule and every way of cutting the loop gives exactly the list of pairings of the sequential build, and every schedule terminates; whatever the flags, every pairing produced is a genuine in-range pair; the radius search of the TBB build selects the same neighbours as the sequential one when there is no angular threshold.", "quantifier": "every interleaving of the worker threads", "why_tests_cant": "schedules cannot be enumerated by tests", "anchors": ["mp2p_icp/src/Matcher_Points_DistanceThreshold.cpp:implMatchOneLayer (MP2P_HAS_TBB)"]}
{"id": "C15", "title": "Matched-point bookkeeping behaves as a set", "statement": "The dense and the sparse representation of the match-state bitfield both behave like a set of marked indices: after any sequence of initialisation and marks, a query returns true iff that index was marked since initialisation.", "quantifier": "every operation sequence and both representations", "why_tests_cant": "all histories", "anchors": ["mp2p_icp_map/include/mp2p_icp/pointcloud_bitfield.h"]}
{"id": "C16", "title": "A solver only runs in its configured window", "statement": "Solver::optimal_pose runs the implementation iff it is enabled, the ICP iteration is within [runFromIteration, runUpToIteration] (0 meaning no upper bound), and its translation-correction latch has not fired; once the latch fires it stays fired until the iteration counter restarts.", "quantifier": "every sequence of calls", "why_tests_cant": "histories of calls", "anchors": ["mp2p_icp/src/Solver.cpp:Solver::optimal_pose"]}
{"id": "C17", "title": "Solver pipeline: first success wins", "statement": "run_solvers returns true iff some solver succeeds, and then the returned pose is that of the first solver succeeding in list order, later ones not being invoked; if all fail it returns false.", "quantifier": "every list of solvers with any behaviour", "why_tests_cant": "solvers are user-extensible", "anchors": ["mp2p_icp/src/ICP.cpp:run_solvers"]}
{"id": "C18", "title": "ICP always stops within the iteration budget and says why", "statement": "align() runs at most maxIterations match/solve rounds for any matchers, solvers and hooks, reports an iteration count not above maxIterations, and the reported termination reason is exactly the event that ended the loop (never 'undefined').", "quantifier": "every behaviour of matchers, solvers, evaluators and hooks", "why_tests_cant": "unbounded histories of callbacks", "anchors": ["mp2p_icp/src/ICP.cpp:ICP::align", "mp2p_icp/include/mp2p_icp/IterTermReason.h"]}
{"id": "C19", "title": "The returned pose is the last solution found, unless a solver fails", "statement": "The optimal pose returned by align() is the output of the last successful solver call, or the initial guess when no solver ever succeeded, in every run that does not end with a solver error; in that case it is what the failing solver left in its output.", "quantifier": "every behaviour of matchers and solvers", "why_tests_cant": "unbounded histories", "anchors": ["mp2p_icp/src/ICP.cpp:ICP::align"]}
{"id": "C20", "title": "Stalling criterion", "statement": "align() reports \"stalled\" iff at that iteration the translation change with respect to the previous iterate or the one before was below minAbsStep_trans, and the rotation change with respect to one of the two was below minAbsStep_rot; and no earlier iteration satisfied that.", "quantifier": "every sequence of solver outputs and thresholds", "why_tests_cant": "unbounded histories", "anchors": ["mp2p_icp/src/ICP.cpp:ICP::align"]}
{"id": "C21", "title": "Quality checkpoints and hooks end ICP at once", "statement": "If at an iteration listed in quality_checkpoints the evaluated quality is below the listed minimum, align() stops there with the matching reason; if a user hook requests a stop, align() stops at that iteration; no later matcher or solver is called.", "quantifier": "every checkpoint table, hook and quality behaviour", "why_tests_cant": "unbounded histories", "anchors": ["mp2p_icp/src/ICP.cpp:ICP::align"]}
{"id": "C22", "title": "Returned pairings belong to the returned solution", "statement": "finalPairings returned by align() are those found in the last executed iteration, and the reported quality is the evaluation of those pairings at the returned pose.", "quantifier": "every behaviour of the components", "why_tests_cant": "unbounded histories", "anchors": ["mp2p_icp/src/ICP.cpp:ICP::align"]}
{"id": "C23", "title": "Overall quality is a weighted mean within [0,1]", "statement": "evaluate_quality returns the weighted mean of the evaluators' qualities, lies between the smallest and largest of them, equals 0 as soon as an evaluator asks for hard discard, and throws on a non-positive weight.", "quantifier": "every evaluator list, weights and qualities", "why_tests_cant": "unbounded lists of reals", "anchors": ["mp2p_icp/src/ICP.cpp:ICP::evaluate_quality"]}
{"id": "C24", "title": "Paired-ratio quality is a ratio in [0,1]", "statement": "QualityEvaluator_PairedRatio returns pairings/potential pairings, 0 when there is no potential pairing, within [0,1] whenever the matchers report their potential honestly, and hard-discards iff the ratio is below the absolute minimum.", "quantifier": "every pairing set", "why_tests_cant": "unbounded counts", "anchors": ["mp2p_icp/src/QualityEvaluator_PairedRatio.cpp"]}
{"id": "C25", "title": "Debug-log numbering and decimation", "statement": "Across any number of ICP runs (concurrent or not) sharing the process-wide counter, the i-th request to take the lock gets the number i (modulo 2^32) and is written iff the decimation is at most 1 or divides that number; no two of the first 2^32 records get the same number.", "quantifier": "every interleaving of concurrent align() calls", "why_tests_cant": "schedules", "anchors": ["mp2p_icp/src/ICP.cpp:ICP::save_log_file"]}
{"id": "C26", "title": "Closed-form solvers give each pair its weight", "statement": "When the weight blocks of a Pairings cover its point pairs (positive sizes) and the outliers are sorted and none of them is the first pair of a block, the closed-form solvers use every pair that is not an outlier with exactly its block weight times its class weight, in order, never read past the end of the blocks; the weights are normalised to sum one; and no run fails that has positive total weight.", "quantifier": "every pairing set, weights, centroids and outlier list of that form", "why_tests_cant": "all block layouts and outlier positions", "anchors": ["mp2p_icp/src/visit_correspondences.h:visit_correspondences"]}
{"id": "C27", "title": "Robust kernels are proper down-weighting functions", "statement": "Each robust kernel weight is 1 at zero error, lies in (0,1], never increases with the error, and the kernel 'None' is constantly 1.", "quantifier": "every real error and every positive parameter", "why_tests_cant": "real-valued functions", "anchors": ["mp2p_icp/include/mp2p_icp/robust_kernels.h"]}
{"id": "C28", "title": "Residuals vanish exactly on perfect alignment", "statement": "The point-to-point residual is the displacement to the global point; for a unit director the point-to-line residual has as norm the distance of the transformed point to the line, and for a nonzero normal the point-to-plane residual has as norm the distance to the plane; the plane-to-plane residual compares the rotated local normal with the global one. Each is zero iff the transformed local feature lies on (or is parallel to) the global one.", "quantifier": "every pose, point, line and plane", "why_tests_cant": "real-valued geometry", "anchors": ["mp2p_icp/src/errorTerms.cpp"]}
{"id": "C29", "title": "Analytic Jacobians are the derivatives of the residuals", "statement": "For point-to-point, point-to-line, point-to-plane and plane-to-plane terms, the returned Jacobian J (with respect to the 12 entries of the pose matrix) satisfies e(T+dT) = e(T) + J*vec(dT) for all T and dT; for parallel lines the first row of the line-to-line Jacobian is the derivative of the first component.", "quantifier": "every pose matrix, increment and feature", "why_tests_cant": "the unit tests compare with finite differences at random points", "anchors": ["mp2p_icp/src/errorTerms.cpp"]}
{"id": "C30", "title": "Gauss-Newton builds each inner iteration's normal equations afresh", "statement": "In the build with TBB, for pairs without individual weights and no prior, the normal equations solved by optimal_tf_gauss_newton at inner iteration k are exactly those of the residuals of all pairs evaluated at the pose of iteration k with their weights, however the parallel loops are split, joined and interleaved, and the number of inner iterations never exceeds maxInnerLoopIterations. In the build without TBB this holds for the first iteration, with individual weights too.", "quantifier": "every pairing set, parameter set, linear solver, exponential map and thread schedule", "why_tests_cant": "histories of inner iterations, unbounded pairings and all schedules", "anchors": ["mp2p_icp/src/optimal_tf_gauss_newton.cpp:optimal_tf_gauss_newton"]}
{"id": "C31", "title": "Covariance residual vector has one slot per residual", "statement": "In the covariance estimate, if there are no line-to-line pairings or no pairings with planes, every residual component of every pairing is written to its own slot of the error vector, in order, and no slot is left unset; without pairings the result is the fixed diagonal fallback.", "quantifier": "every combination of numbers of pairings of each type with no lines or no planes", "why_tests_cant": "unbounded counts", "anchors": ["mp2p_icp/src/covariance.cpp:covariance"]}
{"id": "C32", "title": "Horn needs three pairs", "statement": "With at least one point pair, non-negative class weights, and fewer than three pairs in total, optimal_tf_horn returns false; it never returns true with fewer than three pairs.", "quantifier": "every pairing set and weights, every eigen-solver", "why_tests_cant": "all sizes", "anchors": ["mp2p_icp/src/optimal_tf_horn.cpp", "mp2p_icp/src/visit_correspondences.h"]}
{"id": "C33", "title": "Line and plane pairings convert to genuine point pairs", "statement": "pt2ln_pl_to_pt2pt turns each selected point-to-plane (line) pairing into a point pair whose global point is the orthogonal projection of the transformed local point on the plane (line); it keeps the largest-error ones plus at least three when available.", "quantifier": "every pairing set and pose", "why_tests_cant": "unbounded lists", "anchors": ["mp2p_icp/src/pt2ln_pl_to_pt2pt.cpp"]}
{"id": "C34", "title": "Metric maps survive serialization across versions", "statement": "Reading back a serialized metric_map_t gives equal lines, planes, layers, id, label, georeferencing and metadata, for the current version; older supported versions give the same with the missing fields empty even when reading over a used object; unknown versions are rejected.", "quantifier": "every metric map and every previous content of the target", "why_tests_cant": "unbounded structures", "anchors": ["mp2p_icp_map/src/metricmap.cpp:metric_map_t::serializeTo", "mp2p_icp_map/src/metricmap.cpp:metric_map_t::serializeFrom"]}
{"id": "C35", "title": "Merging maps adds up their contents", "statement": "merge_with(other, pose), for maps that share no layer object, when (with a pose) the other map has no planes and its new layers are point clouds, and coinciding layers are point clouds: the map's lines, planes and each layer's points become those of both, moved by the pose if given; new layers are independent copies; size() adds up; the other map and everything else is unchanged.", "quantifier": "every pair of maps and pose", "why_tests_cant": "unbounded structures with sharing", "anchors": ["mp2p_icp_map/src/metricmap.cpp:metric_map_t::merge_with"]}
{"id": "C36", "title": "Map size and emptiness", "statement": "size() equals lines + planes + points of the layers that are point clouds; clear() resets every field, after which empty() and size()==0; empty() is true iff there are no layers, lines and planes, and then size() is 0.", "quantifier": "every metric map", "why_tests_cant": "unbounded structures", "anchors": ["mp2p_icp_map/src/metricmap.cpp:metric_map_t::size", "mp2p_icp_map/src/metricmap.cpp:metric_map_t::empty", "mp2p_icp_map/src/metricmap.cpp:metric_map_t::clear"]}
{"id": "C37", "title": "The velocity buffer keeps exactly the recent window", "statement": "After any history of insertions (linear or angular, any order of stamps) and clears, the buffer of each kind holds, in ascending order and once per stamp, exactly the samples whose stamp was not overwritten by a later insertion of that kind and that were never more than max_time_window older than a stamp inserted since; for time-ordered histories that is exactly the last value of every stamp within the window of the last insertion.", "quantifier": "every sequence of insertions", "why_tests_cant": "histories", "anchors": ["mp2p_icp_map/src/LocalVelocityBuffer.cpp"]}
{"id": "C38", "title": "Trajectory reconstruction", "statement": "reconstruct_poses_around_reference_time returns an empty trajectory when no sample is close enough to the reference; otherwise, if there is a sample at or after the end of the span, it returns the identity at relative time 0, one pose per time, only at times between buffered stamps, covering the requested span as far as samples exist.", "quantifier": "every buffer content, reference time and half-span", "why_tests_cant": "histories and boundary cases", "anchors": ["mp2p_icp_map/src/LocalVelocityBuffer.cpp:reconstruct_poses_around_reference_time"]}
{"id": "C39", "title": "Realised parameters always reflect the latest variables", "statement": "If objects declare their parameters before being attached and no realize() has thrown, then after realize() every attached formula parameter's variable equals its formula at the latest values of the variables (converted to the variable's type), constant parameters have their value from their declaration on whatever happens, and using an object throws exactly if it has a formula with variables for which realize() has not succeeded since it was attached and last unrealized.", "quantifier": "every sequence of declarations, attachments, variable updates, realize(), unrealize and check calls, every formula, and every visiting order", "why_tests_cant": "histories of calls", "anchors": ["mp2p_icp_map/src/Parameterizable.cpp", "mp2p_icp_map/include/mp2p_icp/Parameterizable.h"]}
{"id": "C40", "title": "Bounding-box filter partitions the cloud", "statement": "For an input layer that is not itself an output, FilterBoundingBox copies every input point inside the closed box to the inside layer and every other to the outside layer, each exactly once, in order, after what those layers already had; every other layer, the input included, is unchanged, and a bad input or output layer is an error.", "quantifier": "every cloud, box, set of existing layers and output names", "why_tests_cant": "unbounded clouds, boundary coordinates", "anchors": ["mp2p_icp_filters/src/FilterBoundingBox.cpp", "mp2p_icp_filters/src/GetOrCreatePointLayer.cpp"]}
{"id": "C41", "title": "Range, intensity and ring filters partition the cloud", "statement": "FilterByRange, FilterByIntensity and FilterByRing copy each input point to exactly one class (Euclidean distance between/outside the limits; low/mid/high; selected ring or not), in order, without loss or duplication, after what the output layers already had; every other layer is unchanged.", "quantifier": "every non-empty cloud, thresholds and output names", "why_tests_cant": "unbounded clouds, boundary values", "anchors": ["mp2p_icp_filters/src/FilterByRange.cpp", "mp2p_icp_filters/src/FilterByIntensity.cpp", "mp2p_icp_filters/src/FilterByRing.cpp"]}
{"id": "C42", "title": "Voxel grids put each point in exactly one voxel", "statement": "After configuring it (whatever it held before) and processing any sequence of clouds, visiting a PointCloudToVoxelGrid in its default (hash map) flavour reports each occupied voxel once, with exactly the indices of the points whose coordinates fall in it; with a minimum distance between consecutive points, a point is left out iff it is closer than that, on all axes, to the last point of its cloud kept before it. PointCloudToVoxelGridSingle, in either flavour, reports each occupied voxel once with the first point that fell in it, its index and source cloud, and the number of points. Two points share a voxel only if they are less than two cell sizes apart on each axis.", "quantifier": "every previous state, sequence of clouds and voxel size", "why_tests_cant": "unbounded clouds and histories", "anchors": ["mp2p_icp_filters/src/PointCloudToVoxelGrid.cpp", "mp2p_icp_filters/src/PointCloudToVoxelGridSingle.cpp"]}
{"id": "C43", "title": "Voxel decimation keeps one representative per occupied voxel", "statement": "FilterDecimateVoxels appends to the output layer exactly one point per occupied voxel of its inputs: with the first-point method (any number of inputs, either container flavour) the first point of the voxel, and (with one input of more than the minimum size and the hash-map flavour) the average of the voxel's points, the one closest to that average, or one of them. With the first-point method clouds not larger than the minimum are copied unchanged instead. With flattening, one point per (x,y) column at the given height. No other layer changes.", "quantifier": "every map, input list, method, visiting order, random choice and grid history", "why_tests_cant": "unbounded clouds", "anchors": ["mp2p_icp_filters/src/FilterDecimateVoxels.cpp"]}
{"id": "C44", "title": "Adaptive decimation outputs distinct input points, within its target, and at least one per voxel", "statement": "If some voxel has the minimum number of points, FilterDecimateAdaptive ends; it appends distinct points of the input, all from voxels with at least the minimum number of points, never making the output larger than the target; it reaches the target or takes at least (voxels / increment) points, hence at least min(target - previous size, number of voxels) when the target is not below the number of voxels.", "quantifier": "every cloud, voxel size, target, visiting order and rounding", "why_tests_cant": "unbounded clouds", "anchors": ["mp2p_icp_filters/src/FilterDecimateAdaptive.cpp"]}
{"id": "C45", "title": "Deleting layers removes exactly the listed layers", "statement": "FilterDeleteLayer removes exactly the listed layers and leaves all others untouched (also when it throws); with the error flag it succeeds iff every listed layer exists (and is listed once), without it always.", "quantifier": "every map and layer list", "why_tests_cant": "unbounded maps", "anchors": ["mp2p_icp_filters/src/FilterDeleteLayer.cpp"]}
{"id": "C46", "title": "Timestamp adjustment preserves differences and absolute time", "statement": "FilterAdjustTimestamps with a shift method keeps all pairwise timestamp differences and the absolute time (buffer zero time + point time) and, without offset, puts the middle/earliest time at zero; the normalising method maps the range monotonically onto [0,1] plus the offset; nothing else in the map changes; missing timestamps are an error iff so configured.", "quantifier": "every timestamp list, method and offset", "why_tests_cant": "unbounded real-valued lists", "anchors": ["mp2p_icp_filters/src/FilterAdjustTimestamps.cpp"]}
{"id": "C47", "title": "Intensity normalisation stays in [0,1] and is monotone", "statement": "FilterNormalizeIntensity (any fixed range with min <= max, or none) maps every intensity into [0,1] preserving order and touches nothing else; with range memory the range used is exactly that of all clouds processed so far, so the map is affine on each cloud.", "quantifier": "every sequence of clouds processed by one filter object", "why_tests_cant": "histories", "anchors": ["mp2p_icp_filters/src/FilterNormalizeIntensity.cpp"]}
{"id": "C48", "title": "Filter pipelines run in order and stop on error", "statement": "apply_filter_pipeline applies the filters in list order to the same map, each seeing the previous one's output; it stops at the first failing (or null) filter, leaving the map as that filter left it.", "quantifier": "every pipeline, filter behaviour and map", "why_tests_cant": "user-extensible components", "anchors": ["mp2p_icp_filters/src/FilterBase.cpp:apply_filter_pipeline"]}
{"id": "C49", "title": "Deskewing gives one corrected point per input point, in any schedule", "statement": "FilterDeskew::filter(), on an input layer with per-point times and a motion model (constant twist, or attached source in precise mode), appends exactly one output point per input point, at the matching index: with coordinates exp(w t) p + v t (constant twist) and the intensity, ring and time both clouds have, or an all-zero point when the input point is at the origin. This holds whatever the thread schedule, also if input and output are the same layer; iterations never conflict, existing output points and other layers are unchanged. With skip_deskew (or without times and silently_ignore_no_timestamps) every point is copied unchanged; an empty input changes nothing.", "quantifier": "every map, configuration and interleaving of the loop's iterations", "why_tests_cant": "a test runs a few schedules on a few clouds", "anchors": ["mp2p_icp_filters/src/FilterDeskew.cpp:FilterDeskew::filter"]}
{"id": "C50", "title": "simplemap_to_metricmap processes exactly the requested key-frames", "statement": "simplemap_to_metricmap() clears the output map, gives the generators exactly the observations of the key-frames with start_index <= index <= end_index (end_index below the largest size_t), in order, each with the pose and the robot_* variables of its key-frame, its twist variables when the key-frame has a twist, and the custom variables; the filters run once after each observation some generator handled and never else; the final filters run last, if there are any. If something throws, only the observations up to it were processed.", "quantifier": "every simple map, pipeline (arbitrary generators' maps and filters) and index range", "why_tests_cant": "unbounded maps and histories", "anchors": ["mp2p_icp_filters/src/sm2mm.cpp:simplemap_to_metricmap"]}
{"id": "C51", "title": "Reported iteration count", "statement": "Results::nIterations equals the number of match rounds align() performed when the iteration budget was used up, and one less than that in every other case.", "quantifier": "every set of components, parameters, maps and initial guess", "why_tests_cant": "depends on which of the seven ways of ending the loop is taken, for arbitrary user components", "anchors": ["mp2p_icp/src/ICP.cpp: ICP::align", "mp2p_icp/include/mp2p_icp/Results.h: Results::nIterations"]}
{"id": "C52", "title": "Iteration log holds exactly the decimated iterations and the stalled one", "statement": "When iteration details are requested, the log record holds, for exactly the iterations that are multiples of the decimation (all of them for 0) and found a solution, plus the iteration declared stalled, the pose found and the pairings used at that iteration; otherwise it holds none.", "quantifier": "every run of align(), any components and decimation", "why_tests_cant": "must hold for any iteration count, decimation and ending", "anchors": ["mp2p_icp/src/ICP.cpp: ICP::align", "mp2p_icp/include/mp2p_icp/LogRecord.h"]}
{"id": "C53", "title": "align() fails only for its documented preconditions", "statement": "If matchers, solvers, evaluators and hook do not fail themselves, and iteration details are only requested together with a log, align() returns normally iff there is at least one of each of matcher, solver and evaluator and both maps are non-empty.", "quantifier": "every set of well-behaved components, parameters, maps", "why_tests_cant": "the crash needs a specific combination of options; tests cannot enumerate all components", "anchors": ["mp2p_icp/src/ICP.cpp: ICP::align"]}
{"id": "C54", "title": "Configured layer weights reach the solver", "statement": "The per-layer weights configured in a point matcher (pointLayerMatches) are present in the pairings that run_matchers() returns, so that the solvers can use them.", "quantifier": "every pipeline, map pair and weight table", "why_tests_cant": "a unit test looks at one matcher; the loss happens when outputs are merged, for every pipeline", "anchors": ["mp2p_icp/src/Matcher.cpp: run_matchers", "mp2p_icp/src/Pairings.cpp: Pairings::push_back", "mp2p_icp/src/Matcher_Points_Base.cpp: impl_match"]}
{"id": "C55", "title": "A matching run never reads or marks outside the maps", "statement": "A run of point matchers (distance threshold without an effective maxLocalPointsPerLayer, inlier ratio with any limit) on a fresh match state never reads or marks outside the clouds, whatever their parameters, re-matching flags, iteration and pose: it returns or throws. One layer of the distance-threshold matcher with valid parameters always succeeds, also after other matchers of the same run.", "quantifier": "every list of matchers and parameters, maps, iteration, pose, random permutation", "why_tests_cant": "an out-of-range access often goes unnoticed in a test run; safety is about all cloud sizes and matcher lists", "anchors": ["mp2p_icp/src/Matcher_Points_DistanceThreshold.cpp: implMatchOneLayer", "mp2p_icp/src/Matcher_Points_InlierRatio.cpp: implMatchOneLayer", "mp2p_icp/src/Matcher_Points_Base.cpp: impl_match, transform_local_to_global"]}
{"id": "C56", "title": "Potential pairings bound the pairings", "statement": "For any pipeline of point matchers, the number of pairings returned never exceeds the reported number of potential pairings, which is the number of local points of the configured layers times the pairings per point; the paired-ratio quality is therefore between 0 and 1.", "quantifier": "every pipeline of point matchers, clouds and parameters", "why_tests_cant": "relates two counters for all inputs and all pipelines", "anchors": ["mp2p_icp/src/Matcher_Points_DistanceThreshold.cpp", "mp2p_icp/src/Matcher_Points_InlierRatio.cpp", "mp2p_icp/src/QualityEvaluator_PairedRatio.cpp"]}
{"id": "C57", "title": "Version-0 pairings read into a fresh object", "statement": "Reading a version-0 Pairings stream into a fresh object gives the stored lists and weights and a potential-pairings counter of 0.", "quantifier": "every stored object", "why_tests_cant": "needs streams of an old version and all previous states", "anchors": ["mp2p_icp/src/Pairings.cpp:Pairings::serializeFrom"]}
{"id": "C58", "title": "ICP parameters survive serialization, but for the quality checkpoints", "statement": "Writing Parameters to an archive and reading them back gives equal values of every field but the quality checkpoints, which get their default (the debug flag is forced on by its environment variable); older versions give the defaults for what they did not store; unknown versions are rejected.", "quantifier": "every parameter set, every supported version", "why_tests_cant": "all field values and versions", "anchors": ["mp2p_icp/src/Parameters.cpp:Parameters::serializeTo", "mp2p_icp/src/Parameters.cpp:Parameters::serializeFrom"]}
{"id": "C59", "title": "Solver weight parameters survive serialization", "statement": "Writing WeightParameters and reading them back gives equal parameters, whatever the object read into; truncated streams and unknown versions are rejected, no bytes cause undefined behaviour; the old version gives back all it stored and leaves the kernel as it was.", "quantifier": "every parameter set, any bytes", "why_tests_cant": "all field values and all truncations", "anchors": ["mp2p_icp/src/WeightParameters.cpp", "mp2p_icp/src/PairWeights.cpp"]}
{"id": "C60", "title": "ICP results and log records survive serialization", "statement": "Writing Results or a LogRecord and reading it back gives an equal object (maps, initial guess, result, per-iteration details, variables; the parameters up to C58), truncated streams and unknown versions are rejected, and no bytes cause undefined behaviour.", "quantifier": "every record with any number of iterations, pairings and layers; any bytes", "why_tests_cant": "sizes unbounded; all truncations", "anchors": ["mp2p_icp/src/LogRecord.cpp", "mp2p_icp/src/Results.cpp"]}
{"id": "C61", "title": "load_from_file reports every failure", "statement": "load_from_file returns true iff the file opens and holds a readable record, and then delivers exactly it.", "quantifier": "every file content", "why_tests_cant": "all file contents", "anchors": ["mp2p_icp/src/LogRecord.cpp:load_from_file", "mp2p_icp/include/mp2p_icp/LogRecord.h:LoadFromFile"]}
{"id": "C62", "title": "Georeferencing data survives serialization", "statement": "Writing optional georeferencing and reading it back into an empty variable gives the same optional value.", "quantifier": "every georeferencing value", "why_tests_cant": "all previous states", "anchors": ["mp2p_icp_map/src/metricmap.cpp:operator>>(CArchive&, std::optional<Georeferencing>&)"]}
{"id": "C63", "title": "Occupancy filter separates static from dynamic points", "statement": "FilterRemoveByVoxelOccupancy copies to the static layer exactly the points whose voxel occupancy is above 1-t and to the dynamic layer exactly those below t, where t is the configured threshold folded into [0,1/2]; points out of the voxel map or in between go nowhere.", "quantifier": "every cloud, voxel map and threshold in [0,1]", "why_tests_cant": "unbounded clouds and arbitrary occupancy functions", "anchors": ["mp2p_icp_filters/src/FilterRemoveByVoxelOccupancy.cpp"]}
{"id": "C64", "title": "Filters return also when the input layer is an output", "statement": "A filter whose input layer is also one of its output layers ends, having appended the points once.", "quantifier": "every cloud and configuration", "why_tests_cant": "aliasing configurations, non-termination cannot be observed by a test", "anchors": ["mp2p_icp_filters/src/FilterBoundingBox.cpp:105", "mp2p_icp_filters/src/FilterByRange.cpp:105"]}
{"id": "C65", "title": "Box and range filters accept exactly the configurations with an output", "statement": "load_from_yaml of the bounding-box and range filters accepts exactly the configurations with at least one output layer.", "quantifier": "every configuration", "why_tests_cant": "all combinations of outputs", "anchors": ["mp2p_icp_filters/src/FilterByIntensity.cpp:37-42,104", "mp2p_icp_filters/src/FilterByRange.cpp:39", "mp2p_icp_filters/src/FilterBoundingBox.cpp:37"]}
{"id": "C66", "title": "A routing filter that throws loses nothing", "statement": "When the bounding-box or the range filter throws, every layer that existed before is still there with its contents.", "quantifier": "every filter configuration and map", "why_tests_cant": "all error points", "anchors": ["mp2p_icp_filters/src/FilterDeleteLayer.cpp:78-89", "mp2p_icp_filters/src/FilterByRange.cpp", "mp2p_icp_filters/src/FilterBoundingBox.cpp"]}
{"id": "C67", "title": "The time offset is added on top of the adjustment", "statement": "With a configured time_offset the reference time of every method ends at zero plus the offset.", "quantifier": "every method, offset and timestamp list", "why_tests_cant": "unbounded lists", "anchors": ["mp2p_icp_filters/src/FilterAdjustTimestamps.cpp:124,133,146", "mp2p_icp_filters/include/mp2p_icp_filters/FilterAdjustTimestamps.h:49"]}
{"id": "C68", "title": "The full voxel grid works with the std::map flavour", "statement": "PointCloudToVoxelGrid reports the processed points also when the hash map is disabled.", "quantifier": "every sequence of clouds", "why_tests_cant": "a test would have to pick the unused flavour; the claim is about every history", "anchors": ["mp2p_icp_filters/src/PointCloudToVoxelGrid.cpp"]}
{"id": "C69", "title": "The container flavour does not change what voxel decimation outputs", "statement": "FilterDecimateVoxels outputs one point per occupied voxel whatever use_tsl_robin_map says, for every method.", "quantifier": "every cloud, method and flavour", "why_tests_cant": "unbounded clouds", "anchors": ["mp2p_icp_filters/src/FilterDecimateVoxels.cpp", "mp2p_icp_filters/src/PointCloudToVoxelGrid.cpp"]}
{"id": "C70", "title": "Small clouds are passed through by every decimation method", "statement": "An input with no more than minimum_input_points_to_filter points is copied to the output by FilterDecimateVoxels, and the call succeeds, whatever the method.", "quantifier": "every cloud, method and threshold", "why_tests_cant": "unbounded clouds", "anchors": ["mp2p_icp_filters/src/FilterDecimateVoxels.cpp"]}
{"id": "C71", "title": "Missing optional inputs of voxel decimation are ignored", "statement": "With error_on_missing_input_layer off, FilterDecimateVoxels silently leaves the map unchanged when its inputs do not exist.", "quantifier": "every map and input list", "why_tests_cant": "every map", "anchors": ["mp2p_icp_filters/src/FilterDecimateVoxels.cpp"]}
{"id": "C72", "title": "Adaptive decimation reaches its target when enough points are available", "statement": "FilterDecimateAdaptive outputs the desired number of points whenever at least that many input points lie in voxels with enough points.", "quantifier": "every cloud and target", "why_tests_cant": "unbounded clouds", "anchors": ["mp2p_icp_filters/src/FilterDecimateAdaptive.cpp"]}
{"id": "C73", "title": "Adaptive decimation accepts any cloud", "statement": "FilterDecimateAdaptive behaves (output unchanged) when its input is empty or has no voxel with the minimum number of points.", "quantifier": "every cloud", "why_tests_cant": "unbounded clouds", "anchors": ["mp2p_icp_filters/src/FilterDecimateAdaptive.cpp"]}
{"id": "C74", "title": "Converting line/plane pairings keeps the existing point pairs", "statement": "pt2ln_pl_to_pt2pt keeps the already existing point-to-point pairings of its input.", "quantifier": "every pairing set and pose", "why_tests_cant": "unbounded lists", "anchors": ["mp2p_icp/src/pt2ln_pl_to_pt2pt.cpp"]}
{"id": "C75", "title": "The line-to-line residual vanishes on aligned lines", "statement": "When the transformed local line coincides with the global line, error_line2line returns the zero residual.", "quantifier": "every pose and pair of lines", "why_tests_cant": "real-valued geometry", "anchors": ["mp2p_icp/src/errorTerms.cpp:error_line2line"]}
{"id": "C76", "title": "The line-to-line Jacobian is the derivative of its residual", "statement": "For every pose and pair of non-parallel lines the Jacobian returned by error_line2line is the derivative of the returned residual with respect to the pose matrix entries.", "quantifier": "every pose and pair of lines", "why_tests_cant": "real-valued geometry", "anchors": ["mp2p_icp/src/errorTerms.cpp:error_line2line"]}
{"id": "C77", "title": "error_line2line sets every residual component", "statement": "error_line2line assigns all four components of the residual and of the Jacobian for every pair of lines.", "quantifier": "every pose and pair of lines", "why_tests_cant": "uninitialised memory is not observable in a test", "anchors": ["mp2p_icp/src/errorTerms.cpp:error_line2line"]}
{"id": "C78", "title": "Robust weights are the derivatives of a loss", "statement": "For c>0 the Cauchy weight w satisfies x*w(x^2) = d/dx of the documented Cauchy loss, and the Geman-McClure weight satisfies the same with the loss (c x^2/2)/(c+x^2).", "quantifier": "every kernel parameter and error", "why_tests_cant": "real-valued", "anchors": ["mp2p_icp/include/mp2p_icp/robust_kernels.h"]}
{"id": "C79", "title": "The Geman-McClure weight is that of the documented loss", "statement": "For c>0 the Geman-McClure weight w satisfies x*w(x^2) = d/dx of the loss documented in robust_kernels.h.", "quantifier": "every kernel parameter and error", "why_tests_cant": "real-valued", "anchors": ["mp2p_icp/include/mp2p_icp/robust_kernels.h"]}
{"id": "C80", "title": "Weights are right when an outlier starts a block", "statement": "The weights given to the pairs by the closed-form solvers are right also when the first pair of a weight block is an outlier.", "quantifier": "every pairing set and outlier list", "why_tests_cant": "all block layouts", "anchors": ["mp2p_icp/src/visit_correspondences.h"]}
{"id": "C81", "title": "Weighted and unweighted matchers can be mixed", "statement": "If only some of the matchers add weight blocks, the closed-form solvers still run and give the other pairs a defined weight.", "quantifier": "every list of blocks shorter than the point pairs", "why_tests_cant": "undefined behaviour", "anchors": ["mp2p_icp/src/visit_correspondences.h", "mp2p_icp/src/Matcher_Points_Base.cpp"]}
{"id": "C82", "title": "A zero class weight disables the class", "statement": "Setting a class weight of PairWeights to zero makes the closed-form solvers ignore the pairs of that class.", "quantifier": "every pairing set", "why_tests_cant": "all inputs", "anchors": ["mp2p_icp/src/visit_correspondences.h", "mp2p_icp/include/mp2p_icp/PairWeights.h"]}
{"id": "C83", "title": "pt2pt weight only without point_weights", "statement": "As PairWeights.h documents, the pt2pt weight is only honoured if individual weights were not defined in Pairings::point_weights.", "quantifier": "every pairing set with weight blocks", "why_tests_cant": "all inputs", "anchors": ["mp2p_icp/include/mp2p_icp/PairWeights.h", "mp2p_icp/src/visit_correspondences.h"]}
{"id": "C84", "title": "Horn's rotation is optimal", "statement": "For any pairing set with positive weights, at least three pairs and an exact eigen-solver, the rotation returned by optimal_tf_horn is a rotation, minimises over all rotations the weighted sum of squared differences of the used (centred) vectors, and the returned pose maps the local centroid to the global centroid.", "quantifier": "every pairing set, weights, and every competing rotation", "why_tests_cant": "optimality over a continuum", "anchors": ["mp2p_icp/src/optimal_tf_horn.cpp"]}
{"id": "C85", "title": "Horn is the least-squares pose for point pairs", "statement": "With point pairs only, equal weights, no robust kernel and no scale detector, and no point on its centroid, the pose of optimal_tf_horn minimises the sum of squared point distances among all rigid poses.", "quantifier": "every list of at least three point pairs, every competing rigid pose", "why_tests_cant": "optimality over a continuum", "anchors": ["mp2p_icp/src/optimal_tf_horn.cpp"]}
{"id": "C86", "title": "Horn recovers the exact pose of noiseless pairs", "statement": "If every pair is the exact image under one rigid pose and the pairs do not determine it ambiguously, optimal_tf_horn returns true with exactly that pose and no outliers, with any positive weights, robust kernel and scale detector.", "quantifier": "every noiseless pairing set and pose", "why_tests_cant": "all poses and pairings", "anchors": ["mp2p_icp/src/optimal_tf_horn.cpp", "mp2p_icp/src/visit_correspondences.h"]}
{"id": "C87", "title": "A failing solver leaves the caller's result alone", "statement": "When a closed-form solver returns false the OptimalTF_Result passed by the caller keeps its previous pose.", "quantifier": "every failing input", "why_tests_cant": "all inputs", "anchors": ["mp2p_icp/src/optimal_tf_horn.cpp", "mp2p_icp/src/Solver_Horn.cpp"]}
{"id": "C88", "title": "Horn accepts problems without point pairs", "statement": "optimal_tf_horn accepts any pairing set without point pairs (lines or planes only).", "quantifier": "every such set", "why_tests_cant": "all inputs", "anchors": ["mp2p_icp/src/optimal_tf_horn.cpp", "mp2p_icp/src/Pairings.cpp:eval_centroids_robust"]}
{"id": "C89", "title": "Horn minimises the weighted squared error", "statement": "With point_weights, the pose of optimal_tf_horn minimises the weighted sum of squared point distances.", "quantifier": "every weighted point pairing set", "why_tests_cant": "optimality over a continuum", "anchors": ["mp2p_icp/src/optimal_tf_horn.cpp", "mp2p_icp/src/Pairings.cpp:eval_centroids_robust"]}
{"id": "C90", "title": "OLAE recovers the exact pose of noiseless pairs", "statement": "If every pair is the exact image under one rigid pose, line and plane directions are unit vectors, all weights are positive, and one of the four determinants OLAE compares is strictly the largest, optimal_tf_olae returns true with exactly that pose and no outliers, with any weights, robust kernel and scale detector.", "quantifier": "every noiseless pairing set, pose, weights and every linear solver that solves non-singular systems", "why_tests_cant": "all poses and pairings", "anchors": ["mp2p_icp/src/optimal_tf_olae.cpp", "mp2p_icp/src/visit_correspondences.h"]}
{"id": "C91", "title": "OLAE is right also when two determinants tie", "statement": "OLAE recovers the exact pose of noiseless pairs whenever its plain linear system is non-singular.", "quantifier": "every noiseless pairing set", "why_tests_cant": "all poses", "anchors": ["mp2p_icp/src/optimal_tf_olae.cpp"]}
{"id": "C92", "title": "OLAE reports underdetermined problems", "statement": "optimal_tf_olae returns false (or an unrotated pose) if the pairs do not determine a rotation.", "quantifier": "every pairing set with a single point pair", "why_tests_cant": "all inputs", "anchors": ["mp2p_icp/src/optimal_tf_olae.cpp"]}
{"id": "C93", "title": "Gauss-Newton without TBB also restarts its normal equations", "statement": "In the build without TBB, too, the normal equations of every inner iteration contain only the residuals at that iteration's pose. (The code breaks this: the accumulated matrices are never cleared, so iteration k solves the sum of the systems of iterations 1..k and the solver overshoots.)", "quantifier": "every pairing set and number of inner iterations", "why_tests_cant": "histories of inner iterations", "anchors": ["mp2p_icp/src/optimal_tf_gauss_newton.cpp:optimal_tf_gauss_newton"]}
{"id": "C94", "title": "Individual point weights hold in every inner iteration", "statement": "Every inner iteration of optimal_tf_gauss_newton weights each point pair by the weight of its own block. (The code breaks this from the second iteration on: every pair gets the weight of the last block.)", "quantifier": "every pairing set with weight blocks and every number of inner iterations", "why_tests_cant": "histories of inner iterations", "anchors": ["mp2p_icp/src/optimal_tf_gauss_newton.cpp:optimal_tf_gauss_newton"]}
{"id": "C95", "title": "Gauss-Newton's result does not depend on the thread schedule", "statement": "With individual weights and TBB, optimal_tf_gauss_newton returns the same pose whatever the order in which threads run the loop iterations. (The code breaks this: the threads share the cursor over the weight blocks.)", "quantifier": "every schedule", "why_tests_cant": "schedules", "anchors": ["mp2p_icp/src/optimal_tf_gauss_newton.cpp:optimal_tf_gauss_newton"]}
{"id": "C96", "title": "Gauss-Newton never stops early because of a data race", "statement": "optimal_tf_gauss_newton stops before the iteration limit only if the error at the current pose is at most maxCost or the step is small. (The code breaks this: threads add to the shared error without synchronisation, and a lost update can make it zero.)", "quantifier": "every schedule", "why_tests_cant": "schedules", "anchors": ["mp2p_icp/src/optimal_tf_gauss_newton.cpp:optimal_tf_gauss_newton"]}
{"id": "C97", "title": "Gauss-Newton returns an exact starting pose unchanged", "statement": "If every residual is zero at the linearisation point, optimal_tf_gauss_newton returns that pose unchanged after one evaluation, in both builds.", "quantifier": "every pairing set, parameter set and schedule", "why_tests_cant": "unbounded pairings and all schedules", "anchors": ["mp2p_icp/src/optimal_tf_gauss_newton.cpp:optimal_tf_gauss_newton"]}
{"id": "C98", "title": "Each Gauss-Newton step minimises the linearised weighted squared error", "statement": "With non-negative weights and if the linear solver solves the systems it is given, every inner step of optimal_tf_gauss_newton (TBB build, no individual weights, no prior) moves from the current pose along an increment minimising the weighted squared residuals linearised there, the iterations chain up from the given linearisation point, and the returned pose is the last of them.", "quantifier": "every pairing set, parameter set, schedule and number of inner iterations", "why_tests_cant": "unbounded inputs and histories", "anchors": ["mp2p_icp/src/optimal_tf_gauss_newton.cpp:optimal_tf_gauss_newton"]}
{"id": "C99", "title": "Covariance with both lines and planes sets every slot", "statement": "With line-to-line pairings and pairings with planes together, every slot of the error vector is set. (The code breaks this: the offset advances by one per line instead of four, so plane blocks overwrite line blocks and the last slots are never set.)", "quantifier": "every pairing set with lines and planes", "why_tests_cant": "unbounded counts", "anchors": ["mp2p_icp/src/covariance.cpp:covariance"]}
{"id": "C100", "title": "Covariance is evaluated at the given pose", "statement": "The Jacobian of the covariance estimate is evaluated at the given pose in all six coordinates. (The code breaks this: x is assigned twice and z never, so the third coordinate is uninitialised memory and the given z has no effect.)", "quantifier": "every pose", "why_tests_cant": "every pose", "anchors": ["mp2p_icp/src/covariance.cpp:covariance"]}
{"id": "C101", "title": "realize() is memory-safe and all-or-nothing", "statement": "If objects declare their parameters before being attached, realize() never follows a dangling pointer (its only undefined behaviour is converting an out-of-range value to uint32), and a realize() that throws changes no parameter's variable.", "quantifier": "every sequence of calls", "why_tests_cant": "histories of calls and failure points", "anchors": ["mp2p_icp_map/src/Parameterizable.cpp:ParameterSource::realize"]}
{"id": "C102", "title": "Parameters may be declared at any time", "statement": "An object may declare further parameters after being attached to a source. (The code breaks this: the source keeps pointers into the object's vector, which moves when it grows, so that realize() is undefined.)", "quantifier": "every sequence of calls", "why_tests_cant": "histories of calls", "anchors": ["mp2p_icp_map/src/Parameterizable.cpp:ParameterSource::attach"]}
{"id": "C103", "title": "realize() can be retried once the missing variable is defined", "statement": "If realize() throws because of an undefined variable, defining it and calling realize() again gives the parameter the value of its formula. (The code breaks this: the second call succeeds and the object can be used, but the parameter gets the value of an expression that was never compiled.)", "quantifier": "every sequence of calls", "why_tests_cant": "histories of calls with failures", "anchors": ["mp2p_icp_map/src/Parameterizable.cpp:ParameterSource::realize"]}
{"id": "C104", "title": "Deskewing keeps the fields of every point", "statement": "Every output point of FilterDeskew carries the intensity, ring and time of its input point. (The code breaks this: for an input point at the origin the output point has all its fields zero.)", "quantifier": "every cloud", "why_tests_cant": "depends on the data", "anchors": ["mp2p_icp_filters/src/FilterDeskew.cpp:FilterDeskew::filter"]}
{"id": "C105", "title": "Precise deskewing uses the linear velocity and falls back to constant velocity", "statement": "With use_precise_local_velocities, points are translated by the estimated linear velocity, and the constant-velocity model is used when the buffer has no data. (The code breaks this: the twist is never read in this mode, so translations are never compensated, and without data points are only turned by exp(0).)", "quantifier": "every configuration and cloud", "why_tests_cant": "must hold for all motions", "anchors": ["mp2p_icp_filters/src/FilterDeskew.cpp:FilterDeskew::filter"]}
{"id": "C106", "title": "Deskewing refuses inputs it cannot handle", "statement": "FilterDeskew::filter() throws when its parameters are not realized (with no effect), when the input layer does not exist and is not also the output, when points have no times and it was not told to ignore that, and when there is no motion model.", "quantifier": "every map and configuration", "why_tests_cant": "all failing configurations", "anchors": ["mp2p_icp_filters/src/FilterDeskew.cpp:FilterDeskew::filter"]}
{"id": "C107", "title": "A deskewing call that throws leaves the map as it was; a missing input is an error", "statement": "If FilterDeskew::filter() throws, the map is unchanged, and a missing input layer always throws. (The code breaks this: without motion model, one all-zero point per input point stays in the output layer; a missing input layer with the name of the output layer is created and accepted.)", "quantifier": "every map and configuration", "why_tests_cant": "all failing calls", "anchors": ["mp2p_icp_filters/src/FilterDeskew.cpp:FilterDeskew::filter"]}
{"id": "C108", "title": "A merge that throws changes nothing", "statement": "If merge_with throws, the map is unchanged. (The code breaks this: lines are already appended when a plane makes it throw; a layer that cannot be moved stays in the map, unmoved.)", "quantifier": "every pair of maps and pose", "why_tests_cant": "all failure points", "anchors": ["mp2p_icp_map/src/metricmap.cpp:metric_map_t::merge_with"]}
{"id": "C109", "title": "All maps can be merged", "statement": "merge_with merges all geometric entities, whatever they are, and its behaviour is always defined. (The code breaks this: planes with a pose always throw, coinciding layers other than point clouds throw even without pose, and merging another kind of map into a point cloud layer dereferences a null pointer.)", "quantifier": "every pair of maps and pose", "why_tests_cant": "all kinds of layers", "anchors": ["mp2p_icp_map/src/metricmap.cpp:metric_map_t::merge_with"]}
{"id": "C110", "title": "empty() and size() look at the contents of layers", "statement": "empty() is true if all layers are empty, and size() counts the points of every layer. (The code breaks this: a map whose only layer has no points is not empty() although its size() is 0, and layers that are not point clouds are not counted.)", "quantifier": "every metric map", "why_tests_cant": "unbounded structures", "anchors": ["mp2p_icp_map/src/metricmap.cpp:metric_map_t::empty", "mp2p_icp_map/include/mp2p_icp/metricmap.h"]}
{"id": "C111", "title": "A cloned map is independent", "statement": "get_shared_from_this_or_clone() of a map not held by a shared pointer gives a deep copy. (The code breaks this: the copy's layers are the same objects.)", "quantifier": "every map and later change", "why_tests_cant": "aliasing over all later histories", "anchors": ["mp2p_icp_map/src/metricmap.cpp:metric_map_t::get_shared_from_this_or_clone"]}
{"id": "C112", "title": "Georeference as YAML", "statement": "FromYAML(ToYAML(g)) gives back absence, or the geodetic coordinates, translation and covariance of g; a node of another type is rejected.", "quantifier": "every georeference", "why_tests_cant": "all values", "anchors": ["mp2p_icp_map/src/metricmap.cpp:ToYAML", "mp2p_icp_map/src/metricmap.cpp:FromYAML"]}
{"id": "C113", "title": "Georeference as YAML keeps the orientation", "statement": "FromYAML(ToYAML(g)) has the rotation of g. (The code breaks this: the rotation is never written.)", "quantifier": "every georeference", "why_tests_cant": "all values", "anchors": ["mp2p_icp_map/src/metricmap.cpp:ToYAML", "mp2p_icp_map/src/metricmap.cpp:FromYAML"]}
{"id": "C114", "title": "Point cloud observations are appended to the target layer", "statement": "Generator::process() of a point cloud observation that passes the class and label filters appends all its points to the target layer, moved by the robot pose composed with the sensor pose (just the sensor pose without robot pose), creating the layer with the cloud's class if missing; it returns true, no other layer changes, and the velocity buffer's reference time becomes that of the observation.", "quantifier": "every observation, map and pose", "why_tests_cant": "all clouds and maps", "anchors": ["mp2p_icp_filters/src/Generator.cpp:Generator::filterPointCloud", "mp2p_icp_filters/src/Generator.cpp:Generator::implProcessDefault"]}
{"id": "C115", "title": "Generators change nothing but their target layer", "statement": "Whatever the observation and the outcome, Generator::process() changes no layer but its target layer; a generator without map definition that skips an observation (class or label filter; comments, GPS, robot poses) changes nothing at all and returns false.", "quantifier": "every generator, observation and map, also for calls that throw", "why_tests_cant": "all observation classes", "anchors": ["mp2p_icp_filters/src/Generator.cpp:Generator::process"]}
{"id": "C116", "title": "Key-frames without twist do not use the twist of another key-frame", "statement": "In simplemap_to_metricmap(), the twist variables seen by a key-frame without twist are the defaults. (The code breaks this: they are those of the last processed key-frame with a twist.)", "quantifier": "every simple map", "why_tests_cant": "histories of key-frames", "anchors": ["mp2p_icp_filters/src/sm2mm.cpp:simplemap_to_metricmap"]}
{"id": "C117", "title": "Any end_index is valid", "statement": "simplemap_to_metricmap() with any end_index beyond the last key-frame processes all of them from start_index. (The code breaks this for the largest size_t: nothing is processed.)", "quantifier": "every index range", "why_tests_cant": "boundary values", "anchors": ["mp2p_icp_filters/src/sm2mm.cpp:simplemap_to_metricmap"]}
{"id": "C118", "title": "Final filters can use variables", "statement": "Final filters of simplemap_to_metricmap() can have formulas with the defined variables, as the other filters. (The code breaks this: they are never attached to the parameter source, so the first one with such a formula throws after all the work was done.)", "quantifier": "every pipeline and map", "why_tests_cant": "all pipelines", "anchors": ["mp2p_icp_filters/src/sm2mm.cpp:simplemap_to_metricmap"]}
{"id": "C119", "title": "An empty list of generators is an error", "statement": "simplemap_to_metricmap() with an empty list of generators throws as soon as a requested key-frame has an observation.", "quantifier": "every simple map and index range", "why_tests_cant": "unbounded maps", "anchors": ["mp2p_icp_filters/src/sm2mm.cpp:simplemap_to_metricmap", "mp2p_icp_filters/src/Generator.cpp:apply_generators"]}
{"id": "C120", "title": "IMU readings go to the velocity buffer", "statement": "Generator::process() of an IMU observation with angular velocity, with an attached parameter source, adds it to the velocity buffer at the observation's time, rotated to the vehicle frame, changes no layer and returns true.", "quantifier": "every reading and map", "why_tests_cant": "all values", "anchors": ["mp2p_icp_filters/src/Generator.cpp:Generator::processIMU"]}
{"id": "C121", "title": "An unusable IMU reading has no effect", "statement": "An IMU observation without angular velocity, or without parameter source, has no effect on the map. (The code breaks this: the target layer is created, and the observation is then inserted into it as any other.)", "quantifier": "every reading and map", "why_tests_cant": "all values", "anchors": ["mp2p_icp_filters/src/Generator.cpp:Generator::implProcessDefault"]}
{"id": "C122", "title": "A skipped observation has no effect on custom maps", "statement": "A generator with a metric map definition that skips an observation has no effect. (The code breaks this: the layer is created.)", "quantifier": "every observation and map", "why_tests_cant": "all values", "anchors": ["mp2p_icp_filters/src/Generator.cpp:Generator::implProcessCustomMap"]}
{"id": "C123", "title": "Every generator sees every observation", "statement": "apply_generators() runs all generators on the observation, in order, even after one has handled it, and returns whether some generator handled it; without generators it throws, with no effect.", "quantifier": "every list of generators and observation", "why_tests_cant": "unbounded lists", "anchors": ["mp2p_icp_filters/src/Generator.cpp:apply_generators"]}
{"id": "C124", "title": "Merging by copy and by move give the same object", "statement": "`a.push_back(b)` and `a.push_back(std::move(b))` leave `a` with identical contents, and neither loses the per-point weights of `b`. (The code breaks this: the move overload overwrites the counter, and both drop the weights of b.)", "quantifier": "every pair of Pairings objects", "why_tests_cant": "the difference shows only when the receiver already has a non-zero potential-pairings counter, or b carries weights", "anchors": ["mp2p_icp/src/Pairings.cpp:Pairings::push_back(Pairings&&)", "mp2p_icp/src/Pairings.cpp:Pairings::push_back(const Pairings&)"]}
{"id": "C125", "title": "A matched local point is skipped whatever the other flags are", "statement": "With allowMatchAlreadyMatchedPoints=false, a local point paired by an earlier matcher of the same run is not paired again by a later one, for any setting of the other flags. (The code breaks this: the distance-threshold matcher marks nothing when allowMatchAlreadyMatchedGlobalPoints=true.)", "quantifier": "every sequence of matchers, flags and clouds", "why_tests_cant": "depends on the interaction of two flags across matchers", "anchors": ["mp2p_icp/src/Matcher_Points_DistanceThreshold.cpp:implMatchOneLayer", "mp2p_icp/include/mp2p_icp/Matcher_Points_Base.h"]}
{"id": "C126", "title": "The angular part of the bound is honoured", "statement": "A local point with a global neighbour within the full bound (metric threshold plus angular term) is paired. (The code breaks this: the early exit on the bounding boxes uses the metric threshold only.)", "quantifier": "every pair of clouds, parameters and match states", "why_tests_cant": "unbounded geometry", "anchors": ["mp2p_icp/src/Matcher_Points_DistanceThreshold.cpp:implMatchOneLayer"]}
{"id": "C127", "title": "Every point has a chance of being subsampled", "statement": "With a limit m below the size of the cloud, every point of the cloud can be selected for some random seed. (The code breaks this: only indices below m are ever selected.)", "quantifier": "every cloud, limit and random permutation", "why_tests_cant": "random choice and unbounded sizes", "anchors": ["mp2p_icp/src/Matcher_Points_Base.cpp:transform_local_to_global"]}
{"id": "C128", "title": "Parallel matching never pairs a global point twice when forbidden", "statement": "When built with TBB and allowMatchAlreadyMatchedGlobalPoints=false, no schedule pairs a global point twice. (The code breaks this: two workers may read the mark before either sets it; a single worker never does it.)", "quantifier": "every interleaving of the worker threads", "why_tests_cant": "schedules cannot be enumerated by tests", "anchors": ["mp2p_icp/src/Matcher_Points_DistanceThreshold.cpp:implMatchOneLayer (MP2P_HAS_TBB)"]}
{"id": "C129", "title": "The TBB build finds the same neighbours with an angular threshold", "statement": "The neighbours considered for a point by the TBB build are those of the sequential build, also with an angular threshold. (The code breaks this: the radius search is limited to the metric threshold.)", "quantifier": "every cloud, query and thresholds", "why_tests_cant": "schedules cannot be enumerated by tests", "anchors": ["mp2p_icp/src/Matcher_Points_DistanceThreshold.cpp:implMatchOneLayer (MP2P_HAS_TBB)"]}
{"id": "C130", "title": "A solver error does not lose the last solution", "statement": "The optimal pose returned by align() is the output of the last successful solver call also when a later solver call fails. (The code breaks this.)", "quantifier": "every behaviour of matchers and solvers", "why_tests_cant": "unbounded histories", "anchors": ["mp2p_icp/src/ICP.cpp:ICP::align"]}
{"id": "C131", "title": "Stalling means one small step", "statement": "align() reports \"stalled\" only if the pose change with respect to one and the same earlier iterate (of the last two) is below both thresholds. (The code breaks this: the minima of translation and rotation are taken independently.)", "quantifier": "every sequence of solver outputs and thresholds", "why_tests_cant": "unbounded histories", "anchors": ["mp2p_icp/src/ICP.cpp:ICP::align"]}
{"id": "C132", "title": "Log numbers never repeat", "statement": "No two log records of a process ever get the same number. (The code breaks this: the counter has 32 bits.)", "quantifier": "every sequence of requests", "why_tests_cant": "schedules", "anchors": ["mp2p_icp/src/ICP.cpp:ICP::save_log_file"]}
{"id": "C133", "title": "Trajectory reconstruction never reads outside the buffer", "statement": "reconstruct_poses_around_reference_time never dereferences past the end of the sample container. (The code breaks this whenever the buffer has no sample after the end of the requested span.)", "quantifier": "every buffer content, reference time and half-span", "why_tests_cant": "histories and boundary cases", "anchors": ["mp2p_icp_map/src/LocalVelocityBuffer.cpp:reconstruct_poses_around_reference_time"]}
{"id": "C134", "title": "Reported iteration count is the number of executed iterations", "statement": "Results::nIterations, documented as the number of executed iterations, equals the number of match rounds that align() performed. (The code breaks this in every run that ends early.)", "quantifier": "every set of components, parameters, maps and initial guess", "why_tests_cant": "depends on which of the seven ways of ending the loop is taken, for arbitrary user components", "anchors": ["mp2p_icp/src/ICP.cpp: ICP::align", "mp2p_icp/include/mp2p_icp/Results.h: Results::nIterations"]}
{"id": "C135", "title": "Requesting iteration details is safe", "statement": "align() never runs into undefined behaviour, also when iteration details are requested without a log. (The code breaks this: it dereferences the empty optional holding the log.)", "quantifier": "every set of well-behaved components, parameters, maps", "why_tests_cant": "the crash needs a specific combination of options; tests cannot enumerate all components", "anchors": ["mp2p_icp/src/ICP.cpp: ICP::align"]}
{"id": "C136", "title": "Limiting the number of local points is safe", "statement": "Matcher_Points_DistanceThreshold can be used with any maxLocalPointsPerLayer: it never reads outside its buffers. (The code breaks this: with an effective limit the loop runs to the full cloud size, past the sampled buffers.)", "quantifier": "every pair of clouds, limit and random permutation", "why_tests_cant": "an out-of-range read often goes unnoticed in a test run; safety is about all cloud sizes", "anchors": ["mp2p_icp/src/Matcher_Points_DistanceThreshold.cpp: implMatchOneLayer", "mp2p_icp/src/Matcher_Points_Base.cpp: transform_local_to_global"]}
{"id": "C137", "title": "Version-0 pairings read the same whatever object they are read into", "statement": "Reading a version-0 Pairings stream gives a counter of 0 also if the object was used before. (The code breaks this: the counter keeps its previous value.)", "quantifier": "every stored object and every previous content of the reading object", "why_tests_cant": "needs streams of an old version and all previous states", "anchors": ["mp2p_icp/src/Pairings.cpp:Pairings::serializeFrom"]}
{"id": "C138", "title": "Quality checkpoints survive serialization", "statement": "Writing Parameters to an archive and reading them back gives equal quality checkpoints. (The code breaks this: they are not written.)", "quantifier": "every parameter set", "why_tests_cant": "all field values and versions", "anchors": ["mp2p_icp/src/Parameters.cpp:Parameters::serializeTo", "mp2p_icp/src/Parameters.cpp:Parameters::serializeFrom"]}
{"id": "C139", "title": "LoadFromFile throws on errors", "statement": "The static LoadFromFile throws on any error, as documented. (The code breaks this: it ignores the returned flag.)", "quantifier": "every file content", "why_tests_cant": "all file contents", "anchors": ["mp2p_icp/src/LogRecord.cpp:load_from_file", "mp2p_icp/include/mp2p_icp/LogRecord.h:LoadFromFile"]}
{"id": "C140", "title": "Reading georeferencing replaces the previous value", "statement": "Reading stored georeferencing into a variable that already holds some gives the stored value. (The code breaks this: a stored \"none\" leaves the old value.)", "quantifier": "every georeferencing value and previous value", "why_tests_cant": "all previous states", "anchors": ["mp2p_icp_map/src/metricmap.cpp:operator>>(CArchive&, std::optional<Georeferencing>&)"]}
{"id": "C141", "title": "The intensity filter accepts any output and empty clouds", "statement": "The intensity filter accepts every configuration with at least one output layer, and filtering an empty cloud gives empty outputs. (The code breaks both.)", "quantifier": "every configuration", "why_tests_cant": "all combinations of outputs", "anchors": ["mp2p_icp_filters/src/FilterByIntensity.cpp:37-42,104", "mp2p_icp_filters/src/FilterByRange.cpp:39", "mp2p_icp_filters/src/FilterBoundingBox.cpp:37"]}
{"id": "C142", "title": "Deleting layers is all or nothing", "statement": "When FilterDeleteLayer throws because a listed layer is missing, every layer that existed before is still there. (The code breaks this: the layers listed before the missing one are gone.)", "quantifier": "every configuration and map", "why_tests_cant": "all error points", "anchors": ["mp2p_icp_filters/src/FilterDeleteLayer.cpp:78-89", "mp2p_icp_filters/src/FilterByRange.cpp", "mp2p_icp_filters/src/FilterBoundingBox.cpp"]}
{"id": "C143", "title": "Point-to-plane matching pairs exactly the points that have a plane in range", "statement": "One layer of Matcher_Point2Plane appends to the pairings, in the order in which the local points are visited, exactly one point-to-plane pairing for each local point that takes part, is not already paired (when re-matching is forbidden) and for which the global map reports a plane at most distanceThreshold away from the transformed point; the pairing has the untransformed local point. Exactly those points are marked as paired, no other list changes, potential_pairings grows by the number of local points, and nothing is paired if a map is empty or the maps are farther apart than the threshold. With a match state sized for the layer the call always succeeds.", "quantifier": "every global map (any plane search), local points, pose, threshold, limit and sampling of local points, match state and previous pairings", "why_tests_cant": "the guarantee is about the complete set of pairings and marks for every map, plane search and prior match state", "anchors": ["mp2p_icp/src/Matcher_Point2Plane.cpp: implMatchOneLayer", "mp2p_icp/src/Matcher_Points_Base.cpp: transform_local_to_global"]}
{"id": "C144", "title": "Point-to-line matching pairs exactly the points whose neighbours form a line", "statement": "One layer of Matcher_Point2Line appends, in the order of the local points, exactly one point-to-line pairing for each local point that takes part, is not already paired, has at least minimumLinePoints of its knn nearest global points within distanceThreshold, and whose knn nearest points have both smaller eigenvalues at most lineEigenThreshold times the largest; the line goes through their mean along the eigenvector of the largest. Exactly those points are marked. With minimumLinePoints of three or more and a match state sized for the layer the call always succeeds.", "quantifier": "every global map with a correct nearest-neighbour search, local points, pose, parameters, sampling, match state and previous pairings", "why_tests_cant": "the complete set of lines and marks for every map and prior state cannot be sampled", "anchors": ["mp2p_icp/src/Matcher_Point2Line.cpp: implMatchOneLayer", "mp2p_icp_map/src/estimate_points_eigen.cpp: estimate_points_eigen"]}
{"id": "C145", "title": "A line is fitted only to neighbours within the threshold", "statement": "The line that Matcher_Point2Line pairs a point with passes through the mean of global points that are all within distanceThreshold of the transformed point. Refuted: all the knn neighbours are used for the fit, however far, as the list of points is not trimmed.", "quantifier": "every map, local points and parameters", "why_tests_cant": "needs a neighbour set with both near and far points; the claim is universal", "anchors": ["mp2p_icp/src/Matcher_Point2Line.cpp: implMatchOneLayer"]}
{"id": "C146", "title": "Accepted point-to-line parameters never make matching throw", "statement": "A Matcher_Point2Line whose parameters initialize() accepts does not throw while matching valid maps. Refuted: minimumLinePoints of two is accepted, and a point with only two neighbours makes estimate_points_eigen() throw.", "quantifier": "every accepted parameter set, map and match state", "why_tests_cant": "the claim ranges over all accepted parameters and maps", "anchors": ["mp2p_icp/src/Matcher_Point2Line.cpp: initialize, implMatchOneLayer"]}
{"id": "C147", "title": "Adaptive matching: planes or thresholded nearest points, exactly", "statement": "One layer of Matcher_Adaptive looks, for each local point that takes part and is not already paired, at its nearest global points within absoluteMaxSearchDistance (at most ten, and at most planeSearchPoints or maxPt2PtCorrespondences). It appends, in the order of the local indices, a point-to-plane pairing if planes are enabled and those points pass the flatness and distance tests; otherwise point-to-point pairings with those of the first maxPt2PtCorrespondences that are not already paired (when forbidden), are nearer than the larger of minimumCorrDist and the confidence limit of the errors of the two nearest points of all local points, and, but for the first, have a squared error within the squared ratio of the first's. Exactly the paired points are marked (point-paired ones only when re-matching global points is forbidden). It fails only if the statistics fail or no local point has a point in range; in particular it succeeds if one has.", "quantifier": "every global map with correct searches, local points, pose, accepted parameters, sampling, statistics function, match state and previous pairings", "why_tests_cant": "a complete characterisation of the output over all maps, histories of marks and confidence limits", "anchors": ["mp2p_icp/src/Matcher_Adaptive.cpp: implMatchOneLayer, initialize"]}
{"id": "C148", "title": "Adaptive matching of maps with nothing in range is safe", "statement": "Matcher_Adaptive never has undefined behaviour on valid maps whose bounding boxes meet. Refuted: if no local point has a global point within absoluteMaxSearchDistance, empty optionals (the limits of the histogram) are dereferenced.", "quantifier": "every pair of maps, accepted parameters and match state", "why_tests_cant": "depends on a relation between every pair of points of the two maps", "anchors": ["mp2p_icp/src/Matcher_Adaptive.cpp: implMatchOneLayer"]}
{"id": "C149", "title": "Adaptive matching does not reuse a global point when forbidden", "statement": "With allowMatchAlreadyMatchedGlobalPoints off, a global point paired by Matcher_Adaptive for one local layer is not paired again for a later one. Refuted: the matcher never marks global points (the code is disabled).", "quantifier": "every sequence of two layer matchings", "why_tests_cant": "it is about the history of calls on one match state", "anchors": ["mp2p_icp/src/Matcher_Adaptive.cpp: implMatchOneLayer"]}
{"id": "C150", "title": "Adaptive matching pairs only with planes near the point", "statement": "The transformed local point of every point-to-plane pairing made by Matcher_Adaptive is nearer than planeMinimumDistance to the plane. Refuted: the distance is computed for the untransformed local point.", "quantifier": "every pose, map and parameters", "why_tests_cant": "holds by accident for poses near the identity, as in tests", "anchors": ["mp2p_icp/src/Matcher_Adaptive.cpp: implMatchOneLayer"]}
{"id": "C151", "title": "estimate_points_eigen returns the mean and covariance", "statement": "With three or more points estimate_points_eigen() returns their arithmetic mean and their (population) covariance, and the spectrum of that covariance; with less it throws. With indices it gives the same result as on the selected points alone. The covariance is positive semi-definite, does not change if all points are translated, and neither it nor the mean depends on the order of the points.", "quantifier": "every list of points, count, list of indices, translation and permutation", "why_tests_cant": "algebraic laws over all point sets", "anchors": ["mp2p_icp_map/src/estimate_points_eigen.cpp: estimate_points_eigen"]}
{"id": "C152", "title": "FilterCurvature gives every kept point one class", "statement": "For a cloud with a ring channel, FilterCurvature thins each ring by min_clearance, assigns each surviving point exactly one class (larger, smaller, other) from its two neighbours on the ring, and appends each survivor to the output of its class, ring by ring in order. With three new outputs they partition the survivors; the input is unchanged. Clouds without ring ids, empty clouds and missing layers are refused.", "quantifier": "every cloud, set of layers and parameters", "why_tests_cant": "every sequence of ring points", "anchors": ["mp2p_icp_filters/src/FilterCurvature.cpp: FilterCurvature::filter"]}
{"id": "C153", "title": "FilterCurvature handles every ring id", "statement": "For every cloud with 16-bit ring ids FilterCurvature either processes the cloud or throws. Refuted: with ring id 65535 the number of rings wraps to 0 and the code divides by it before the check. Proved for all smaller ids.", "quantifier": "every cloud and parameters", "why_tests_cant": "needs a ring id no sensor in the tests has", "anchors": ["mp2p_icp_filters/src/FilterCurvature.cpp: FilterCurvature::filter"]}
{"id": "C154", "title": "Near borders of gaps count as large curvature", "statement": "A surviving point next to a gap, nearer to the sensor than the point on the other side of the gap, goes to the larger-curvature output. Refuted: only the gap before the point is considered so, not the gap after it. Proved for gaps before the point.", "quantifier": "every cloud and parameters", "why_tests_cant": "every sequence of ring points", "anchors": ["mp2p_icp_filters/src/FilterCurvature.cpp: FilterCurvature::filter"]}
{"id": "C155", "title": "FilterPoleDetector sends each column to one output", "statement": "In whatever order the grid is visited: each column with at least minimum_pole_points points is sent whole, in order, to output_layer_poles if its mean height exceeds that of at least minimum_neighbors_checks_to_pass of its eight neighbours by more than the minimum and less than the maximum relative height, else to output_layer_no_poles; other columns go nowhere; other layers are unchanged. Unrealized parameters, a missing input and unusable outputs are refused.", "quantifier": "every cloud, set of layers, parameters and visiting order", "why_tests_cant": "every cloud and hash-map order", "anchors": ["mp2p_icp_filters/src/FilterPoleDetector.cpp: FilterPoleDetector::filter"]}
{"id": "C156", "title": "Poles and no-poles together are the input", "statement": "The two outputs of FilterPoleDetector together hold every input point. Refuted: points of columns with fewer than minimum_pole_points points are dropped. Proved: the outputs are together exactly the points of the other columns, pole columns in one and the others in the other.", "quantifier": "every cloud, parameters and visiting order", "why_tests_cant": "every cloud", "anchors": ["mp2p_icp_filters/src/FilterPoleDetector.cpp: FilterPoleDetector::filter"]}
{"id": "C157", "title": "Pole columns are grid_size wide", "statement": "Points at least grid_size apart in x or in y never share a column of FilterPoleDetector: if all points are that far apart and a column needs two points, both outputs stay empty. Refuted: rounding towards zero makes the columns at the axes twice as wide. Proved for non-negative coordinates.", "quantifier": "every cloud and parameters", "why_tests_cant": "every cloud", "anchors": ["mp2p_icp_filters/src/FilterPoleDetector.cpp: xy_to_index"]}
{"id": "C158", "title": "FilterPoleDetector has no undefined behaviour", "statement": "For every cloud and positive grid_size FilterPoleDetector returns or throws. Refuted: the column number is cast to 32 bits unchecked. Proved: the behaviour is undefined exactly if some column number is not strictly inside the 32-bit range, or grid_size is 0 and there is a point.", "quantifier": "every cloud, set of layers and parameters", "why_tests_cant": "out-of-range casts give plausible values on the tested machine", "anchors": ["mp2p_icp_filters/src/FilterPoleDetector.cpp: xy_to_index"]}
{"id": "C159", "title": "FilterDecimateVoxelsQuadratic: one point per quadratic voxel", "statement": "The output layer (created as a plain cloud if missing, possibly the input itself) grows by exactly one point per occupied voxel of the quadratic lattice, the representative that the use_voxel_average / use_closest_to_voxel_average / use_random_point_within_voxel flags ask for; no other layer changes. An empty output name, an unusable output layer, a missing input with error_on_missing_input_layer, or an input that is not a cloud throws; a missing input without that flag is ignored.", "quantifier": "every input cloud, output layer, voxel visiting order, random draws, radius and resolution", "why_tests_cant": "clouds, hash orders and random draws are unbounded", "anchors": ["mp2p_icp_filters/src/FilterDecimateVoxelsQuadratic.cpp: filter"]}
{"id": "C160", "title": "FilterDecimateVoxelsQuadratic keeps the channels of the points it keeps", "statement": "Without averaging, the points written are the chosen input points with the channels the output layer has. Refuted: intensity, ring and time are written as 0. Proved: nothing is lost if the output has no such channels.", "quantifier": "every cloud, parameters and output layer", "why_tests_cant": "every cloud and layer class", "anchors": ["mp2p_icp_filters/src/FilterDecimateVoxelsQuadratic.cpp: filter"]}
{"id": "C161", "title": "Quadratic lattice coordinates invert", "statement": "grid2real(real2grid(x)) = x for every coordinate. Refuted: for negative coordinates within the radius it is the square root of a negative number. Proved for x >= 0 and for x beyond the radius.", "quantifier": "every coordinate and radius", "why_tests_cant": "every real input", "anchors": ["mp2p_icp_filters/include/mp2p_icp_filters/FilterDecimateVoxelsQuadratic.h: real2grid, grid2real"]}
{"id": "C162", "title": "The quadratic lattice coordinate is a proper coordinate", "statement": "The lattice coordinate is odd, strictly increasing, 0 at 0, the coordinate itself at and beyond the radius, and between 0 and x for x >= 0.", "quantifier": "every coordinate and positive radius", "why_tests_cant": "every real input", "anchors": ["mp2p_icp_filters/include/mp2p_icp_filters/FilterDecimateVoxelsQuadratic.h: real2grid"]}
{"id": "C163", "title": "Quadratic voxels are not narrower than the resolution", "statement": "A span shorter than voxel_filter_resolution touches at most two consecutive voxels. Refuted: between half the radius and the radius voxels are down to half as wide. Proved within half the radius and beyond it.", "quantifier": "every span, radius and resolution", "why_tests_cant": "every real input", "anchors": ["mp2p_icp_filters/include/mp2p_icp_filters/FilterDecimateVoxelsQuadratic.h: real2grid"]}
{"id": "C164", "title": "FilterDecimateVoxelsQuadratic reports a missing input layer", "statement": "With error_on_missing_input_layer, a missing input layer throws. Refuted: when the output has the same name, it is created first and the call succeeds. Proved if the names differ.", "quantifier": "every set of layers and parameters", "why_tests_cant": "every map", "anchors": ["mp2p_icp_filters/src/FilterDecimateVoxelsQuadratic.cpp: filter"]}
{"id": "C165", "title": "FilterMerge puts each point where it belongs", "statement": "Whatever map the target is, it receives, with the robot pose, one point per input point in order; placed in the target frame it is the input point itself, or the input point moved by the robot pose if input_layer_in_local_coordinates; no other layer changes. Unset parameters, missing or null input, input that is not a cloud, empty or missing target throw and change nothing.", "quantifier": "every input cloud, rigid robot pose, target map and set of layers", "why_tests_cant": "all poses and clouds", "anchors": ["mp2p_icp_filters/src/FilterMerge.cpp: filter"]}
{"id": "C166", "title": "FilterMerge has no undefined behaviour", "statement": "FilterMerge returns or throws for every map. Refuted: a null target layer is dereferenced. Proved for every map whose target layer is not null.", "quantifier": "every set of layers and parameters", "why_tests_cant": "every map", "anchors": ["mp2p_icp_filters/src/FilterMerge.cpp: filter"]}
{"id": "C167", "title": "FilterVoxelSlice takes exactly the voxels that meet the slice", "statement": "The output layer becomes a grid at the mean height of the slice, sized as the voxel map, updated once per voxel, in order, whose height interval meets [slice_z_min, slice_z_max], at the voxel's position with its occupancy, and by no other voxel; other layers are untouched. An inverted slice, unset parameters, an empty or missing input, or one that is no voxel map throws and changes nothing.", "quantifier": "every voxel map, slice and resolution", "why_tests_cant": "all voxel maps and heights", "anchors": ["mp2p_icp_filters/src/FilterVoxelSlice.cpp: filter"]}
{"id": "C168", "title": "FilterVoxelSlice slices colour voxel maps", "statement": "A CVoxelMapRGB, which the filter accepts, is sliced like a CVoxelMap. Refuted: the visit is written for the other class only. Proved: the output is a fresh grid without a single update, and no error is reported.", "quantifier": "every voxel map, slice and resolution", "why_tests_cant": "all voxel maps", "anchors": ["mp2p_icp_filters/src/FilterVoxelSlice.cpp: filter"]}
{"id": "C169", "title": "FilterEdgesPlanes classifies every populated voxel", "statement": "Every voxel with at least five points is classified once, by the eigenvalues of the covariance of its points, as edge, plane or neither. edge_points holds every voxel_filter_decimation-th point of the edge voxels; plane_centroids and the list of planes get one entry per plane voxel (through the mean, normal along the first eigenvector, facing the origin); plane_points holds the decimated points of the plane voxels that are not horizontal; full_decim every full_pointcloud_decimation-th point of all those voxels. The four layers are replaced, planes appended, nothing else changes, and the input may be one of the replaced layers. A missing, null or non-cloud input throws and changes nothing.", "quantifier": "every cloud, eigen-solver, visiting order, thresholds and decimations >= 1, with no plane voxel centred at the origin", "why_tests_cant": "clouds and hash orders are unbounded", "anchors": ["mp2p_icp_filters/src/FilterEdgesPlanes.cpp: filter"]}
{"id": "C170", "title": "plane_centroids matches the planes of the map", "statement": "After FilterEdgesPlanes the layer plane_centroids lists the centroids of the planes of the map. Refuted: the layer is replaced while the list of planes is appended to. Proved, whatever the outcome, if the map had no planes.", "quantifier": "every map, cloud and parameters", "why_tests_cant": "every earlier content of the map", "anchors": ["mp2p_icp_filters/src/FilterEdgesPlanes.cpp: filter"]}
{"id": "C171", "title": "FilterEdgesPlanes accepts every cloud", "statement": "With a decimation of at least 1, FilterEdgesPlanes returns for every point cloud. Refuted: it throws on a plane-like voxel centred within 1 mm of the origin. Proved: it throws exactly then, and returns otherwise.", "quantifier": "every cloud, eigen-solver, visiting order and thresholds", "why_tests_cant": "every cloud", "anchors": ["mp2p_icp_filters/src/FilterEdgesPlanes.cpp: filter"]}
{"id": "C172", "title": "FilterEdgesPlanes terminates", "statement": "FilterEdgesPlanes always ends. Refuted: with voxel_filter_decimation = 0 it never does on a cloud with an edge voxel. Proved for every other decimation, without undefined behaviour.", "quantifier": "every map, cloud, container and parameters", "why_tests_cant": "non-termination is not observable by a test", "anchors": ["mp2p_icp_filters/src/FilterEdgesPlanes.cpp: filter"]}
{"id": "C173", "title": "use_tsl_robin_map does not change the result of FilterEdgesPlanes", "statement": "The outputs do not depend on the container option. Refuted. Proved: with use_tsl_robin_map=false all four layers are always empty and no plane is found.", "quantifier": "every cloud and parameters", "why_tests_cant": "every cloud", "anchors": ["mp2p_icp_filters/src/FilterEdgesPlanes.cpp: filter", "mp2p_icp_filters/src/PointCloudToVoxelGrid.cpp: processPointCloud"]}
{"id": "C174", "title": "full_decim samples every occupied voxel", "statement": "The layer full_decim has at least one point of every occupied voxel. Refuted: voxels with fewer than five points give none. Proved: a voxel is sampled exactly if it has at least five points.", "quantifier": "every cloud and parameters", "why_tests_cant": "every cloud", "anchors": ["mp2p_icp_filters/src/FilterEdgesPlanes.cpp: filter"]}
{"id": "C175", "title": "FilterEdgesPlanes is exception safe", "statement": "A call that throws leaves the map as it was. Refuted: the four layers are replaced first. Proved: whatever the outcome, all other layers are untouched and the list of planes only grows.", "quantifier": "every map, cloud and parameters, every point where it throws", "why_tests_cant": "every failure point", "anchors": ["mp2p_icp_filters/src/FilterEdgesPlanes.cpp: filter"]}
{"id": "C176", "title": "The curvature edge generator outputs exactly the corners", "statement": "GeneratorEdgesFromCurvature::process on a rotating scan that passes the class and label filters returns true and leaves in the target layer exactly the pixels (not in the first or last column) whose range and both neighbours' are valid, at least min_point_clearance from both neighbours and with |cos| of the turn below max_cosine, in reading order, placed by the robot pose; no other layer changes. Scans whose matrices do not match rowCount x columnCount, uninitialised objects, unrealized parameters and an ini-file map definition are rejected with an exception and an unchanged map.", "quantifier": "every scan, pose, parameters and map", "why_tests_cant": "quantifies over all images, parameters and maps", "anchors": ["mp2p_icp_filters/src/GeneratorEdgesFromCurvature.cpp"]}
{"id": "C177", "title": "The curvature edge generator keeps earlier points", "statement": "Points already in the target layer of GeneratorEdgesFromCurvature survive the processing of another scan.", "quantifier": "every sequence of scans", "why_tests_cant": "quantifies over all images, parameters and maps", "anchors": ["mp2p_icp_filters/src/GeneratorEdgesFromCurvature.cpp"]}
{"id": "C178", "title": "The curvature edge generator ignores the other observations", "statement": "For an observation rejected by the class or label filter, process returns false and changes nothing; for an accepted observation that is not a rotating scan it returns false, creating an empty target layer if missing, leaving an existing point layer alone, and throwing if the layer is something else.", "quantifier": "every observation and map", "why_tests_cant": "quantifies over all images, parameters and maps", "anchors": ["mp2p_icp_filters/src/GeneratorEdgesFromCurvature.cpp"]}
{"id": "C179", "title": "The range-image edge generator outputs exactly the significant pixels", "statement": "On a rotating scan with at least 8 columns in which the range never decreases over a window of 17 columns, GeneratorEdgesFromRangeImage leaves in the target layer exactly the pixels at least 9 columns from the left and 8 from the right whose squared deviation from the local mean difference, over the local variance, exceeds the threshold (in the documented fixed point arithmetic), in reading order, placed by the robot pose; nothing else changes.", "quantifier": "every scan, pose, threshold and map", "why_tests_cant": "quantifies over all images, parameters and maps", "anchors": ["mp2p_icp_filters/src/GeneratorEdgesFromRangeImage.cpp"]}
{"id": "C180", "title": "The range-image edge generator is defined on every rotating scan", "statement": "Processing any well-formed rotating scan has defined behaviour.", "quantifier": "every scan", "why_tests_cant": "quantifies over all images, parameters and maps", "anchors": ["mp2p_icp_filters/src/GeneratorEdgesFromRangeImage.cpp"]}
{"id": "C181", "title": "The range-image edge generator keeps earlier points", "statement": "Points already in the target layer of GeneratorEdgesFromRangeImage survive the processing of another rotating scan.", "quantifier": "every sequence of scans", "why_tests_cant": "quantifies over all images, parameters and maps", "anchors": ["mp2p_icp_filters/src/GeneratorEdgesFromRangeImage.cpp"]}
{"id": "C182", "title": "Plane points of 3D scans go to the planes layer", "statement": "For 3D range scans the points of flat areas are appended to planes_target_layer, keeping what it held.", "quantifier": "every 3D scan and map", "why_tests_cant": "quantifies over all images, parameters and maps", "anchors": ["mp2p_icp_filters/src/GeneratorEdgesFromRangeImage.cpp"]}
{"id": "C183", "title": "The range-image edge generator is defined on every 3D scan", "statement": "Processing any 3D range scan has defined behaviour, also when planes_target_layer is left empty.", "quantifier": "every 3D scan and map", "why_tests_cant": "quantifies over all images, parameters and maps", "anchors": ["mp2p_icp_filters/src/GeneratorEdgesFromRangeImage.cpp"]}
{"id": "C184", "title": "Edges of 3D scans", "statement": "On a 3D range scan of 2 to 2048 blocks of columns, with two different usable layers and no row of block means whose last difference is negative, process returns true and the edges layer grows by exactly the 8x8 blocks (from the second column on) with a valid mean range whose squared second difference over the variance of the row exceeds the threshold, in reading order, at the centre pixel of the block and its mean range, placed by the robot pose; only the two layers change. Scans without a range image or narrower than two blocks are rejected.", "quantifier": "every 3D scan, pose, threshold and map", "why_tests_cant": "quantifies over all images, parameters and maps", "anchors": ["mp2p_icp_filters/src/GeneratorEdgesFromRangeImage.cpp"]}
{"id": "C185", "title": "Range image quality is a quality", "statement": "For any two maps with a point layer \"raw\" and any pose, with a positive sigma and a non-negative penalty, the quality of the range-image evaluator, if there is one, is in [0,1]; it is 0 when no point is on any of the four images; a map without such a layer raises an exception.", "quantifier": "every pair of maps, pose, camera and parameters", "why_tests_cant": "quantifies over all clouds, poses and parameters", "anchors": ["mp2p_icp/src/QualityEvaluator_RangeImageSimilarity.cpp"]}
{"id": "C186", "title": "Registered clouds score 1", "statement": "If the local cloud placed at the given pose coincides with the global cloud and something is in view, the range-image quality is 1.", "quantifier": "every cloud, rigid pose and camera", "why_tests_cant": "quantifies over all clouds, poses and parameters", "anchors": ["mp2p_icp/src/QualityEvaluator_RangeImageSimilarity.cpp"]}
{"id": "C187", "title": "Range images show what is in view", "statement": "Each pixel of a range image holds the range of the nearest point that is in front of the camera and inside that pixel.", "quantifier": "every cloud, pose and camera", "why_tests_cant": "quantifies over all clouds, poses and parameters", "anchors": ["mp2p_icp/src/QualityEvaluator_RangeImageSimilarity.cpp"]}
{"id": "C188", "title": "Nearest range per pixel, mean over pixels", "statement": "Each pixel of a range image holds the range of the nearest of the points that fall on it (coordinates cut towards zero), 0 if none; and the quality is the mean, over the pixels seen in at least one image of each of the two comparisons, of 1-phi(difference/sigma), or 1-phi(penalty) where only one image sees something.", "quantifier": "every cloud, pose, camera and parameters", "why_tests_cant": "quantifies over all clouds, poses and parameters", "anchors": ["mp2p_icp/src/QualityEvaluator_RangeImageSimilarity.cpp"]}
{"id": "C189", "title": "Range image quality is always defined", "statement": "The range-image evaluator returns a quality for every pair of clouds.", "quantifier": "every cloud, pose and camera", "why_tests_cant": "quantifies over all clouds, poses and parameters", "anchors": ["mp2p_icp/src/QualityEvaluator_RangeImageSimilarity.cpp"]}
{"id": "C190", "title": "Voxel quality is a quality", "statement": "For any two voxel maps the quality is in [0,1); with equal resolutions it is 0 exactly when no two well-observed voxels are at the same place. A missing layer, or one that is not a voxel map, raises an exception.", "quantifier": "every pair of voxel maps and pose", "why_tests_cant": "quantifies over all clouds, poses and parameters", "anchors": ["mp2p_icp/src/QualityEvaluator_Voxels.cpp"]}
{"id": "C191", "title": "A voxel map matches itself", "statement": "A voxel map with some well-observed voxel, compared with itself at the identity pose, has a quality of at least 1/(1+exp(-1.5 scale)).", "quantifier": "every voxel map and non-negative scale", "why_tests_cant": "quantifies over all clouds, poses and parameters", "anchors": ["mp2p_icp/src/QualityEvaluator_Voxels.cpp"]}
{"id": "C192", "title": "Agreement and contradiction of voxels", "statement": "With maps of the same resolution and a positive scale: if all the compared pairs of voxels agree (both clearly free or both clearly occupied) the quality is above 1/2; if all contradict each other it is below 1/2.", "quantifier": "every pair of voxel maps and pose", "why_tests_cant": "quantifies over all clouds, poses and parameters", "anchors": ["mp2p_icp/src/QualityEvaluator_Voxels.cpp"]}
{"id": "C193", "title": "Voxel quality is symmetric", "statement": "Swapping the two voxel maps and inverting the pose gives the same quality.", "quantifier": "every pair of voxel maps and rigid pose", "why_tests_cant": "quantifies over all clouds, poses and parameters", "anchors": ["mp2p_icp/src/QualityEvaluator_Voxels.cpp"]}
{"id": "C194", "title": "Solvers, matchers and quality evaluators are as configured", "statement": "When a sequence given to initialize_solvers/matchers/quality is accepted, the list becomes exactly one object per enabled entry, in order, of the named class and initialised with its \"params\"; a quality evaluator has the weight given, or 1.", "quantifier": "every YAML sequence, class registry, previous list", "why_tests_cant": "quantifies over all YAML documents, registries of classes and previous states", "anchors": ["mp2p_icp/src/ICP.cpp initialize_solvers", "mp2p_icp/src/ICP.cpp initialize_matchers", "mp2p_icp/src/ICP.cpp initialize_quality_evaluators"]}
{"id": "C195", "title": "A rejected configuration leaves the previous objects in place", "statement": "If initialize_matchers/quality throws, the list the object had before is unchanged.", "quantifier": "every YAML sequence and previous list", "why_tests_cant": "quantifies over all YAML documents, registries of classes and previous states", "anchors": ["mp2p_icp/src/ICP.cpp initialize_matchers"]}
{"id": "C196", "title": "Disabled entries have no effect", "statement": "An entry with \"enabled: false\" can be removed from the sequence without any difference, whatever else it contains.", "quantifier": "every sequence and position", "why_tests_cant": "quantifies over all YAML documents, registries of classes and previous states", "anchors": ["mp2p_icp/src/ICP.cpp initialize_matchers"]}
{"id": "C197", "title": "icp_pipeline_from_yaml builds the pipeline described", "statement": "An accepted document yields an ICP object of the named class with the solvers and matchers sections applied when present, the mandatory quality section applied, and the parameters read from \"params\" (or those of the file in \"derived\").", "quantifier": "every YAML document and class registry", "why_tests_cant": "quantifies over all YAML documents, registries of classes and previous states", "anchors": ["mp2p_icp/src/icp_pipeline_from_yaml.cpp icp_pipeline_from_yaml"]}
{"id": "C198", "title": "The \"params\" section is honoured", "statement": "The returned Parameters are those read from the \"params\" section of an accepted document that has one.", "quantifier": "every YAML document", "why_tests_cant": "quantifies over all YAML documents, registries of classes and previous states", "anchors": ["mp2p_icp/src/icp_pipeline_from_yaml.cpp icp_pipeline_from_yaml"]}
{"id": "C199", "title": "Parameters::load_from sets what is given and nothing else", "statement": "After an accepted load, each field has the value given or, when absent, the value it had; maxIterations is required; the quality checkpoints are, in increasing order of iteration, the first one listed for each iteration.", "quantifier": "every YAML document and previous parameters", "why_tests_cant": "quantifies over all YAML documents, registries of classes and previous states", "anchors": ["mp2p_icp/src/Parameters.cpp Parameters::load_from"]}
{"id": "C200", "title": "Saved parameters load back", "statement": "Loading what save_to wrote gives the saved parameters, the debug flag or-ed with the environment variable; the checkpoints are those the reader had.", "quantifier": "every pair of parameters", "why_tests_cant": "quantifies over all YAML documents, registries of classes and previous states", "anchors": ["mp2p_icp/src/Parameters.cpp Parameters::save_to", "mp2p_icp/src/Parameters.cpp Parameters::load_from"]}
{"id": "C201", "title": "Quality checkpoints survive saving", "statement": "Loading what save_to wrote restores the quality checkpoints.", "quantifier": "every pair of parameters", "why_tests_cant": "quantifies over all YAML documents, registries of classes and previous states", "anchors": ["mp2p_icp/src/Parameters.cpp Parameters::save_to"]}
{"id": "C202", "title": "Filter and generator pipelines are as configured", "statement": "An accepted filter/generator sequence (or the named section of a file) gives one object per entry, in order, of the named class and initialised with its \"params\".", "quantifier": "every YAML sequence and class registry", "why_tests_cant": "quantifies over all YAML documents, registries of classes and previous states", "anchors": ["mp2p_icp_filters/src/FilterBase.cpp filter_pipeline_from_yaml", "mp2p_icp_filters/src/FilterBase.cpp filter_pipeline_from_yaml_file", "mp2p_icp_filters/src/Generator.cpp generators_from_yaml"]}
{"id": "C203", "title": "Accepted pipelines can be evaluated", "statement": "The quality section accepted by icp_pipeline_from_yaml gives evaluators whose weighted mean exists (non-empty, positive total weight).", "quantifier": "every YAML quality section", "why_tests_cant": "quantifies over all YAML documents, registries of classes and previous states", "anchors": ["mp2p_icp/src/ICP.cpp initialize_quality_evaluators", "mp2p_icp/src/ICP.cpp evaluate_quality"]}
{"id": "C204", "title": "Plugin resolution", "statement": "load_plugin loads an absolute path that exists, or else the file in the first existing LD_LIBRARY_PATH directory containing it; it fails with an error otherwise and loads nothing.", "quantifier": "every file system, environment and plugin name", "why_tests_cant": "quantifies over all YAML documents, registries of classes and previous states", "anchors": ["mp2p_icp_map/src/load_plugin.cpp load_plugin"]}
{"id": "C205", "title": "The \"plugin\" field of generator entries is loaded", "statement": "A generator entry naming a plugin that provides its class is accepted.", "quantifier": "every entry, file system and registry", "why_tests_cant": "quantifies over all YAML documents, registries of classes and previous states", "anchors": ["mp2p_icp_filters/src/Generator.cpp generators_from_yaml"]}
{"id": "C206", "title": "A velocity buffer written as YAML is read back", "statement": "toYAML then fromYAML restores the parameters, the reference time and each entry as printed, when no two stamps print alike; sections absent from a document keep their old content; only maps are accepted.", "quantifier": "every buffer and document", "why_tests_cant": "quantifies over all buffers and documents", "anchors": ["mp2p_icp_map/src/LocalVelocityBuffer.cpp toYAML", "mp2p_icp_map/src/LocalVelocityBuffer.cpp fromYAML"]}
{"id": "C207", "title": "No buffer entry is lost in the YAML", "statement": "Reading back a written buffer gives as many entries as were written.", "quantifier": "every buffer", "why_tests_cant": "quantifies over all buffers", "anchors": ["mp2p_icp_map/src/LocalVelocityBuffer.cpp toYAML"]}
{"id": "C208", "title": "A rejected buffer document changes nothing", "statement": "If fromYAML throws, the buffer is unchanged.", "quantifier": "every document and buffer", "why_tests_cant": "quantifies over all documents and buffers", "anchors": ["mp2p_icp_map/src/LocalVelocityBuffer.cpp fromYAML"]}
{"id": "C209", "title": "Horn: outliers found by the scale test are left out", "statement": "With the scale outlier detector on, once some pairs fail the scale test the returned rotation is the optimal one for the remaining pairs taken relative to their own centroids, and the translation maps the local centroid of the remaining pairs to their global centroid; every pair that failed is reported. If no pair remains an exception is thrown.", "quantifier": "every set of pairings, weights and kernel for which some pair fails the scale test", "why_tests_cant": "ranges over all pairings, weights and outlier patterns", "anchors": ["mp2p_icp/src/optimal_tf_horn.cpp:optimal_tf_horn", "mp2p_icp/src/Pairings.cpp:eval_centroids_robust", "mp2p_icp/src/visit_correspondences.h:visit_correspondences"]}
{"id": "C210", "title": "Horn: reported outliers do not influence the pose", "statement": "Pairs reported as outliers by the solver have no influence on the returned pose: changing only the coordinates of reported outliers leaves the pose unchanged.", "quantifier": "every pair of runs that differ only in reported outliers", "why_tests_cant": "a statement about pairs of runs over all inputs", "anchors": ["mp2p_icp/src/optimal_tf_horn.cpp:optimal_tf_horn", "mp2p_icp/src/Pairings.cpp:eval_centroids_robust", "mp2p_icp/src/visit_correspondences.h:visit_correspondences"]}
{"id": "C211", "title": "sm-cli cut keeps the range", "statement": "`sm-cli cut --from i --to j` writes exactly the keyframes i..j of the input, both ends included, in order and unchanged (none if i > j); if an index is not that of a keyframe nothing is written and the exit code is 1.", "quantifier": "every map, pair of indices and file names", "why_tests_cant": "ranges over every map (any number of keyframes, any content) and command line", "anchors": ["apps/sm-cli/sm-cli-cut.cpp:commandCut", "apps/sm-cli/sm-cli-main.cpp:main"]}
{"id": "C212", "title": "sm-cli: cut in two and join gives the map back", "statement": "Cutting a map after any keyframe but the last and joining both parts in order writes the original map.", "quantifier": "every map and cut point", "why_tests_cant": "ranges over every map (any number of keyframes, any content) and command line", "anchors": ["apps/sm-cli/sm-cli-join.cpp:commandJoin", "apps/sm-cli/sm-cli-main.cpp:main"]}
{"id": "C213", "title": "sm-cli trim keeps the box", "statement": "`sm-cli trim` writes exactly the keyframes whose mean position lies in the closed box, in order and unchanged; a keyframe without a pose makes it fail without writing.", "quantifier": "every map and box", "why_tests_cant": "ranges over every map (any number of keyframes, any content) and command line", "anchors": ["apps/sm-cli/sm-cli-trim.cpp:commandTrim", "apps/sm-cli/sm-cli-main.cpp:main"]}
{"id": "C214", "title": "sm-cli tf moves the whole map", "statement": "`sm-cli tf in out T` moves every keyframe by T (left product) and leaves observations and twists as they are; running it with T1 and then T2 acts as the product T2 T1; relative poses between keyframes do not change; an empty map fails without output.", "quantifier": "every map, pose and pair of poses", "why_tests_cant": "ranges over every map (any number of keyframes, any content) and command line", "anchors": ["apps/sm-cli/sm-cli-tf.cpp:commandTf", "apps/sm-cli/sm-cli-main.cpp:main"]}
{"id": "C215", "title": "sm-cli join concatenates", "statement": "`sm-cli join f1 f2 ...` writes the keyframes of all the maps one after the other in command line order; if one file cannot be loaded nothing is written and the exit code is 1.", "quantifier": "every list of files", "why_tests_cant": "ranges over every map (any number of keyframes, any content) and command line", "anchors": ["apps/sm-cli/sm-cli-join.cpp:commandJoin", "apps/sm-cli/sm-cli-main.cpp:main"]}
{"id": "C216", "title": "sm-cli level only rotates about the origin", "statement": "`sm-cli level` moves all the keyframes by one common rotation about the map origin, so relative poses, distances to the origin, observations and twists are kept, and the heights are not more uneven around the height of the first keyframe than before.", "quantifier": "every non-empty map and every optimiser that does not return a worse estimate than the initial one", "why_tests_cant": "ranges over every map (any number of keyframes, any content) and command line", "anchors": ["apps/sm-cli/sm-cli-level.cpp:commandLevel", "apps/sm-cli/sm-cli-main.cpp:main"]}
{"id": "C217", "title": "sm-cli: exit code 0 means that the output was written", "statement": "If sm-cli exits with code 0 after a command with an output file, that file was written.", "quantifier": "every command line and every set of writable files", "why_tests_cant": "a statement about all failures of the file system", "anchors": ["apps/sm-cli/sm-cli-cut.cpp:commandCut", "apps/sm-cli/sm-cli-main.cpp:main"]}
{"id": "C218", "title": "sm-cli info reports the map", "statement": "`sm-cli info` reports the number of keyframes, whether any has a twist, the exact bounding box of their positions, the earliest and the latest time stamp of the observations and, per sensor label in alphabetical order, the number of its observations and the class of the last one.", "quantifier": "every map", "why_tests_cant": "ranges over every map (any number of keyframes, any content) and command line", "anchors": ["apps/sm-cli/sm-cli-info.cpp:commandInfo", "apps/sm-cli/sm-cli-main.cpp:main"]}
{"id": "C219", "title": "sm-cli info: first time stamp", "statement": "The first time stamp reported by `sm-cli info` is the earliest valid time stamp of the observations.", "quantifier": "every map", "why_tests_cant": "ranges over every map (any number of keyframes, any content) and command line", "anchors": ["apps/sm-cli/sm-cli-info.cpp:commandInfo", "apps/sm-cli/sm-cli-main.cpp:main"]}
{"id": "C220", "title": "sm-cli export-keyframes", "statement": "`sm-cli export-keyframes` writes rows in strictly increasing time order, with a row (t, p) exactly if some keyframe has t as its first valid observation time, p being the mean pose of the last such keyframe; the twist file has the twists of the keyframes that have a time stamp and a twist, in map order.", "quantifier": "every map", "why_tests_cant": "ranges over every map (any number of keyframes, any content) and command line", "anchors": ["apps/sm-cli/sm-cli-export-kfs.cpp:commandExportKF", "apps/sm-cli/sm-cli-main.cpp:main"]}
{"id": "C221", "title": "sm-cli export-keyframes: one row per keyframe", "statement": "Every keyframe with a time stamp has a row with its pose in the exported file.", "quantifier": "every map", "why_tests_cant": "ranges over every map (any number of keyframes, any content) and command line", "anchors": ["apps/sm-cli/sm-cli-export-kfs.cpp:commandExportKF", "apps/sm-cli/sm-cli-main.cpp:main"]}
{"id": "C222", "title": "sm-cli export-keyframes: one twist row per frame", "statement": "The twist file contains one row per frame (as the help of --output-twist says).", "quantifier": "every map", "why_tests_cant": "ranges over every map (any number of keyframes, any content) and command line", "anchors": ["apps/sm-cli/sm-cli-export-kfs.cpp:commandExportKF", "apps/sm-cli/sm-cli-main.cpp:main"]}
{"id": "C223", "title": "sm-cli export-rawlog", "statement": "`sm-cli export-rawlog` writes one entry per keyframe, in order: its observations, then its pose, then its twist if it has one, the last two stamped with the first valid time of the keyframe.", "quantifier": "every map without null pointers", "why_tests_cant": "ranges over every map (any number of keyframes, any content) and command line", "anchors": ["apps/sm-cli/sm-cli-export-rawlog.cpp:commandExportRawlog", "apps/sm-cli/sm-cli-main.cpp:main"]}
{"id": "C224", "title": "sm-cli level makes a levelable path horizontal", "statement": "If some rotation about the origin makes the path of the map horizontal, the path written by `sm-cli level` is horizontal.", "quantifier": "every map and every optimiser that does not return a worse estimate than the initial one", "why_tests_cant": "ranges over every map (any number of keyframes, any content) and command line", "anchors": ["apps/sm-cli/sm-cli-level.cpp:commandLevel", "apps/sm-cli/sm-cli-main.cpp:main"]}
{"id": "C225", "title": "sm-cli export-rawlog copes with null observations", "statement": "`sm-cli export-rawlog` does not dereference null pointers, whatever the map.", "quantifier": "every map", "why_tests_cant": "ranges over every map (any number of keyframes, any content) and command line", "anchors": ["apps/sm-cli/sm-cli-export-rawlog.cpp:commandExportRawlog", "apps/sm-cli/sm-cli-main.cpp:main"]}
{"id": "C226", "title": "mm-georef injection sets only the georeferencing", "statement": "Injecting georeferencing data into a map file sets the georeferencing of the map to that of the file, in binary or YAML form, and keeps the rest of the map and all other files.", "quantifier": "every map, georeferencing file and file system", "why_tests_cant": "ranges over every map, file system state and command line", "anchors": ["apps/mm-georef/main.cpp:run_mm_inject", "apps/mm-georef/main.cpp:run_mm_extract", "mp2p_icp_map/src/metricmap.cpp:metric_map_t::load_from_file"]}
{"id": "C227", "title": "mm-georef: extract, then inject", "statement": "Extracting the georeferencing of a map to a .georef file and injecting it into another map gives the second map exactly the georeferencing of the first one.", "quantifier": "every pair of maps", "why_tests_cant": "ranges over every map, file system state and command line", "anchors": ["apps/mm-georef/main.cpp:run_mm_inject", "apps/mm-georef/main.cpp:run_mm_extract", "mp2p_icp_map/src/metricmap.cpp:metric_map_t::load_from_file"]}
{"id": "C228", "title": "mm-georef never replaces a map that it could not read", "statement": "Injecting into a map file that cannot be read fails and leaves the file as it was.", "quantifier": "every file system", "why_tests_cant": "ranges over every map, file system state and command line", "anchors": ["apps/mm-georef/main.cpp:run_mm_inject", "apps/mm-georef/main.cpp:run_mm_extract", "mp2p_icp_map/src/metricmap.cpp:metric_map_t::load_from_file"]}
{"id": "C229", "title": "mm-georef: exit code 0 means that the map was written", "statement": "If the injection ends with exit code 0, the map file holds the new georeferencing.", "quantifier": "every file system", "why_tests_cant": "ranges over every map, file system state and command line", "anchors": ["apps/mm-georef/main.cpp:run_mm_inject", "apps/mm-georef/main.cpp:run_mm_extract", "mp2p_icp_map/src/metricmap.cpp:metric_map_t::load_from_file"]}
{"id": "C230", "title": "mm-georef: an interrupted injection keeps the map", "statement": "If the injection is interrupted at any point, the map file holds the old or the new map.", "quantifier": "every crash point", "why_tests_cant": "ranges over every file system state and every point at which the program may be interrupted", "anchors": ["apps/mm-georef/main.cpp:run_mm_inject", "apps/mm-georef/main.cpp:run_mm_extract", "mp2p_icp_map/src/metricmap.cpp:metric_map_t::load_from_file"]}
{"id": "C231", "title": "mm-filter renames a layer", "statement": "`mm-filter --rename-layer \"a|b\"` writes the map with layer a under the name b and everything else unchanged; it fails without writing if a does not exist or b exists.", "quantifier": "every map and pair of names", "why_tests_cant": "ranges over every map, file system state and command line", "anchors": ["apps/mm-filter/main.cpp:run_mm_filter", "mp2p_icp_map/src/metricmap.cpp:metric_map_t::save_to_file"]}
{"id": "C232", "title": "mm-filter: --rename-layer with --pipeline", "statement": "Given both --pipeline and --rename-layer, both take effect.", "quantifier": "every map and command line", "why_tests_cant": "ranges over every map, file system state and command line", "anchors": ["apps/mm-filter/main.cpp:run_mm_filter", "mp2p_icp_map/src/metricmap.cpp:metric_map_t::save_to_file"]}
{"id": "C233", "title": "mm-filter: exit code and files", "statement": "mm-filter exits with 0 exactly if it wrote the output map; otherwise nothing is written; no other file changes, whenever it is interrupted; an input that holds no map, or cannot be read, makes it fail.", "quantifier": "every command line, file system and crash point", "why_tests_cant": "ranges over every file system state and every point at which the program may be interrupted", "anchors": ["apps/mm-filter/main.cpp:run_mm_filter", "mp2p_icp_map/src/metricmap.cpp:metric_map_t::save_to_file"]}
{"id": "C234", "title": "mm-filter: an interrupted run keeps the input map", "statement": "If mm-filter is interrupted at any point, the input map is still there.", "quantifier": "every crash point, also with the output file being the input file", "why_tests_cant": "ranges over every file system state and every point at which the program may be interrupted", "anchors": ["apps/mm-filter/main.cpp:run_mm_filter", "mp2p_icp_map/src/metricmap.cpp:metric_map_t::save_to_file"]}
{"id": "C235", "title": "mm2txt exports the layers", "statement": "mm2txt writes, for each selected layer (all, by default), a text file with one row per point, in order, with coordinates and, if the cloud has them, intensity, ring and time; other files do not change.", "quantifier": "every map and selection of layers", "why_tests_cant": "ranges over every map, file system state and command line", "anchors": ["apps/mm2txt/main.cpp:run_mm2txt"]}
{"id": "C236", "title": "mm2txt fails on a map that cannot be read", "statement": "mm2txt does not exit with 0 if the map cannot be read.", "quantifier": "every file system", "why_tests_cant": "ranges over every map, file system state and command line", "anchors": ["apps/mm2txt/main.cpp:run_mm2txt"]}
{"id": "C237", "title": "mm2txt: exit code 0 means that the text was written", "statement": "If mm2txt exits with 0, every selected layer was exported.", "quantifier": "every file system", "why_tests_cant": "ranges over every map, file system state and command line", "anchors": ["apps/mm2txt/main.cpp:run_mm2txt"]}
{"id": "C238", "title": "txt2mm imports one point per row", "statement": "txt2mm writes a map with one point per row of the text file, in order, with the coordinates and the intensity or colour taken from the chosen columns, and the chosen id and label.", "quantifier": "every table and choice of columns within it", "why_tests_cant": "ranges over every map, file system state and command line", "anchors": ["apps/txt2mm/main.cpp:main"]}
{"id": "C239", "title": "txt2mm --format xyzirt keeps ring and time", "statement": "With --format xyzirt the output cloud has the ring and the time stamp of each row.", "quantifier": "every table", "why_tests_cant": "ranges over every map, file system state and command line", "anchors": ["apps/txt2mm/main.cpp:main"]}
{"id": "C240", "title": "txt2mm and kitti2mm honour --layer", "statement": "The output map has the cloud in the layer given by --layer.", "quantifier": "every input and layer name", "why_tests_cant": "ranges over every map, file system state and command line", "anchors": ["apps/txt2mm/main.cpp:main", "apps/kitti2mm/main.cpp:main"]}
{"id": "C241", "title": "txt2mm rejects columns that do not exist", "statement": "A column option beyond the row is rejected.", "quantifier": "every table and choice of columns", "why_tests_cant": "ranges over every map, file system state and command line", "anchors": ["apps/txt2mm/main.cpp:main"]}
{"id": "C242", "title": "icp-run chooses the kind of input by the extension", "statement": "An input file is read as a metric map if its extension is .mm, as an ICP log if it is .icplog, and as text otherwise.", "quantifier": "every file name", "why_tests_cant": "ranges over every file name", "anchors": ["apps/icp-run/main.cpp:load_input_pc"]}
{"id": "C243", "title": "icp-run: an entry of a rawlog", "statement": "The input `F.rawlog:N` is the map made by the generators from entry N of F.rawlog; without such an entry, or if it is neither a frame nor an observation, it fails.", "quantifier": "every file, index and generator", "why_tests_cant": "ranges over every rawlog and index", "anchors": ["apps/icp-run/main.cpp:pc_from_rawlog", "apps/icp-run/main.cpp:load_input_pc"]}
{"id": "C244", "title": "icp-run rejects wrong rawlog indices", "statement": "An index that is not a non-negative integer is rejected.", "quantifier": "every index text", "why_tests_cant": "ranges over every index", "anchors": ["apps/icp-run/main.cpp:load_input_pc"]}
{"id": "C245", "title": "load_xyz_file accepts any file with points", "statement": "load_xyz_file returns all the points of the file, in order, if there are any, and otherwise throws.", "quantifier": "every file", "why_tests_cant": "ranges over every file", "anchors": ["mp2p_icp_map/src/load_xyz_file.cpp:load_xyz_file"]}
{"id": "C246", "title": "rawlog-filter: one frame per observation", "statement": "rawlog-filter writes, for each entry with an index in the closed range [--from-index, --to-index] that some generator handles, one frame with the observation and then one cloud per point cloud layer of the filtered map, named out_<layer> and with the time of the observation.", "quantifier": "every rawlog, range, list of generators and filters", "why_tests_cant": "ranges over every rawlog and pipeline", "anchors": ["apps/rawlog-filter/main.cpp:run_mm_filter"]}
{"id": "C247", "title": "rawlog-filter: every layer is in the output", "statement": "Every layer of the filtered map is in the output frame.", "quantifier": "every map", "why_tests_cant": "ranges over every map", "anchors": ["apps/rawlog-filter/main.cpp:run_mm_filter"]}
{"id": "C248", "title": "rawlog-filter: a failure keeps the frames before it", "statement": "If an entry is not an observation, or a generator or filter throws on it, the program exits with 1 and the output holds exactly the frames of the entries before it.", "quantifier": "every rawlog and position of the failure", "why_tests_cant": "ranges over every rawlog and failure point", "anchors": ["apps/rawlog-filter/main.cpp:run_mm_filter"]}
{"id": "C249", "title": "The overall quality is a number between 0 and 1, rounding included", "statement": "In double arithmetic, if every evaluator returns a number in [0,1], every weight is a positive number and the sum of the weights does not overflow, ICP::evaluate_quality() returns a number in [0,1]; if all evaluators say 1 it is exactly 1, if all say 0 it is exactly 0.", "quantifier": "every list of evaluators, all double weights and qualities", "why_tests_cant": "rounding makes the result differ from the exact one for inputs scattered among 2^32 or 2^64 values per number; tests sample a few.", "anchors": ["mp2p_icp/src/ICP.cpp:ICP::evaluate_quality"]}
{"id": "C250", "title": "The ratio of paired points is a number between 0 and 1, rounding included", "statement": "For any counts pairings <= potential < 2^64, the ratio computed in doubles is a number in [0,1], 0 without pairings, never smaller with more pairings, and below 2^53 points it is 1 only if all were paired; the evaluation is discarded exactly if it is below the minimum.", "quantifier": "all counts below 2^64 and minimum ratios", "why_tests_cant": "rounding makes the result differ from the exact one for inputs scattered among 2^32 or 2^64 values per number; tests sample a few.", "anchors": ["mp2p_icp/src/QualityEvaluator_PairedRatio.cpp:QualityEvaluator_PairedRatio::evaluate"]}
{"id": "C251", "title": "Normalised intensities are numbers between 0 and 1", "statement": "FilterNormalizeIntensity turns every cloud of finite float intensities into numbers in [0,1], never NaN.", "quantifier": "all clouds, all finite float intensities, with or without a fixed range", "why_tests_cant": "rounding makes the result differ from the exact one for inputs scattered among 2^32 or 2^64 values per number; tests sample a few.", "anchors": ["mp2p_icp_filters/src/FilterNormalizeIntensity.cpp:FilterNormalizeIntensity::filter"]}
{"id": "C252", "title": "Normalising intensities keeps the order", "statement": "In floats, brighter points stay at least as bright, the darkest ones get exactly 0, and no point is lost.", "quantifier": "all clouds whose width neither overflows nor is a tiny subnormal", "why_tests_cant": "rounding makes the result differ from the exact one for inputs scattered among 2^32 or 2^64 values per number; tests sample a few.", "anchors": ["mp2p_icp_filters/src/FilterNormalizeIntensity.cpp:FilterNormalizeIntensity::filter"]}
{"id": "C253", "title": "The brightest point gets intensity 1", "statement": "After FilterNormalizeIntensity the brightest points of a cloud with two or more different intensities have intensity exactly 1.", "quantifier": "all clouds of finite float intensities", "why_tests_cant": "rounding makes the result differ from the exact one for inputs scattered among 2^32 or 2^64 values per number; tests sample a few.", "anchors": ["mp2p_icp_filters/src/FilterNormalizeIntensity.cpp:FilterNormalizeIntensity::filter"]}
{"id": "C254", "title": "EarliestIsZero: the earliest stamp becomes 0, the others follow in order", "statement": "In floats and without offset: the earliest stamp becomes exactly 0, all others are non-negative numbers in the same order, each within a relative error of 2^-24 of its distance to the earliest; the reported shift is exactly the earliest stamp.", "quantifier": "all clouds of finite float stamps whose span does not overflow", "why_tests_cant": "rounding makes the result differ from the exact one for inputs scattered among 2^32 or 2^64 values per number; tests sample a few.", "anchors": ["mp2p_icp_filters/src/FilterAdjustTimestamps.cpp:FilterAdjustTimestamps::filter"]}
{"id": "C255", "title": "Adjusting the stamps keeps the time between points", "statement": "After EarliestIsZero each stamp is exactly its time since the earliest point.", "quantifier": "all clouds of finite float stamps", "why_tests_cant": "rounding makes the result differ from the exact one for inputs scattered among 2^32 or 2^64 values per number; tests sample a few.", "anchors": ["mp2p_icp_filters/src/FilterAdjustTimestamps.cpp:FilterAdjustTimestamps::filter"]}
{"id": "C256", "title": "MiddleIsZero: zero lies between the first and the last stamp", "statement": "In floats and without offset: the shift lies between the earliest and the latest stamp, the earliest becomes non-positive, the latest non-negative, and the order is kept.", "quantifier": "all clouds of finite float stamps whose sum and span do not overflow", "why_tests_cant": "rounding makes the result differ from the exact one for inputs scattered among 2^32 or 2^64 values per number; tests sample a few.", "anchors": ["mp2p_icp_filters/src/FilterAdjustTimestamps.cpp:FilterAdjustTimestamps::filter"]}
{"id": "C257", "title": "Normalize: stamps between 0 and 1", "statement": "In floats and without offset: all stamps become numbers in [0,1], rounding included (there is no clamping in the code), the earliest exactly 0, the latest at least 1 - 2^-24, and the order is kept.", "quantifier": "all clouds with equal stamps or a span between 2^-128 and 2^126", "why_tests_cant": "rounding makes the result differ from the exact one for inputs scattered among 2^32 or 2^64 values per number; tests sample a few.", "anchors": ["mp2p_icp_filters/src/FilterAdjustTimestamps.cpp:FilterAdjustTimestamps::filter"]}
{"id": "C258", "title": "EarliestIsZero twice is the same as once", "statement": "Applying the filter to its own output changes no stamp and shifts the reference by 0.", "quantifier": "all clouds of finite float stamps whose span does not overflow", "why_tests_cant": "rounding makes the result differ from the exact one for inputs scattered among 2^32 or 2^64 values per number; tests sample a few.", "anchors": ["mp2p_icp_filters/src/FilterAdjustTimestamps.cpp:FilterAdjustTimestamps::filter"]}
{"id": "C259", "title": "The voxel index of a coordinate", "statement": "In floats, the conversion to a voxel index is defined exactly if the rounded quotient fits an int32_t; larger coordinates never get smaller indices and opposite ones get opposite indices.", "quantifier": "all finite coordinates and positive resolutions", "why_tests_cant": "rounding makes the result differ from the exact one for inputs scattered among 2^32 or 2^64 values per number; tests sample a few.", "anchors": ["mp2p_icp_filters/include/mp2p_icp_filters/PointCloudToVoxelGrid.h:coord2idx"]}
{"id": "C260", "title": "A coordinate in [k r, (k+1) r) has index k", "statement": "The voxel index of a non-negative coordinate is the number of whole resolutions below it.", "quantifier": "all finite float coordinates and resolutions, indices below 2^24", "why_tests_cant": "rounding makes the result differ from the exact one for inputs scattered among 2^32 or 2^64 values per number; tests sample a few.", "anchors": ["mp2p_icp_filters/include/mp2p_icp_filters/PointCloudToVoxelGrid.h:coord2idx"]}
{"id": "C261", "title": "Points of one voxel are close", "statement": "Two coordinates with the same index k differ by less than twice the resolution (k = 0) or by at most the resolution plus the rounding error (other k).", "quantifier": "all finite float coordinates and resolutions", "why_tests_cant": "rounding makes the result differ from the exact one for inputs scattered among 2^32 or 2^64 values per number; tests sample a few.", "anchors": ["mp2p_icp_filters/include/mp2p_icp_filters/PointCloudToVoxelGrid.h:coord2idx"]}
{"id": "C262", "title": "The mean of equal points is that point", "statement": "VoxelAverage leaves points with the same coordinate at that coordinate; in general the computed mean is the exact mean up to the rounding of the operations.", "quantifier": "all voxels of up to 2^24 points whose sum does not overflow", "why_tests_cant": "rounding makes the result differ from the exact one for inputs scattered among 2^32 or 2^64 values per number; tests sample a few.", "anchors": ["mp2p_icp_filters/src/FilterDecimateVoxels.cpp:FilterDecimateVoxels::filter"]}
{"id": "C263", "title": "Matcher_Points_InlierRatio never keeps more pairings than there are", "statement": "For a ratio in [0,1] the rounded count lies between 0 and the number of candidates, so that advancing the iterator stays inside the container; it is all of them for 1, none for 0 and never smaller for a larger ratio.", "quantifier": "all double ratios in [0,1], fewer than 2^53 candidates", "why_tests_cant": "rounding makes the result differ from the exact one for inputs scattered among 2^32 or 2^64 values per number; tests sample a few.", "anchors": ["mp2p_icp/src/Matcher_Points_InlierRatio.cpp:Matcher_Points_InlierRatio::implMatchOneLayer"]}
{"id": "C264", "title": "Robust kernel weights are numbers between 0 and 1", "statement": "For every positive parameter and every finite squared error the Cauchy and Geman-McClure weights computed in doubles are numbers in [0,1].", "quantifier": "all double parameters and squared errors", "why_tests_cant": "rounding makes the result differ from the exact one for inputs scattered among 2^32 or 2^64 values per number; tests sample a few.", "anchors": ["mp2p_icp/include/mp2p_icp/robust_kernels.h:create_robust_kernel"]}
{"id": "C265", "title": "Robust kernels: full weight without error, never more weight for a larger error", "statement": "In doubles, if the square of the parameter is neither 0 nor infinite: the weight for no error is exactly 1 and it never grows with the error.", "quantifier": "all double parameters and squared errors", "why_tests_cant": "rounding makes the result differ from the exact one for inputs scattered among 2^32 or 2^64 values per number; tests sample a few.", "anchors": ["mp2p_icp/include/mp2p_icp/robust_kernels.h:create_robust_kernel"]}
{"id": "C266", "title": "FilterByRange classifies by distance", "statement": "In floats, points whose distance lies inside (outside) the range by more than the rounding error go to the inner (outer) layer.", "quantifier": "all finite float points, centres and ranges", "why_tests_cant": "rounding makes the result differ from the exact one for inputs scattered among 2^32 or 2^64 values per number; tests sample a few.", "anchors": ["mp2p_icp_filters/src/FilterByRange.cpp:FilterByRange::filter"]}
{"id": "C267", "title": "A prior enters the normal equations of every Gauss-Newton iteration", "statement": "With a prior (mean and information matrix), the normal equations of every inner iteration of optimal_tf_gauss_newton (TBB build, no individual weights) are those of the pairs at the pose of that iteration plus those of the residual log(inv(mean) T) with the given information matrix as weight, and there are at most maxInnerLoopIterations of them.", "quantifier": "every pairing set, prior, parameter set, logarithm, Jacobian and thread schedule", "why_tests_cant": "histories of inner iterations, all poses and schedules", "anchors": ["mp2p_icp/src/optimal_tf_gauss_newton.cpp:optimal_tf_gauss_newton", "mp2p_icp/src/Solver_GaussNewton.cpp:impl_optimal_pose"]}
{"id": "C268", "title": "With a prior each Gauss-Newton step minimises the joint linearised error", "statement": "With a symmetric positive semidefinite information matrix, non-negative weights and a linear solver that solves its systems, every step of optimal_tf_gauss_newton minimises the linearised weighted squared error of the pairs plus the linearised Mahalanobis error of the prior; the iterations chain up from the linearisation point to the returned pose.", "quantifier": "every pairing set, prior, parameter set, schedule and number of inner iterations", "why_tests_cant": "histories of inner iterations, all poses and schedules", "anchors": ["mp2p_icp/src/optimal_tf_gauss_newton.cpp:optimal_tf_gauss_newton", "mp2p_icp/src/Solver_GaussNewton.cpp:impl_optimal_pose"]}
{"id": "C269", "title": "A prior always pulls the solution", "statement": "A prior whose mean differs from the starting pose moves the returned pose, whatever the pairs. (The code breaks this: the error tested against maxCost leaves the prior out, so where the pairs are satisfied exactly, or where there are none, the solver returns the starting pose at once.)", "quantifier": "every prior, pairing set and starting pose", "why_tests_cant": "histories of inner iterations, all poses and schedules", "anchors": ["mp2p_icp/src/optimal_tf_gauss_newton.cpp:optimal_tf_gauss_newton", "mp2p_icp/src/Solver_GaussNewton.cpp:impl_optimal_pose"]}
{"id": "C270", "title": "Gauss-Newton descends along the derivative of the error over rigid motions", "statement": "At every inner iteration (TBB build, no individual weights, no prior, no line-to-line pairs, plane normals not zero) the vector g of the normal equations is half the derivative, at the pose of that iteration, of the weighted squared error of the pairs along every curve of motions composed on the right of the pose, with translational velocity in its first three and angular velocity in its last three components; the robust weights are those of the pose.", "quantifier": "every pairing set, parameter set, kernel, schedule, inner iteration and curve of motions", "why_tests_cant": "histories of inner iterations, all poses and schedules", "anchors": ["mp2p_icp/src/optimal_tf_gauss_newton.cpp:optimal_tf_gauss_newton", "mp2p_icp/src/Solver_GaussNewton.cpp:impl_optimal_pose", "mp2p_icp/src/errorTerms.cpp"]}
{"id": "C271", "title": "Configuring a component again replaces its formulas", "statement": "After initialising a component again, a parameter has the value its latest configuration gives it. (The code breaks this: the declaration of an older formula with variables stays, and at the next realize() it overwrites a number configured later; with numbers only the latest configuration wins.)", "quantifier": "every history of declarations, attachments, variable updates, realizations and failed calls, in any visiting order", "why_tests_cant": "histories of declarations, attachments, updates and realizations", "anchors": ["mp2p_icp_map/src/Parameterizable.cpp:parseAndDeclareParameter", "mp2p_icp_map/src/Parameterizable.cpp:realize"]}
{"id": "C272", "title": "Optional formula parameters left out keep their value", "statement": "Initialising a component with a configuration that leaves out an optional formula parameter leaves the parameter as it is. (The code breaks this: the default is printed with six decimals and read back, so values move by up to 5e-7 and values below that become 0; integers and values with six decimals are kept.)", "quantifier": "every present value of the parameter and every kind of parameter", "why_tests_cant": "all values of the parameter", "anchors": ["mp2p_icp_map/include/mp2p_icp/Parameterizable.h:DECLARE_PARAMETER_IN_OPT"]}
{"id": "C273", "title": "Weight parameters are those of the configuration", "statement": "Loading weight parameters succeeds exactly if the required entries are there and readable; then every parameter, the five pair weights included, has the value of its entry, and an optional entry left out leaves its parameter as it was.", "quantifier": "every configuration and every previous state of the object", "why_tests_cant": "all configurations, of any size and with any entries", "anchors": ["mp2p_icp/src/WeightParameters.cpp:load_from", "mp2p_icp/src/PairWeights.cpp:load_from"]}
{"id": "C274", "title": "Saved weight parameters load back", "statement": "What save_to() writes, load_from() reads back into any object, with every parameter equal; the current pose estimate is left alone.", "quantifier": "every value of the parameters and every state of the receiving object", "why_tests_cant": "all configurations, of any size and with any entries", "anchors": ["mp2p_icp/src/WeightParameters.cpp:save_to", "mp2p_icp/src/WeightParameters.cpp:load_from", "mp2p_icp/src/PairWeights.cpp:save_to"]}
{"id": "C275", "title": "A load that throws changes nothing", "statement": "If loading weight parameters throws, the object keeps its parameters. (The code breaks this: entries read before the one that throws have been stored; what remains true is that every parameter has its old value or the one of its entry.)", "quantifier": "every configuration that is rejected and every previous state", "why_tests_cant": "all configurations, of any size and with any entries", "anchors": ["mp2p_icp/src/WeightParameters.cpp:load_from"]}
{"id": "C276", "title": "A matcher runs in its configured window of iterations", "statement": "After loading, a matcher does its work at the iterations from runFromIteration to runUpToIteration, both included, zero meaning no end, if it is enabled, and at any other iteration it answers no and changes nothing.", "quantifier": "every configuration, iteration, pose and state", "why_tests_cant": "all configurations, of any size and with any entries", "anchors": ["mp2p_icp/src/Matcher.cpp:initialize", "mp2p_icp/src/Matcher.cpp:match"]}
{"id": "C277", "title": "A solver is tried in its configured window of iterations", "statement": "After loading, a solver is tried at the iterations of its window if enabled; outside it answers no and changes nothing; inside, without a threshold on the last correction, its answer is the answer.", "quantifier": "every configuration, iteration, pairings and state", "why_tests_cant": "all configurations, of any size and with any entries", "anchors": ["mp2p_icp/src/Solver.cpp:initialize", "mp2p_icp/src/Solver.cpp:optimal_pose"]}
{"id": "C278", "title": "Point matchers: layers and limits are those of the configuration", "statement": "A point matcher is accepted exactly if its entries are readable; each pair of layers has the weight of its latest entry in pointLayerMatches, 1 if that entry has none, and no other pair has one; every other parameter is that of its entry, or unchanged; a non-positive kd-tree leaf size is ignored.", "quantifier": "every configuration, any number of layer entries, any previous state", "why_tests_cant": "all configurations, of any size and with any entries", "anchors": ["mp2p_icp/src/Matcher_Points_Base.cpp:initialize"]}
{"id": "C279", "title": "A matcher with an empty list of layers matches none", "statement": "The pairs of layers matched are those listed in pointLayerMatches. (The code breaks this with an empty list, which means all layers of equal names; with a non-empty list only listed pairs are matched.)", "quantifier": "every configuration and every pair of maps", "why_tests_cant": "all configurations, of any size and with any entries", "anchors": ["mp2p_icp/src/Matcher_Points_Base.cpp:initialize", "mp2p_icp/src/Matcher_Points_Base.cpp:impl_match"]}
{"id": "C280", "title": "Matcher_Adaptive accepts exactly its documented parameters", "statement": "Initialising succeeds exactly if the required entries are there, the confidence interval lies strictly between 0 and 1, at least three and at most the searched number of points make a plane, and the eigenvalue threshold is positive; then every parameter is that of its entry or unchanged.", "quantifier": "every configuration and previous state", "why_tests_cant": "all configurations, of any size and with any entries", "anchors": ["mp2p_icp/src/Matcher_Adaptive.cpp:initialize"]}
{"id": "C281", "title": "Matcher_Point2Line accepts exactly its documented parameters", "statement": "Initialising succeeds exactly if the four entries are there and at least two points make a line; then every parameter is that of its entry.", "quantifier": "every configuration and previous state", "why_tests_cant": "all configurations, of any size and with any entries", "anchors": ["mp2p_icp/src/Matcher_Point2Line.cpp:initialize"]}
{"id": "C282", "title": "The paired ratio evaluator is configured as documented", "statement": "The evaluator accepts the configuration its documentation shows, with and without reusing the pairings of ICP. (The code breaks this: without reuse it requires `threshold`, while the documentation names `thresholdDistance`; C282_paired_ratio_where says what each accepted configuration does.)", "quantifier": "every configuration and previous state", "why_tests_cant": "all configurations, of any size and with any entries", "anchors": ["mp2p_icp/src/QualityEvaluator_PairedRatio.cpp:initialize", "mp2p_icp/include/mp2p_icp/QualityEvaluator_PairedRatio.h:initialize"]}
{"id": "C283", "title": "An accepted inlier ratio can be matched with", "statement": "If Matcher_Points_InlierRatio accepts a configuration, matching does not fail because of it. (The code breaks this: any number is accepted, and outside the open interval from 0 to 1, 1 included, every matching of two layers throws.)", "quantifier": "every configuration, every pair of layers and pose", "why_tests_cant": "all configurations, of any size and with any entries", "anchors": ["mp2p_icp/src/Matcher_Points_InlierRatio.cpp:initialize", "mp2p_icp/src/Matcher_Points_InlierRatio.cpp:implMatchOneLayer"]}
{"id": "C284", "title": "Generators accept exactly the documented configurations", "statement": "Initialising a generator succeeds exactly if the entries that are there are readable, the regular expressions are valid, and the map definition is a map of: nothing, the scalars class and plugin, and sections of readable values in which every $f{ formula is closed.", "quantifier": "every configuration and every previous state of the generator", "why_tests_cant": "all configurations, of any size, and all histories of calls", "anchors": ["mp2p_icp_filters/src/Generator.cpp:load_from_yaml", "mp2p_icp_filters/src/Generator.cpp:initialize"]}
{"id": "C285", "title": "The map of a generator is made from its definition", "statement": "After one initialize(), with the formulas realized, the INI block from which the new map is created has exactly one count for the class, one section per section of the definition, and in it exactly the configured keys, each with its text or with the value of its formula for the latest values of the variables.", "quantifier": "every definition, every history of updates and realizations of the variables", "why_tests_cant": "all configurations, of any size, and all histories of calls", "anchors": ["mp2p_icp_filters/src/Generator.cpp:load_from_yaml", "mp2p_icp_filters/src/Generator.cpp:implProcessCustomMap", "mp2p_icp_map/src/Parameterizable.cpp:realize"]}
{"id": "C286", "title": "An accepted map definition can be used", "statement": "If initialize() accepts a map definition, process() does not fail because of it. (The code breaks this: a definition without class is accepted, and then every observation throws; with a scalar class, and a plugin that loads or none, the block is made.)", "quantifier": "every definition without and with a class", "why_tests_cant": "all configurations, of any size, and all histories of calls", "anchors": ["mp2p_icp_filters/src/Generator.cpp:load_from_yaml", "mp2p_icp_filters/src/Generator.cpp:implProcessCustomMap"]}
{"id": "C287", "title": "Initialising again replaces the map definition", "statement": "After a second initialize(), the map definition is the one of the second configuration. (The code breaks this: sections only in the first one stay; the entries named by the second one are as it says.)", "quantifier": "every pair of configurations", "why_tests_cant": "all configurations, of any size, and all histories of calls", "anchors": ["mp2p_icp_filters/src/Generator.cpp:load_from_yaml"]}
{"id": "C288", "title": "Formulas of a map definition point to live memory", "statement": "The next realize() after any number of calls of initialize() is defined. (The code breaks this: with a formula in a section, the second call destroys the number that the first formula is declared for, and realize() writes it; after one call every formula is declared for a number of the definition.)", "quantifier": "every section, key and formula, and every definition", "why_tests_cant": "all configurations, of any size, and all histories of calls", "anchors": ["mp2p_icp_filters/src/Generator.cpp:load_from_yaml", "mp2p_icp_map/src/Parameterizable.cpp:realize"]}
{"id": "C289", "title": "process() requires a successful initialize()", "statement": "process() throws until one initialize() has succeeded, whatever calls failed before, and not because of it afterwards.", "quantifier": "every history of calls of initialize(), failing or not", "why_tests_cant": "all configurations, of any size, and all histories of calls", "anchors": ["mp2p_icp_filters/src/Generator.cpp:initialize", "mp2p_icp_filters/src/Generator.cpp:process"]}
{"id": "C290", "title": "Decimation and deletion filters are configured exactly as written", "statement": "FilterDecimateVoxels and FilterDeleteLayer accept a configuration exactly if the required entries are there and readable and at least one layer is listed; then every parameter is the one of its entry (the layers in the order given), optional entries left out leave theirs, the grid that exists is the one the method needs, and deleting removes exactly the listed layers.", "quantifier": "every configuration, every previous state, every map", "why_tests_cant": "all configurations, of any size, and all previous states of the filter", "anchors": ["mp2p_icp_filters/src/FilterDecimateVoxels.cpp:initialize", "mp2p_icp_filters/src/FilterDeleteLayer.cpp:initialize"]}
{"id": "C291", "title": "A rejected configuration leaves the decimation filter usable", "statement": "If initialize() of a FilterDecimateVoxels that was ready throws, filter() still works as before. (The code breaks this: a rejected configuration that changes the method between FirstPoint and another leaves the filter without the grid it needs, and every later call of filter() fails; it stays usable exactly if the kind of method is unchanged.)", "quantifier": "every rejected configuration, every map", "why_tests_cant": "all configurations, of any size, and all previous states of the filter", "anchors": ["mp2p_icp_filters/src/FilterDecimateVoxels.cpp:initialize"]}
{"id": "C292", "title": "The ring filter selects the listed rings", "statement": "FilterByRing accepts a configuration exactly if the input layer and at least one ring are given; the set of rings has exactly those listed, and filtering sends the points of these rings, and no other, to the selected layer.", "quantifier": "every configuration and cloud", "why_tests_cant": "all configurations, of any size, and all previous states of the filter", "anchors": ["mp2p_icp_filters/src/FilterByRing.cpp:initialize"]}
{"id": "C293", "title": "The bounding box filter uses the configured box", "statement": "FilterBoundingBox accepts a configuration exactly if an output layer is named and both corners are three formulas; after evaluating them, points inside the box with these corners go to the one layer and the others to the other.", "quantifier": "every configuration, every values of the formulas, every cloud", "why_tests_cant": "all configurations, of any size, and all previous states of the filter", "anchors": ["mp2p_icp_filters/src/FilterBoundingBox.cpp:initialize"]}
{"id": "C294", "title": "The range filter uses the configured ranges and center", "statement": "FilterByRange accepts a configuration exactly if the input layer, both ranges and an output layer are given and the center, if there, is three formulas; after evaluating them, the points whose distance to the center is within the ranges go to the one layer and the others to the other.", "quantifier": "every configuration, every values of the formulas, every cloud", "why_tests_cant": "all configurations, of any size, and all previous states of the filter", "anchors": ["mp2p_icp_filters/src/FilterByRange.cpp:initialize"]}
{"id": "C295", "title": "Initialising a filter again replaces its configuration", "statement": "After initialising a filter again, it behaves as a new filter with the second configuration. (The code breaks this: optional entries left out keep what an earlier configuration set: no configuration switches off flattening, removes the constant twist, or the center; the states agree exactly if each optional entry is given or still has its default.)", "quantifier": "every pair of configurations, accepted or not", "why_tests_cant": "all configurations, of any size, and all previous states of the filter", "anchors": ["mp2p_icp_filters/src/FilterDecimateVoxels.cpp:initialize", "mp2p_icp_filters/src/FilterByRange.cpp:initialize", "mp2p_icp_filters/src/FilterDeskew.cpp:initialize"]}
{"id": "C296", "title": "Merge poses and twists are read in order", "statement": "FilterMerge and FilterDeskew accept a configuration exactly if both layers are given and the pose or twist, if there, is six formulas; after evaluating them, the pose is x, y, z, yaw, pitch, roll in that order and the twist vx, vy, vz, wx, wy, wz; without entry a new deskew filter has no twist.", "quantifier": "every configuration, every values of the formulas", "why_tests_cant": "all configurations, of any size, and all previous states of the filter", "anchors": ["mp2p_icp_filters/src/FilterMerge.cpp:initialize", "mp2p_icp_filters/src/FilterDeskew.cpp:initialize"]}
{"id": "C297", "title": "A rejected twist is not used", "statement": "If initialize() rejects the twist of a FilterDeskew, the filter has no constant twist that it did not have before. (The code breaks this: the twist is switched on before its entry is checked, with no formula declared; without the entry nothing changes.)", "quantifier": "every configuration whose twist is not a sequence of six", "why_tests_cant": "all configurations, of any size, and all previous states of the filter", "anchors": ["mp2p_icp_filters/src/FilterDeskew.cpp:initialize"]}
{"id": "C298", "title": "Every other filter is configured exactly as written", "statement": "The intensity, timestamps, normalisation, curvature, voxel slice, pole, occupancy, adaptive, quadratic and edges-planes filters accept a configuration exactly if their required entries are there and readable and their checks hold; then every parameter is the one of its entry, and optional entries left out leave theirs.", "quantifier": "every configuration and previous state, for each of the ten filters", "why_tests_cant": "all configurations, of any size, and all previous states of the filter", "anchors": ["mp2p_icp_filters/src/FilterByIntensity.cpp:initialize", "mp2p_icp_filters/src/FilterAdjustTimestamps.cpp:initialize", "mp2p_icp_filters/src/FilterNormalizeIntensity.cpp:initialize", "mp2p_icp_filters/src/FilterCurvature.cpp:initialize", "mp2p_icp_filters/src/FilterVoxelSlice.cpp:initialize", "mp2p_icp_filters/src/FilterPoleDetector.cpp:initialize", "mp2p_icp_filters/src/FilterRemoveByVoxelOccupancy.cpp:initialize", "mp2p_icp_filters/src/FilterDecimateAdaptive.cpp:initialize", "mp2p_icp_filters/src/FilterDecimateVoxelsQuadratic.cpp:initialize", "mp2p_icp_filters/src/FilterEdgesPlanes.cpp:initialize"]}
{"id": "C299", "title": "An accepted filter configuration has somewhere to put the points", "statement": "If initialize() accepts a configuration, filter() does not fail because no output layer is named. (The code breaks this: the ring and occupancy filters accept none, the curvature filter also only the layer of other points, and then fail on every map; box, range, pole and intensity filters require one.)", "quantifier": "every such configuration, every map", "why_tests_cant": "all configurations, of any size, and all previous states of the filter", "anchors": ["mp2p_icp_filters/src/FilterByRing.cpp:initialize", "mp2p_icp_filters/src/FilterCurvature.cpp:initialize", "mp2p_icp_filters/src/FilterRemoveByVoxelOccupancy.cpp:initialize", "mp2p_icp_filters/src/FilterBoundingBox.cpp:initialize"]}
{"id": "C300", "title": "The libpointmatcher wrapper returns the pose that aligns the clouds", "statement": "If libpointmatcher brings the local cloud, taken at the initial guess, onto the global cloud, then the pose returned by ICP_LibPointmatcher::align brings the local cloud onto the global one. (The code breaks this: it applies the matcher's motion before the guess instead of after it; the pose is the right one exactly if the two motions commute, for example if the guess is the identity.)", "quantifier": "every pair of maps, every guess, every matcher that does its work", "why_tests_cant": "all clouds and guesses, and any matcher", "anchors": ["mp2p_icp/src/ICP_LibPointmatcher.cpp:ICP_LibPointmatcher::align"]}
{"id": "C301", "title": "A failed match is reported", "statement": "If libpointmatcher finds no alignment, the result of ICP_LibPointmatcher::align says so with quality 0. (The code breaks this: the quality is overwritten by the one of the initial guess, which is returned, with the reason of a converged run.)", "quantifier": "every pair of maps and guess for which the matcher fails", "why_tests_cant": "all clouds and guesses, and any matcher", "anchors": ["mp2p_icp/src/ICP_LibPointmatcher.cpp:ICP_LibPointmatcher::align"]}
{"id": "C302", "title": "When the libpointmatcher wrapper accepts maps", "statement": "ICP_LibPointmatcher::align succeeds exactly if both maps have the same number of layers, the object was initialised, both maps have some line, plane or point of a point cloud, and both have some point or occupied voxel; otherwise it throws. Maps with only voxels are rejected.", "quantifier": "every pair of maps without null layers", "why_tests_cant": "all clouds and guesses, and any matcher", "anchors": ["mp2p_icp/src/ICP_LibPointmatcher.cpp:ICP_LibPointmatcher::align"]}
{"id": "C303", "title": "Every point takes part in the alignment", "statement": "libpointmatcher is given every point of the point clouds and every occupied voxel of both maps, in order, the local ones at the initial guess, each coordinate with six correct decimals, and the configured settings; its answer alone decides the pose.", "quantifier": "every pair of maps, any number of layers and points", "why_tests_cant": "all clouds and guesses, and any matcher", "anchors": ["mp2p_icp/src/ICP_LibPointmatcher.cpp:pointsToPM", "mp2p_icp/src/ICP_LibPointmatcher.cpp:ICP_LibPointmatcher::align"]}
{"id": "C304", "title": "Pairings and uncertainty describe the alignment", "statement": "The pairings and the covariance in the result of ICP_LibPointmatcher::align are those of the alignment. (The code breaks this: there are never pairings and the covariance is always the fallback value.)", "quantifier": "every accepted call", "why_tests_cant": "all clouds and guesses, and any matcher", "anchors": ["mp2p_icp/src/ICP_LibPointmatcher.cpp:ICP_LibPointmatcher::align"]}
{"id": "C305", "title": "The debug record describes the call", "statement": "The record of ICP_LibPointmatcher::align has the maps, guess and parameters of the call and the result returned; the caller gets it exactly if asked for, and a file is written exactly if debug files are enabled.", "quantifier": "every accepted call", "why_tests_cant": "all clouds and guesses, and any matcher", "anchors": ["mp2p_icp/src/ICP_LibPointmatcher.cpp:ICP_LibPointmatcher::align"]}
{"id": "C306", "title": "The consistency check finds every wrong channel", "statement": "pointcloud_sanity_check passes exactly if each channel has one value per point, where clouds with intensity, ring and time may lack a channel; the verdict does not depend on printing warnings, which are one per wrong channel, with both lengths.", "quantifier": "every cloud, of any size and class", "why_tests_cant": "all buffer lengths, consistent or not", "anchors": ["mp2p_icp_map/src/pointcloud_sanity_check.cpp:pointcloud_sanity_check"]}
{"id": "C307", "title": "icp-run aligns the maps it is told to, as configured", "statement": "icp-run prints a result and ends with 0 exactly if both inputs are read with the generators of the command line (or else of the configuration file), filtered with the filters of the command line (or else of the named entry), and aligned from the given guess (or else the identity) with the configured pipeline and parameters, debug files forced on if asked; the result printed is that alignment's. Otherwise it ends with 1 and prints no result.", "quantifier": "every command line, configuration and pair of inputs, with any step failing", "why_tests_cant": "all option combinations, file contents and failures of each step", "anchors": ["apps/icp-run/main.cpp:runIcp", "apps/icp-run/main.cpp:main"]}
{"id": "C308", "title": "icp-run reads each rawlog once", "statement": "When inputs name the same rawlog several times, the file is read once and every input sees the same contents.", "quantifier": "every sequence of rawlog inputs", "why_tests_cant": "all option combinations, file contents and failures of each step", "anchors": ["apps/icp-run/main.cpp:load_input_pc"]}
{"id": "C309", "title": "sm2mm uses the plugins it is given", "statement": "The sm2mm program loads the plugin libraries named on its command line. (The code breaks this: the option is parsed and never used, whatever its value. The map written is otherwise that of the pipeline applied to the simplemap read.)", "quantifier": "every command line and file contents", "why_tests_cant": "all option combinations, file contents and failures of each step", "anchors": ["apps/sm2mm/main.cpp:run_sm_to_mm", "apps/sm2mm/main.cpp:main"]}
{"id": "C310", "title": "sm2mm rejects a simplemap it cannot read completely", "statement": "If the input simplemap cannot be read completely, sm2mm fails and writes no map. (The code breaks this: only an empty result is rejected, so a truncated file gives a map of its first frames and exit code 0.)", "quantifier": "every input file", "why_tests_cant": "all option combinations, file contents and failures of each step", "anchors": ["apps/sm2mm/main.cpp:run_sm_to_mm", "apps/sm2mm/main.cpp:main"]}
{"id": "C311", "title": "mm-info fails on a file it cannot read", "statement": "mm-info ends with a non-zero code if the file cannot be read as a metric map. (The code breaks this: the result of loading is ignored, and the summary of whatever was read is printed, ending with 0.)", "quantifier": "every input file", "why_tests_cant": "all option combinations, file contents and failures of each step", "anchors": ["apps/mm-info/main.cpp:run_mm_info", "apps/mm-info/main.cpp:main"]}
{"id": "C312", "title": "Planes and lines are shown as asked", "statement": "metric_map_t::get_visualization shows one grid per plane, in order, with the pose of the plane and the size, spacing and color asked for, or none if planes are not visible, then one segment per line, of the length and color asked for, centred at its base and along its direction.", "quantifier": "every map and every render_params_t for which the call succeeds", "why_tests_cant": "all maps, with any number of layers and points, and all options", "anchors": ["mp2p_icp_map/src/metricmap.cpp:metric_map_t::get_visualization", "mp2p_icp_map/src/metricmap.cpp:metric_map_t::get_visualization_planes", "mp2p_icp_map/src/metricmap.cpp:metric_map_t::get_visualization_lines"]}
{"id": "C313", "title": "The options for lines are respected", "statement": "Lines are hidden if render_params_lines_t::visible is false and have their individual lengths if given. (The code breaks this: both options are ignored for every map.)", "quantifier": "every map and every render_params_t", "why_tests_cant": "all maps, with any number of layers and points, and all options", "anchors": ["mp2p_icp_map/src/metricmap.cpp:metric_map_t::get_visualization", "mp2p_icp_map/src/metricmap.cpp:metric_map_t::get_visualization_lines"]}
{"id": "C314", "title": "Every layer to be shown is shown once", "statement": "With common parameters each layer is shown exactly once, in order, as its cloud with the point size, color or color limits asked for, or as its voxels; with parameters per layer exactly the named layers are shown, each with its own; invisible points are not shown. The call fails only if a named layer does not exist or a color mode has no axis.", "quantifier": "every map whose layers are drawn by the library, every render_params_t", "why_tests_cant": "all maps, with any number of layers and points, and all options", "anchors": ["mp2p_icp_map/src/metricmap.cpp:metric_map_t::get_visualization", "mp2p_icp_map/src/metricmap.cpp:metric_map_t::get_visualization_points", "mp2p_icp_map/src/metricmap.cpp:metric_map_t::get_visualization_map_layer", "mp2p_icp_map/include/mp2p_icp/render_params.h:render_params_t"]}
{"id": "C315", "title": "Each layer gets its own point size", "statement": "If layers are drawn by their own renderer, each gets the point size of its parameters. (The code breaks this: the size is set on the first cloud of the whole scene, so with two such layers the second changes the first.)", "quantifier": "every map with two point layers drawn by their own renderer", "why_tests_cant": "all maps, with any number of layers and points, and all options", "anchors": ["mp2p_icp_map/src/metricmap.cpp:metric_map_t::get_visualization_points", "mp2p_icp_map/src/metricmap.cpp:metric_map_t::get_visualization_map_layer", "mp2p_icp_map/include/mp2p_icp/render_params.h:render_params_t"]}
{"id": "C316", "title": "The color limits are those given, or those of the cloud", "statement": "A cloud colored by a coordinate uses the limits given; for each one not given it uses the end of the cloud along that axis or of the confidence interval asked for; it fails exactly if the axis is missing or not 0, 1 or 2.", "quantifier": "every non-empty cloud and color mode", "why_tests_cant": "all maps, with any number of layers and points, and all options", "anchors": ["mp2p_icp_map/src/metricmap.cpp:metric_map_t::get_visualization_points", "mp2p_icp_map/src/metricmap.cpp:metric_map_t::get_visualization_map_layer", "mp2p_icp_map/include/mp2p_icp/render_params.h:render_params_t"]}
{"id": "C317", "title": "Drawing does not change the map", "statement": "get_visualization leaves the map as it was. (The code breaks this: it sets the rendering options of voxel maps that are drawn as such; the map is unchanged exactly if those already had the value asked for.)", "quantifier": "every map and every render_params_t with common parameters", "why_tests_cant": "all maps, with any number of layers and points, and all options", "anchors": ["mp2p_icp_map/src/metricmap.cpp:metric_map_t::get_visualization_points", "mp2p_icp_map/src/metricmap.cpp:metric_map_t::get_visualization_map_layer", "mp2p_icp_map/include/mp2p_icp/render_params.h:render_params_t"]}
{"id": "C318", "title": "Pairings are shown where they are", "statement": "Pairings::get_visualization shows, for each kind made visible, one segment per pairing, in order, from the local point at the given pose to its partner: the global point, the plane's origin or the line's base, with a patch per plane and a segment per line of the size asked for; kinds not visible show nothing.", "quantifier": "every set of pairings, pose and options", "why_tests_cant": "all sizes and poses", "anchors": ["mp2p_icp/src/Pairings.cpp:Pairings::get_visualization"]}
{"id": "C319", "title": "Every kind of pairing is shown", "statement": "The visualization shows all pairings. (The code breaks this: pairs of lines and of planes are never shown: the result does not depend on them.)", "quantifier": "every set of pairings, pose and options", "why_tests_cant": "all sizes and poses", "anchors": ["mp2p_icp/src/Pairings.cpp:Pairings::get_visualization"]}
{"id": "C320", "title": "Horn's solver is exact despite rejected outliers", "statement": "If the pairs are exact for some pose except for the ones the scale test rejects, which may be arbitrarily wrong, and the kept ones determine the rotation, then the Horn solver returns exactly that pose and reports exactly the rejected pairs.", "quantifier": "every set of pairs with some pair rejected by the first test, every pose, weight and kernel", "why_tests_cant": "all sets of pairs, poses, weights and outliers", "anchors": ["mp2p_icp/src/optimal_tf_horn.cpp:optimal_tf_horn", "mp2p_icp/src/visit_correspondences.h:visit_correspondences"]}
{"id": "C321", "title": "OLAE is exact despite rejected outliers", "statement": "If the pairs are exact for some pose except for the ones the scale test rejects, which may be arbitrarily wrong, and one of the four determinants of the kept ones is the largest, then OLAE returns exactly that pose and reports exactly the rejected pairs.", "quantifier": "every set of pairs with some pair rejected by the first test, every pose, weight and kernel", "why_tests_cant": "all sets of pairs, poses, weights and outliers", "anchors": ["mp2p_icp/src/optimal_tf_olae.cpp:optimal_tf_olae", "mp2p_icp/src/visit_correspondences.h:visit_correspondences"]}
{"id": "C322", "title": "OLAE: reported outliers do not influence the pose", "statement": "Changing a pair that OLAE reports as an outlier does not change the pose. (The code breaks this: pairs rejected by the second test entered the centroids. Those rejected by the first have no influence.)", "quantifier": "every set of pairs", "why_tests_cant": "all sets of pairs, poses, weights and outliers", "anchors": ["mp2p_icp/src/optimal_tf_olae.cpp:optimal_tf_olae"]}
{"id": "C323", "title": "ICP recovers the exact pose from any guess in the basin", "statement": "If the local points are points of the global map seen without noise from some pose, are not aligned, and with the initial guess each lies within the threshold of its own global point and nearer to it than to any other, then the alignment (distance-threshold matcher, Horn's solver, paired-ratio quality) returns exactly that pose, with exactly the true pairings and quality 1, in at most two iterations, and reports that it stalled when two iterations are allowed. The map may hold further points, in any order.", "quantifier": "every number and arrangement of points, every pose and guess in the basin, every threshold, flags and number of iterations, every correct nearest-neighbour search", "why_tests_cant": "all maps, poses, guesses and parameters: infinitely many scenes, of any size, and the composition of matcher, solver, quality and main loop", "anchors": ["mp2p_icp/src/ICP.cpp:ICP::align", "mp2p_icp/src/Matcher_Points_DistanceThreshold.cpp:implMatchOneLayer", "mp2p_icp/src/Matcher_Points_Base.cpp:impl_match", "mp2p_icp/src/QualityEvaluator_PairedRatio.cpp:evaluate", "mp2p_icp/src/Solver_Horn.cpp:impl_optimal_pose"]}
{"id": "C324", "title": "ICP with OLAE recovers the exact pose from any guess in the basin", "statement": "The same with the OLAE solver, if one of its four determinants is the largest one (otherwise C91 applies).", "quantifier": "every number and arrangement of points, every pose and guess in the basin, every threshold, flags and number of iterations, every correct nearest-neighbour search", "why_tests_cant": "all maps, poses, guesses and parameters: infinitely many scenes, of any size, and the composition of matcher, solver, quality and main loop", "anchors": ["mp2p_icp/src/ICP.cpp:ICP::align", "mp2p_icp/src/Matcher_Points_DistanceThreshold.cpp:implMatchOneLayer", "mp2p_icp/src/Matcher_Points_Base.cpp:impl_match", "mp2p_icp/src/QualityEvaluator_PairedRatio.cpp:evaluate", "mp2p_icp/src/Solver_OLAE.cpp:impl_optimal_pose"]}
{"id": "C325", "title": "Remembered intensity range over any history", "statement": "With remember_intensity_range and no fixed maximum, over any sequence of clouds with finite intensities, none of them empty, every call succeeds and the range used for each cloud goes exactly from the smallest to the largest intensity of all the clouds so far, that one included. Every new intensity is then a number between 0 and 1, brighter points of the cloud stay at least as bright, and the smallest intensity so far maps to 0 (unless the range overflows or is below 2^-128 without being zero).", "quantifier": "every history of clouds, in IEEE single precision, bit for bit", "why_tests_cant": "every sequence of clouds of any sizes, and every pattern of rounding", "anchors": ["mp2p_icp_filters/src/FilterNormalizeIntensity.cpp:FilterNormalizeIntensity::filter"]}
{"id": "C326", "title": "The debug record and its file describe the call", "statement": "A call of align() that returns gives a debug record exactly if asked to. The record holds the maps (as left by the logging functors), the guess, the parameters, the result, the details of the iterations and the variables. If files are asked for, the next number is taken and, unless the decimation leaves it out, one file is written that holds that same record; otherwise files and numbering are left alone.", "quantifier": "every components, parameters, maps, functors, files", "why_tests_cant": "every run, of any length and with any components, and every setting of the logging", "anchors": ["mp2p_icp/src/ICP.cpp:ICP::align", "mp2p_icp/src/ICP.cpp:ICP::save_log_file", "mp2p_icp/include/mp2p_icp/LogRecord.h:LogRecord"]}
{"id": "C327", "title": "Asking for a debug record is safe", "statement": "A call of align() whose components work has defined behaviour whether or not a debug record or files are asked for.", "quantifier": "every components and parameters", "why_tests_cant": "every run, of any length and with any components, and every setting of the logging", "anchors": ["mp2p_icp/src/ICP.cpp:ICP::align", "mp2p_icp/src/ICP.cpp:ICP::save_log_file"]}
{"id": "C328", "title": "Logging does not change the alignment", "statement": "Asking for a debug record, for files (which may fail to be written) or for details of the iterations changes nothing of what align() finds: pose, uncertainty, scale, number of iterations, reason, quality and pairings are the same, the components end in the same state, and the same calls throw.", "quantifier": "every components, parameters, maps and guesses; any two settings of the logging", "why_tests_cant": "every run, of any length and with any components, and every setting of the logging", "anchors": ["mp2p_icp/src/ICP.cpp:ICP::align", "mp2p_icp/src/ICP.cpp:ICP::save_log_file"]}
{"id": "C329", "title": "Logging functors leave the caller's maps alone", "statement": "The functors applied before logging get copies of the maps: what they do does not show in the maps of the caller.", "quantifier": "every functor and map", "why_tests_cant": "every run, of any length and with any components, and every setting of the logging", "anchors": ["mp2p_icp/src/ICP.cpp:ICP::align", "mp2p_icp/src/ICP.cpp:ICP::save_log_file", "mp2p_icp/include/mp2p_icp/Parameters.h:functor_before_logging_local"]}
{"id": "C330", "title": "Names of log files", "statement": "In the name of a log file every placeholder of the format, wherever and however often it occurs, is replaced by the number, identifier or label it stands for, and everything else is kept.", "quantifier": "every format (any sequence of texts and placeholders), number, identifiers and labels", "why_tests_cant": "every format, label and identifier", "anchors": ["mp2p_icp/src/ICP.cpp:ICP::save_log_file"]}
{"id": "C331", "title": "No log file replaces another", "statement": "With $UNIQUE_ID in the format, over any history of fewer than 2^32 records, no log file is written twice.", "quantifier": "every format with the placeholder, every history of alignments, maps and decimations", "why_tests_cant": "every format, label and identifier; every history", "anchors": ["mp2p_icp/src/ICP.cpp:ICP::save_log_file"]}
{"id": "C332", "title": "Identifiers in log file names tell maps apart", "statement": "With $GLOBAL_ID in the format, maps with different identifiers (or with and without one) have different file names.", "quantifier": "every pair of identifiers", "why_tests_cant": "every format, label and identifier", "anchors": ["mp2p_icp/src/ICP.cpp:ICP::save_log_file"]}
{"id": "C333", "title": "The debug record is a snapshot", "statement": "The maps in the record that align() gives to the caller stay as they were when it was made.", "quantifier": "every later change to the maps", "why_tests_cant": "every run, of any length and with any components, and every setting of the logging", "anchors": ["mp2p_icp/src/ICP.cpp:ICP::align", "mp2p_icp/src/ICP.cpp:ICP::save_log_file", "mp2p_icp_map/src/metricmap.cpp:get_shared_from_this_or_clone"]}
{"id": "C334", "title": "ICP never gets worse", "statement": "Take the cost of a pose to be the sum, over the local points, of the squared distance to the nearest global point, at most the squared threshold. In a registration with the nearest-point matcher (one pair per point, global points may be paired several times) and Horn's solver, no iteration increases the cost, except for the rounding of the transformed points; so the result costs no more than the guess.", "quantifier": "all point clouds, guesses, thresholds, numbers of iterations, evaluators, hooks and parameter formulas; every accuracy of the transformed points", "why_tests_cant": "every pair of point clouds and guess, and a run of any number of iterations; a test sees a few scenes", "anchors": ["mp2p_icp/src/ICP.cpp:ICP::align", "mp2p_icp/src/Matcher_Points_DistanceThreshold.cpp:Matcher_Points_DistanceThreshold::implMatchOneLayer", "mp2p_icp/src/optimal_tf_horn.cpp:optimal_tf_horn"]}
{"id": "C335", "title": "ICP with the default options never gets worse", "statement": "As C334, with the default allowMatchAlreadyMatchedGlobalPoints = false.", "quantifier": "all point clouds and guesses", "why_tests_cant": "every pair of point clouds and guess, and a run of any number of iterations; a test sees a few scenes", "anchors": ["mp2p_icp/src/ICP.cpp:ICP::align", "mp2p_icp/src/Matcher_Points_DistanceThreshold.cpp:Matcher_Points_DistanceThreshold::implMatchOneLayer", "mp2p_icp/src/optimal_tf_horn.cpp:optimal_tf_horn", "mp2p_icp/include/mp2p_icp/Matcher_Points_Base.h:allowMatchAlreadyMatchedGlobalPoints_"]}
{"id": "C336", "title": "txt2mm keeps the colours of a xyzrgb file", "statement": "Importing a text file with columns x y z r g b stores, for each row, the colour of the row: the whole part of r, g and b, each as a fraction of 255.", "quantifier": "every text file with six columns of numbers", "why_tests_cant": "the colour values of a file are arbitrary numbers; a test has files with colours in range", "anchors": ["apps/txt2mm/main.cpp:main", "mp2p_icp_map/include/mp2p_icp/load_xyz_file.h:load_xyz_file"]}
{"id": "C337", "title": "What a generator does with each kind of observation", "statement": "For an observation whose class and label are accepted by an initialised generator: lidar scans of the 2D, rotating and depth-image kinds and others are inserted into the target layer by the observation itself (creating an empty layer if there is none), a depth image with points is unprojected and appended in the frame of the robot, a Velodyne scan appends its points with all fields or is refused if the layer has another class, and a generator with its own map definition inserts into that kind of map. All other layers stay as they were; an observation that inserts nothing is an error exactly if the generator is configured to throw.", "quantifier": "all generators, observations, robot poses, maps and sources of the observations", "why_tests_cant": "holds for every map content and class of observation; tests load a few data sets", "anchors": ["mp2p_icp_filters/src/Generator.cpp:Generator::process", "mp2p_icp_filters/src/Generator.cpp:Generator::filterVelodyneScan", "mp2p_icp_filters/src/Generator.cpp:Generator::implProcessCustomMap"]}
{"id": "C338", "title": "sm2mm fails early and only for a reason", "statement": "If a generator or filter of the pipeline uses a variable that sm2mm does not define, building the map fails before any observation is processed. If all variables are known and the requested key-frames are complete, an error can only come from a generator or a filter, and then nothing is processed after the failing call.", "quantifier": "all pipelines, simple maps, options and custom variables", "why_tests_cant": "all maps and pipelines; a test sees a few configurations", "anchors": ["mp2p_icp_filters/src/sm2mm.cpp:simplemap_to_metricmap"]}
{"id": "C339", "title": "The error the Gauss-Newton solver compares with maxCost is the weighted squared error", "statement": "In every inner iteration, the error that decides whether the solver stops (maxCost) is the sum over all pairs of the weight of the pair times its squared residual at the current pose - the quantity being minimised -, and it does not depend on whether the library was built with TBB.", "quantifier": "all pairings, weights, kernels, numbers of iterations, both builds and all schedules", "why_tests_cant": "all weights and two builds; tests use unit weights, where the difference cannot be seen", "anchors": ["mp2p_icp/src/optimal_tf_gauss_newton.cpp:optimal_tf_gauss_newton"]}
{"id": "C340", "title": "The closed-form solvers do not depend on the order of the pairs", "statement": "If the pairs of each kind are given in another order (no per-layer point weights), the Horn and OLAE solvers succeed or fail alike, return the same pose, and leave out the same pairs as outliers - for any class weights, robust kernel and scale-based outlier detection.", "quantifier": "all pairings, all permutations of them, all solver parameters, all eigenvector routines and linear solvers", "why_tests_cant": "tests fix one order; the sums, the centroid subsets and the outlier positions all depend on the order of the walk", "anchors": ["mp2p_icp/src/optimal_tf_horn.cpp:optimal_tf_horn", "mp2p_icp/src/optimal_tf_olae.cpp:optimal_tf_olae", "mp2p_icp/src/visit_correspondences.h:visit_correspondences"]}
{"id": "C341", "title": "The result of ICP does not depend on the order of the local points when global points may be shared", "statement": "For two local maps with the same layers and the same points in whatever order, with any list of nearest-neighbour matchers that allow global points to be paired several times and any solvers, evaluators and hook that do not look at the order, ICP::align gives the same pose, scale, quality, number of iterations and reason to stop, and the same pairs up to their order; or it fails for both.", "quantifier": "all maps, layers, permutations, lists of Matcher_Points_DistanceThreshold, order-free components, parameters and guesses", "why_tests_cant": "ranges over all permutations and whole runs", "anchors": ["mp2p_icp/src/Matcher_Points_DistanceThreshold.cpp:implMatchOneLayer", "mp2p_icp/src/ICP.cpp:ICP::align"]}
{"id": "C342", "title": "The result of ICP does not depend on the order of the local points with the default options", "statement": "With the default options (a global point is paired at most once), the estimated pose is the same whatever the order of the points in the local cloud.", "quantifier": "all clouds, permutations, parameters and guesses", "why_tests_cant": "ranges over all permutations and whole runs; a test with one cloud cannot see it", "anchors": ["mp2p_icp/src/Matcher_Points_DistanceThreshold.cpp:implMatchOneLayer", "mp2p_icp/src/ICP.cpp:ICP::align"]}
{"id": "C343", "title": "The summary of a set of pairings tells its numbers", "statement": "Pairings::contents_summary() is \"none\" exactly when there is no pairing of any kind; otherwise two sets of pairings with the same summary have the same number of pairings of each of the five kinds and the same number of potential pairings.", "quantifier": "all sets of pairings", "why_tests_cant": "the text is built by concatenation: that no two sets of numbers collide ranges over all of them", "anchors": ["mp2p_icp/src/Pairings.cpp:append_container_size", "mp2p_icp/src/Pairings.cpp:Pairings::contents_summary"]}
{"id": "C344", "title": "The summary of a map that is not empty names its layers", "statement": "metric_map_t::contents_summary() throws exactly for a map with a null layer; it shows identifier, label, georeferencing, the number of lines and planes; and, for a map that is not empty, the number of points, voxels and layers and each layer by name with its own text.", "quantifier": "all maps, layers of every class, heaps of layer objects", "why_tests_cant": "ranges over all maps and all layer classes", "anchors": ["mp2p_icp_map/src/metricmap.cpp:metric_map_t::contents_summary", "mp2p_icp_map/src/metricmap.cpp:metric_map_t::empty"]}
{"id": "C345", "title": "Results read from an archive can be printed", "statement": "Whatever Results::serializeFrom reads without an error can be printed with Results::print, which then shows the pose, the quality, the iterations, the name of the reason to stop and the summary of the pairings.", "quantifier": "all results, all byte strings", "why_tests_cant": "the reason is one byte of the file: 256 values", "anchors": ["mp2p_icp/src/Results.cpp:Results::print", "mp2p_icp/src/Results.cpp:Results::serializeFrom", "mp2p_icp/include/mp2p_icp/IterTermReason.h:IterTermReason"]}
{"id": "C346", "title": "An aligned pose is kept by the closed-form solvers with planes and lines", "statement": "If, seen from the current pose, every point is on its plane or line, the Horn and OLAE solvers return exactly that pose (given at least three pairs whose points are not on a line through their centroid, resp. one largest determinant), whatever other pairs are given along.", "quantifier": "all poses, planes, lines, points, weights and scale-based outlier settings", "why_tests_cant": "ranges over all geometries; the solver sees converted pairs that depend on the pose", "anchors": ["mp2p_icp/src/pt2ln_pl_to_pt2pt.cpp:pt2ln_pl_to_pt2pt", "mp2p_icp/src/Solver_Horn.cpp:Solver_Horn::impl_optimal_pose", "mp2p_icp/src/Solver_OLAE.cpp:Solver_OLAE::impl_optimal_pose"]}
{"id": "C347", "title": "A step of the Horn solver never increases the distances to planes and lines", "statement": "With point-to-plane and point-to-line pairings, the pose returned by the Horn solver has a sum of squared distances of the points to their planes and lines that is not larger than that of the pose it started from.", "quantifier": "all poses, planes, lines and points", "why_tests_cant": "ranges over all geometries; needs the optimality of the solver and the geometry of the projections", "anchors": ["mp2p_icp/src/pt2ln_pl_to_pt2pt.cpp:append_from_sorted", "mp2p_icp/src/pt2ln_pl_to_pt2pt.cpp:pt2ln_pl_to_pt2pt", "mp2p_icp/src/Solver_Horn.cpp:Solver_Horn::impl_optimal_pose"]}
{"id": "C348", "title": "Gauss-Newton corrects a wrong translation in one step", "statement": "If all pairings (points, points on lines, points on planes, plane normals) fit a pose exactly and the linearization point differs from that pose only in its translation, the Gauss-Newton solver returns exactly that pose, with one step, whatever the robust kernel, the positive weights, the build and the thread schedule, provided the pairings fix the pose. With a limit on the cost, the start is returned only if its error is within the limit.", "quantifier": "all poses, pairings, weights, kernels, option values, builds and schedules that lose no addition", "why_tests_cant": "ranges over all geometries, schedules and kernels", "anchors": ["mp2p_icp/src/optimal_tf_gauss_newton.cpp:optimal_tf_gauss_newton"]}
{"id": "C349", "title": "Registration with Gauss-Newton keeps aligned maps aligned and corrects a wrong translation", "statement": "Points of the global map seen without noise: an alignment with the distance-threshold matcher, the Gauss-Newton solver and the paired-ratio quality, started at the true pose, returns it at once (stalled at iteration 0, quality 1, the true pairings), for any number of points and any options of the solver; started with a wrong translation from which each point is nearest to its own global point, it returns exactly the true pose after at most two iterations.", "quantifier": "all maps, poses, translations, options, builds and thread schedules", "why_tests_cant": "ranges over all scenes and runs; whole pipeline", "anchors": ["mp2p_icp/src/ICP.cpp:ICP::align", "mp2p_icp/src/Solver_GaussNewton.cpp:Solver_GaussNewton::impl_optimal_pose", "mp2p_icp/src/optimal_tf_gauss_newton.cpp:optimal_tf_gauss_newton", "mp2p_icp/src/Matcher_Points_DistanceThreshold.cpp:Matcher_Points_DistanceThreshold::implMatchOneLayer"]}
{"id": "C350", "title": "Trimmed ICP never gets worse", "statement": "An alignment with the inlier-ratio matcher, with global points that may be paired several times, and Horn's solver never makes worse the sum of the squared distances of the best k local points to the map, where k is the number of pairs the ratio keeps: no iteration does, so the result is at least as good as the guess. With transformed points accurate up to eps, each iteration may lose at most 4 k eps (D + eps), where D bounds the distances to the map. The quality evaluators, the hook, the parameter formulas and the rounding are arbitrary.", "quantifier": "all maps, guesses, ratios, options of the run, evaluators and hooks", "why_tests_cant": "ranges over all scenes and runs; whole pipeline", "anchors": ["mp2p_icp/src/ICP.cpp:ICP::align", "mp2p_icp/src/Matcher_Points_InlierRatio.cpp:Matcher_Points_InlierRatio::implMatchOneLayer", "mp2p_icp/src/optimal_tf_horn.cpp:optimal_tf_horn"]}
{"id": "C351", "title": "Trimmed ICP with the default options never gets worse", "statement": "With the default options (each global point is paired once) an alignment with the inlier-ratio matcher and Horn's solver is not worse than the guess in the sum of the squared distances of the best k local points.", "quantifier": "all maps, guesses, ratios and options of the run", "why_tests_cant": "ranges over all scenes and runs; whole pipeline", "anchors": ["mp2p_icp/src/ICP.cpp:ICP::align", "mp2p_icp/src/Matcher_Points_InlierRatio.cpp:Matcher_Points_InlierRatio::implMatchOneLayer"]}
{"id": "C352", "title": "The same pairs twice end the run", "statement": "With one of the closed-form solvers, an iteration in which the matchers find the same pairs as in the iteration before is the last one: the solver computes the same pose, so align() returns with that pose, the reason Stalled and the number of that iteration. The matchers, the evaluators, the hook and the parameter formulas are arbitrary; the pose norms are measures of motion and the limits for stalling positive.", "quantifier": "all maps, guesses, matchers, options of the run, evaluators and hooks", "why_tests_cant": "ranges over all runs; whole pipeline", "anchors": ["mp2p_icp/src/ICP.cpp:ICP::align", "mp2p_icp/src/Solver_Horn.cpp:Solver_Horn::impl_optimal_pose", "mp2p_icp/src/Solver_OLAE.cpp:Solver_OLAE::impl_optimal_pose"]}
{"id": "C353", "title": "When the least-squares pose is unique", "statement": "For three or more equally weighted point pairs, none within 0.1 mm of the centroids, exactly one rigid motion minimizes the sum of the squared distances if and only if the greatest eigenvalue of the matrix built by Horn's solver is simple; then the solver returns that motion. For points on one line it is not unique.", "quantifier": "all sets of point pairs and all correct eigen-decompositions", "why_tests_cant": "real-valued optimization over all rigid motions", "anchors": ["mp2p_icp/src/optimal_tf_horn.cpp:optimal_tf_horn"]}
{"id": "C354", "title": "ICP ends by itself", "statement": "In exact arithmetic, with the nearest-neighbour matcher (global points that may be shared) and Horn's solver, when the pairs of each iteration have one best fit, align() runs fewer than (g+1)^l iterations, for g global and l local points: when maxIterations allows that many, the reason to end is never MaxIterations, and without hook and checkpoints it is Stalled or NoPairings. It does not go round in circles.", "quantifier": "all maps, guesses, thresholds, options of the run", "why_tests_cant": "termination over unbounded runs; whole pipeline", "anchors": ["mp2p_icp/src/ICP.cpp:ICP::align", "mp2p_icp/src/Matcher_Points_DistanceThreshold.cpp:Matcher_Points_DistanceThreshold::implMatchOneLayer", "mp2p_icp/src/optimal_tf_horn.cpp:optimal_tf_horn"]}
{"id": "C355", "title": "A filter with unevaluated formulas refuses", "statement": "A filter whose configuration contains formulas that have not been evaluated yet throws without changing the map instead of running with the numbers that happen to be in its parameters.", "quantifier": "all filters with formulas, maps and configurations", "why_tests_cant": "ranges over all maps and configurations", "anchors": ["mp2p_icp_filters/src/FilterBoundingBox.cpp:FilterBoundingBox::filter", "mp2p_icp_filters/src/FilterByRange.cpp:FilterByRange::filter", "mp2p_icp_map/src/Parameterizable.cpp:Parameterizable::checkAllParametersAreRealized"]}
{"id": "C356", "title": "The frame of the global map does not matter", "statement": "In exact arithmetic, moving the global map and the initial guess by the same rigid motion moves the result of align() by that motion and changes nothing else: the same pairs in every iteration, the same number of iterations and the same reason to end. Holds for point-to-point matching with shared global points and Horn's solver, when no local point has two nearest global points and the pairs of each iteration have one best fit.", "quantifier": "all maps, guesses, rigid motions, thresholds and options of the run", "why_tests_cant": "whole pipeline; two runs compared; all rigid motions", "anchors": ["mp2p_icp/src/ICP.cpp:ICP::align", "mp2p_icp/src/Matcher_Points_DistanceThreshold.cpp:Matcher_Points_DistanceThreshold::implMatchOneLayer", "mp2p_icp/src/optimal_tf_horn.cpp:optimal_tf_horn"]}
{"id": "C357", "title": "The axes of the local map's frame do not matter", "statement": "In exact arithmetic, turning the local map about its origin, and the guess accordingly, gives the same pose seen from the turned frame, with the same pairs in every iteration, number of iterations and reason to end.", "quantifier": "all maps, guesses, rotations, thresholds and options of the run", "why_tests_cant": "whole pipeline; two runs compared; all rotations", "anchors": ["mp2p_icp/src/ICP.cpp:ICP::align", "mp2p_icp/src/Matcher_Points_DistanceThreshold.cpp:Matcher_Points_DistanceThreshold::implMatchOneLayer", "mp2p_icp/src/optimal_tf_horn.cpp:optimal_tf_horn"]}
{"id": "C358", "title": "The origin of the local map's frame does not matter", "statement": "In exact arithmetic, giving the same scan in a frame whose origin is elsewhere, and the guess accordingly, changes neither the pairs found in each iteration nor the number of iterations of align().", "quantifier": "all maps, guesses, rigid motions of the local frame, thresholds and options of the run", "why_tests_cant": "whole pipeline; two runs compared; all rigid motions, and it fails only for the stalling test", "anchors": ["mp2p_icp/src/ICP.cpp:ICP::align", "mp2p_icp/src/Matcher_Points_DistanceThreshold.cpp:Matcher_Points_DistanceThreshold::implMatchOneLayer", "mp2p_icp/src/optimal_tf_horn.cpp:optimal_tf_horn"]}
{"id": "C359", "title": "The unit of length does not matter", "statement": "In exact arithmetic, if both maps, the initial guess, the matching threshold and the smallest translation step are all given in another unit of length, align() returns the same pose in that unit, with the same pairs found in every iteration, the same number of iterations and the same termination reason.", "quantifier": "all maps, guesses, positive factors, thresholds and smallest steps", "why_tests_cant": "whole pipeline; two runs compared; every factor", "anchors": ["mp2p_icp/src/ICP.cpp:ICP::align", "mp2p_icp/src/Matcher_Points_DistanceThreshold.cpp:Matcher_Points_DistanceThreshold::implMatchOneLayer", "mp2p_icp/src/optimal_tf_horn.cpp:optimal_tf_horn"]}
{"id": "C360", "title": "The voxels of a cloud do not depend on the unit of length", "statement": "In exact arithmetic, with the clouds, the resolution and the minimum distance given in another unit of length, both voxel grids report the same voxels, with the same indices, and every decimation method chooses the same representative in that unit.", "quantifier": "all sequences of clouds, positive factors, resolutions, container flavours and methods", "why_tests_cant": "every cloud and every factor; two runs compared", "anchors": ["mp2p_icp_filters/src/PointCloudToVoxelGrid.cpp:PointCloudToVoxelGrid::processPointCloud", "mp2p_icp_filters/src/PointCloudToVoxelGridSingle.cpp:PointCloudToVoxelGridSingle::processPointCloud", "mp2p_icp_filters/include/mp2p_icp_filters/PointCloudToVoxelGrid.h:PointCloudToVoxelGrid::coord2idx"]}
{"id": "C361", "title": "The unit of length does not matter to the filters", "statement": "In exact arithmetic, FilterBoundingBox, FilterByRange and FilterDecimateVoxels, applied to a map in another unit of length with their lengths given in that unit, end the same way and leave the same map in that unit.", "quantifier": "all maps, configurations, positive factors, visiting orders, random draws and earlier contents of the grids", "why_tests_cant": "every map and every factor; two runs compared", "anchors": ["mp2p_icp_filters/src/FilterBoundingBox.cpp:FilterBoundingBox::filter", "mp2p_icp_filters/src/FilterByRange.cpp:FilterByRange::filter", "mp2p_icp_filters/src/FilterDecimateVoxels.cpp:FilterDecimateVoxels::filter"]}
{"id": "C362", "title": "The origin of a cloud does not matter to its voxels", "statement": "Moving a cloud by a whole number of voxels along each axis groups its points in the same voxels.", "quantifier": "all clouds, resolutions and whole-voxel motions", "why_tests_cant": "every cloud; it fails only for clouds that cross a coordinate plane", "anchors": ["mp2p_icp_filters/src/PointCloudToVoxelGrid.cpp:PointCloudToVoxelGrid::processPointCloud", "mp2p_icp_filters/src/PointCloudToVoxelGridSingle.cpp:PointCloudToVoxelGridSingle::processPointCloud", "mp2p_icp_filters/include/mp2p_icp_filters/PointCloudToVoxelGrid.h:PointCloudToVoxelGrid::coord2idx"]}
