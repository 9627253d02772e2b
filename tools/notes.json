{
 "C01": "",
 "C02": "Element types are arbitrary.",
 "C19": "The failing-solver case is characterised too.",
 "C20": "Any norms of pose differences that are non-negative.",
 "C25": "Lock order as the order of calls.",
 "C51": "",
 "C53": "Components arbitrary but never failing.",
 "C07": "Exact rationals in place of floats; the nearest-neighbour search of the map is assumed correct (nn_correct), shown satisfiable by a brute-force instance. Holds for any match state, flags, pose function and subsampling.",
 "C08": "Any list of distance-threshold / inlier-ratio matchers, any starting match state.",
 "C09": "Any sequence of the two point matchers.",
 "C10": "Build without TBB.",
 "C11": "One-layer level: candidates, rounding, best-first selection, removal of reused global points, one pairing per local point. std::multimap modelled as sorted insertion.",
 "C12": "Blocks, weights, missing layers; for both matchers.",
 "C13": "Any rearrangement as the shuffle.",
 "C15": "Both bit-field representations, all histories of marks and queries.",
 "C54": "Refuted in general: push_back ignores point_weights, so run_matchers always returns none. C54_weights_where: the weights survive exactly when the matchers attach none.",
 "C55": "Whole runs from a fresh MatchState; invariant: every layer has a bit field of its size.",
 "C56": "Distance-threshold and inlier-ratio matchers.",
 "C14": "All interleavings of atomic accesses (the real accesses are unsynchronised).",
 "C37": "Stamps are integers of a fine tick (no rounding); all histories.",
 "C38": "Any history of insertions; integration step abstract.",
 "C03": "MRPT wire formats are assumed (codec_ok for geometry types, concrete formats for integers, strings, containers); objects must fit them.",
 "C34": "All versions 0-5; layer objects and derived-class data external; metadata as text.",
 "C57": "",
 "C58": "External value codecs arbitrary.",
 "C59": "All versions; truncation; never undefined.",
 "C60": "Parameters up to C58.",
 "C61": "Any reader.",
 "C62": "metric_map_t resets it before reading, so C34 holds.",
 "C40": "Exact rationals for floats; distinct names are distinct layers.",
 "C41": "Distances compared in the reals (axioms of Coq's Reals); thresholds of the range filter non-negative.",
 "C64": "Refuted: bounding box and range filters re-read the growing input size at every step, so in-place use never returns once a point is routed to the input. For intensity and ring filters in-place use is covered by C41 (points appended once). In-place use is proved to terminate exactly when no point is routed to the input layer (C64_*_where).",
 "C65": "",
 "C66": "",
 "C67": "Refuted for the shift methods (the offset is subtracted; C46 gives the exact value -offset). C67_offset_where: Normalize puts the earliest point at the offset; the shift methods do so iff the offset is 0.",
 "C47": "Exact rationals; C47_reversed_fixed_range_reverses shows the min<=max hypothesis is needed.",
 "C68": "Refuted: with the flag off nothing is ever reported (processing writes the other container). C68_reported_where: all points are reported iff the robin-map flag is on or there are no points.",
 "C69": "Refuted: all methods but FirstPoint write no point with the std::map flavour. C69_one_per_voxel_where: one point per voxel iff FirstPoint, robin map, or empty input.",
 "C70": "Refuted for methods other than FirstPoint: copies the cloud, then throws. C70_succeeds_where: success iff FirstPoint or exactly one input layer is not small.",
 "C71": "Refuted: throws when no input exists.",
 "C72": "Refuted: exact result for two voxels; 11 of 20 points on a concrete cloud. C72_target_reached_where gives the condition under which the target count is reached.",
 "C73": "Refuted: out-of-range read. C73_no_dense_voxel_where: nothing is added, without undefined behaviour, iff the output already had the target number of points.",
 "C27": "The two kernels of create_robust_kernel: weight 1 at zero error, in (0,1], non-increasing, tending to 0; real-number model.",
 "C28": "Real-number model of error_point2point/line/plane and plane2plane; the point-to-line norm needs a unit director and the point-to-plane norm a nonzero normal, as the code's callers provide.",
 "C29": "Exact affine identities over the reals; the line-to-line term is treated separately in C75-C77.",
 "C33": "Selection and projections, plus the effect of the code's 1e-4 tolerance on non-unit normals.",
 "C74": "Refuted: the function builds its output from the line/plane pairings only, so existing point pairs are dropped. C74_output_where: every output pair comes from a line or plane pairing, at most one each.",
 "C75": "Refuted: the code rotates the local director with R transposed. C75_zero_where: coinciding lines give zero when the rotation and its transpose agree on the local director.",
 "C76": "Refuted: the Jacobian is not the derivative of the code's residual, and the derivative of the norm has the wrong sign. C76_translation_where: the translation part is the derivative.",
 "C77": "Refuted: only the first component is written for parallel lines. C77_all_set_where: all components are set iff the computed angle reaches the threshold.",
 "C78": "Real-number model.",
 "C79": "Refuted for every c other than 1: the documented loss has c^2 and no factor c. C79_documented_where: agreement iff c = 1 or the error is 0.",
 "C26": "Reals (exact arithmetic). The outliers-at-block-start case is C80, uncovered pairs C81.",
 "C32": "eval_centroids requires a point pair (C88).",
 "C80": "Refuted: three one-pair blocks with pair 1 an outlier; pair 2 gets the weight of block 1. C80_weights_where: right if the blocks cover the points and no block after the first starts with an outlier.",
 "C81": "Refuted: the block iterator is dereferenced at end (UB) for every uncovered pair. C81_defined_where: never undefined if the blocks cover the points and no later block starts with an outlier.",
 "C82": "Refuted: the assertion wi > 0 throws for every set holding such a pair. C82_no_such_pairs_where: with no such pair a zero weight gives the same result as any other.",
 "C83": "Refuted: the block weight is multiplied by the class weight. C83_ratio_where: among point pairs the block weights decide alone; against lines the documented ratio holds iff the class weight is 1 (or the line weight 0).",
 "C84": "Assumes the contract of Eigen's symmetric eigen-solver for the matrix of the run (spectral); exact real arithmetic.",
 "C85": "Assumes the contract of Eigen's symmetric eigen-solver for the matrix of the run (spectral); exact real arithmetic.",
 "C86": "Assumes the contract of Eigen's symmetric eigen-solver for the matrix of the run (spectral); exact real arithmetic.",
 "C87": "Refuted: the pose is reset to identity before solving. C87_pose_kept_where gives the domain on which it holds.",
 "C88": "Refuted: eval_centroids_robust throws for every set without point pairs. C88_succeeds_where gives the domain on which it holds.",
 "C89": "Refuted by a concrete pairing: the centroids are unweighted. C89_weighted_optimum_where gives the domain on which it holds.",
 "C90": "Exact real arithmetic; linear solver is any function solving non-singular 3x3 systems (Cramer's rule is shown to be one).",
 "C91": "Refuted: quarter turn about x of six axis points; plain and x systems tie, the code takes the singular z system. C90 is the domain on which it holds (one system with strictly largest determinant).",
 "C92": "Refuted: every single point pair gives true and a half turn about z. C90 is the domain on which the result is right.",
 "C30": "TBB build: every iteration, all schedules; sequential build: first iteration (see C93 for the rest). Prior term and individual weights under TBB are excluded (C94, C95).",
 "C31": "Residuals are abstract functions of pairing and pose; the numerical Jacobian and inverse are a parameter.",
 "C93": "The accumulation is proved for every run, the overshoot on a concrete run. C30_first_iteration_sequential: the first inner iteration of that build is right.",
 "C94": "Refuted by a concrete run. C94_equal_weights_where: right in every iteration if all blocks carry the same weight; C30: or without blocks.",
 "C95": "Refuted by two runs. C94_equal_weights_where and C30 hold for every schedule: equal weights or none.",
 "C96": "Refuted with an explicit interleaving semantics of the racing additions. C96_error_where: if no addition is lost the error tested is the weighted sum of squares in every iteration.",
 "C99": "Refuted for every such pairing set. C31 is the domain on which it holds (no line pairs together with plane pairs).",
 "C100": "Refuted for every pose. The theorem also proves that the other five coordinates are right.",
 "C97": "Exponential map and linear solver are parameters.",
 "C98": "Hypothesis: the linear solver solved the systems of this run.",
 "C39": "Formulas are abstract (well-formedness, variables, value); the exprtk library is not modelled. No axioms.",
 "C101": "As C39.",
 "C102": "Refuted by a concrete history. C101 is the domain on which it holds.",
 "C103": "Refuted for any value an uncompiled expression may evaluate to. C39/C101 are the domain on which it holds (no failed realize before).",
 "C49": "FilterDeskew's parallel loop, one memory access at a time in any interleaving; so3exp and find_closest (mrpt) are arbitrary functions",
 "C104": "The opposite is proved for every point at the origin. C49 proves it for every point not at the origin.",
 "C105": "The opposite is proved. C49_constant_twist proves the translation for the other mode.",
 "C107": "The opposite is proved. C49_completes and C106 give the calls that succeed or throw.",
 "C35": "Layers are pointers into a heap, so sharing is modelled; mrpt's insertAnotherMap/changeCoordinatesReference move the coordinates, the other fields are arbitrary",
 "C108": "Refuted: the opposite is proved. C108_planes_where and C108_layer_where give the domain on which it holds.",
 "C109": "Refuted: the opposite is proved. C109_merges_where gives the domain on which it holds.",
 "C110": "Refuted: the opposite is proved. C110_empty_where gives the domain on which it holds.",
 "C111": "Refuted: the opposite is proved. C111_independent_where gives the domain on which it holds.",
 "C113": "Refuted: the opposite is proved. C113_rotation_kept_where gives the domain on which it holds.",
 "C112": "Values are exact numbers (the text of a number is not modelled)",
 "C50": "The run's calls are recorded as events; filters and maps inserted by mrpt are arbitrary functions; loading of the YAML pipeline is not modelled",
 "C116": "Refuted: the opposite is proved. C116_default_twist_where gives the domain on which it holds.",
 "C117": "Refuted: the opposite is proved. C117_end_index_where gives the domain on which it holds.",
 "C118": "Refuted: the opposite is proved. C118_final_filters_run_where and C118_no_formulas_where give the domain on which it holds.",
 "C121": "Refuted: the opposite is proved. C121_existing_layer_where gives the domain on which it holds.",
 "C122": "Refuted: the opposite is proved. C122_existing_layer_where gives the domain on which it holds.",
 "C124": "Refuted by a concrete pair of objects (Pairings.cpp:123-141). C02_move_and_copy_same_lists: the two differ only in the counter, and not if the moved-from one has none.",
 "C125": "Refuted: DistanceThreshold.cpp:115-120 marks nothing with allowMatchAlreadyMatchedGlobalPoints=true. C125_local_once_where: it holds when every matcher marks its local points.",
 "C126": "Refuted: the early exit uses only the metric threshold (DistanceThreshold.cpp:73-75). C126_angular_where: layer pairs whose boxes meet honour the whole bound; C10 covers the metric part always.",
 "C127": "Refuted for every input: only indices below the limit are shuffled (Matcher_Points_Base.cpp:224-232). C127_selected_where: exactly the first points, as many as the limit, are ever selected.",
 "C128": "Refuted with two workers; each worker alone never reuses a point (proved). Without parallelism C08 proves it.",
 "C129": "Refuted by a concrete cloud. C14_radius_search_same_without_angle proves it without angular threshold.",
 "C130": "Refuted: solvers reset their output first. C19 proves it when the last solve succeeds.",
 "C131": "Refuted by a concrete run. C20_stall_criterion is the criterion that holds.",
 "C132": "Refuted after 2^32 calls. C25_numbers_distinct proves it below 2^32 calls.",
 "C133": "Refuted: undefined behaviour exactly when no later sample exists (LocalVelocityBuffer.cpp:96-106).",
 "C134": "Refuted; the exact relation is C51.",
 "C135": "Refuted: ICP.cpp:236. C53 is the domain on which it holds.",
 "C136": "Refuted for every input with overlapping boxes. C136_out_of_range_where: undefined exactly when the limit takes effect and the boxes meet, success otherwise.",
 "C137": "Refuted: Pairings.cpp:51. C137_old_version_where: the counter is reset exactly when the object had none.",
 "C138": "Refuted: never written, read as the defaults. C138_parameters_back_where: they come back iff the checkpoints are the default ones and the environment does not force debug files.",
 "C139": "Refuted: LogRecord.h:87-92. C139_loads_where: every readable file is delivered.",
 "C140": "Refuted: metricmap.cpp:836-844. C140_georeferencing_where: right iff something was stored or the argument was empty.",
 "C141": "Refuted: FilterByIntensity.cpp:37-42 tests \"low\" twice and \"high\" never; empty clouds throw. C141_accepted_where / C141_filtered_where give the exact accepted configurations and result.",
 "C142": "Refuted. C142_deleted_where: on an error exactly the layers listed before the first missing one are gone; C142_nothing_lost_where: nothing is lost iff the first listed layer is the missing one.",
 "C143": "exact set of pairings and marks; success with room",
 "C144": "exact set of pairings and marks; success from three points on",
 "C147": "complete characterisation of the result, including when it fails",
 "C151": "mean, covariance, laws; the eigen-decomposition itself is a parameter",
 "C145": "Refuted: all the knn neighbours are fitted. C145_line_of_near_points_where: holds when minimumLinePoints >= knn.",
 "C146": "Refuted: minimumLinePoints = 2 is accepted and throws. C144_point_to_line_succeeds: it never fails with minimumLinePoints >= 3.",
 "C148": "Refuted: empty optionals are dereferenced. C147_adaptive_succeeds: no failure if some local point has a global point in range.",
 "C149": "Refuted: global points are never marked. C149_marked_before_where: points marked before the call are not taken.",
 "C150": "Refuted: the distance is that of the untransformed point. C150_plane_distance_where: the bound holds for the point in the local map.",
 "C152": "FilterCurvature, all clouds with ring ids up to 4998",
 "C153": {
  "note": "refuted for ring id 65535; proved below",
  "status": "partial"
 },
 "C154": {
  "note": "refuted for gaps after the point; proved for gaps before it",
  "status": "partial"
 },
 "C155": "FilterPoleDetector, any visiting order",
 "C156": {
  "note": "refuted; exact content of the outputs proved",
  "status": "partial"
 },
 "C157": {
  "note": "refuted at the axes; proved for non-negative coordinates",
  "status": "partial"
 },
 "C158": {
  "note": "refuted; exact condition proved",
  "status": "partial"
 },
 "C159": "FilterDecimateVoxelsQuadratic: exact output for every visiting order and all draws, plus refusals.",
 "C160": "Refuted for outputs with channels; plain outputs proved.",
 "C161": "Refuted for negative coordinates within the radius; proved elsewhere.",
 "C162": "All shape facts of real2grid.",
 "C163": "Refuted between radius/2 and radius; proved for non-negative spans within radius/2 or beyond the radius (C162: odd).",
 "C164": "Refuted when output and input share the name; proved when they differ.",
 "C165": "The target's insertObservation is an arbitrary function; a version for point clouds is also proved.",
 "C166": "Refuted for null target layers; proved otherwise.",
 "C167": "The occupancy grid of mrpt is an arbitrary type with arbitrary operations; the kept voxels are unique.",
 "C168": "Refuted; exact behaviour proved: an empty grid.",
 "C169": "Exact contents of the four layers and of the planes for an arbitrary eigen-solver.",
 "C170": "Refuted for maps with planes; proved for maps without.",
 "C171": "Refuted; exact condition of the exception proved.",
 "C172": "Refuted for decimation 0; proved otherwise.",
 "C173": "Refuted; the other container gives empty outputs, proved.",
 "C174": "Refuted; exact set of sampled voxels proved.",
 "C175": "Refuted; what is preserved on failure proved.",
 "C177": "Refuted: the layer is replaced (C177_where: the result does not depend on what it held).",
 "C180": "Refuted: undefined exactly when the scan has fewer than 8 columns or the range falls over a window (C180_where).",
 "C181": "Refuted: the layer is replaced (C181_where).",
 "C182": "Refuted: the edges object is stored under the planes name; both layers are always the same (C182_where).",
 "C183": "Refuted: null pointer without planes layer; with both layers undefined exactly when a row's last difference is negative and there are more than two blocks (C183_where).",
 "C186": "Refuted: the code moves the global cloud by the pose and the local cloud by its inverse. Proved where the pose is that of the global cloud in the local frame (the inverse of the documented meaning).",
 "C187": "Refuted: points behind the camera and points up to one pixel left of or above the image are drawn. Proved where there are none.",
 "C189": "Refuted: a point on the plane of the camera (x = 0), or coordinates outside int, give an undefined conversion. The exact domain is proved.",
 "C193": "Refuted: the code places global voxels with the resolution of the local map. Proved for maps of the same resolution.",
 "C185": "Real numbers; erf(x/sqrt 2) is any function phi with phi 0 = 0, values in [0,1] and positive for positive arguments.",
 "C191": "The geometry of Bonxai cells is any pair of functions with cell(position(c)) = c.",
 "C194": "The class registry, the initialisation of each class and the YAML scalar conversions are arbitrary functions.",
 "C195": "Refuted: the list is cleared first and the objects before the rejected entry stay. Exact content after a rejection proved (_where).",
 "C196": "Also for entries whose class, plugin or params would be rejected.",
 "C197": "The equivalence gives existence and uniqueness of the pipeline described.",
 "C198": "Refuted: the section is ignored when \"derived\" is present. Proved where there is no \"derived\".",
 "C199": "Both directions: what is accepted and with which result.",
 "C200": "Full equality of the parameters is false because of the checkpoints (C201).",
 "C201": "Refuted: save_to does not write them. Proved where the reader already has them.",
 "C202": "Empty pipelines included.",
 "C203": "Refuted: an empty list and zero weights are accepted. Proved where some entry is enabled and the weights are positive.",
 "C204": "File system and environment arbitrary.",
 "C205": "Refuted: only the class is looked up, although CHANGELOG.rst says all pipeline modules have the field. Proved where the class is already known.",
 "C206": "The text formats of stamps, twists and numbers are parameters; what is assumed of them is the record Readable, met by a concrete instance.",
 "C207": "Refuted: stamps equal at the printed precision collapse. Proved where the printed stamps differ.",
 "C208": "Refuted: fields are assigned as they are read. Proved where the rejection is at the first field.",
 "C209": "Eigen decomposition contract as a hypothesis on the matrix of the run; point weights: if given, no block starts at an outlier (C80).",
 "C210": "Refuted: pairs rejected by the second scale test are reported as outliers but stay in the centroids. C210_first_pass_outliers_have_no_influence_where: it does hold for pairs that fail the first test.",
 "C211": "",
 "C212": "",
 "C213": "The corners are accepted by the box constructor.",
 "C214": "Contract of mrpt changeCoordinatesReference() on the mean as a hypothesis.",
 "C215": "",
 "C216": "Contracts of changeCoordinatesReference() and of the optimiser as hypotheses; the latter is met, e.g., by the constant zero (ex_hyps).",
 "C217": "Refuted: the results of saveToFile(), saveToTextFile_TUM() and saveToRawLogFile() are ignored, so the exit code does not depend on which files can be written. C217_exit_code_where: it holds if every file can be written.",
 "C218": "",
 "C219": "Refuted: an observation with an invalid time stamp counts as one of the epoch. C219_first_time_where: it holds if every observation has a valid stamp.",
 "C220": "Simplification: if the loop fails midway, the partial twist file is not modelled.",
 "C221": "Refuted: of two keyframes with the same stamp only the last has a row. C221_every_keyframe_where: it holds for distinct stamps.",
 "C222": "Refuted: a frame without twist (or without stamp) has no row. C222_twist_rows_where: it holds if every frame has both, row i being that of frame i.",
 "C223": "",
 "C224": "Refuted by a path on a plane that misses the origin: the target height is that of the first keyframe before the rotation. C224_level_where: an ideal optimiser levels the path if some rotation brings every keyframe to the height of the first one.",
 "C225": "Refuted: a null observation before the first time stamp of its keyframe is dereferenced. C225_no_null_where: it holds if no observation is null.",
 "C226": "",
 "C227": "For the binary format; see C112/C113 for the YAML form.",
 "C228": "Refuted for stream constructors that do not throw (both behaviours are quantified over): the result of loading is ignored. C228_bad_map_where: it holds if the file can be opened or the constructor throws.",
 "C229": "Refuted: the result of save_to_file() is ignored. C229_exit_code_where: it holds if the map can be written or the stream constructor throws.",
 "C230": "Refuted: the map is overwritten in place. C230_crash_points_where: the only bad point is between truncation and completion of the write; all other files are intact.",
 "C231": "",
 "C232": "Refuted: with --pipeline the option --rename-layer is ignored. C232_pipeline_where and C231: each of them alone takes effect.",
 "C233": "",
 "C234": "Refuted if the output file is the input file. C234_input_intact_where: it holds if they differ.",
 "C235": "",
 "C236": "Refuted for stream constructors that do not throw: the result of loading is ignored. C236_bad_map_where: it holds if the file can be opened or the constructor throws.",
 "C237": "Refuted: the results of the writing functions are ignored. C237_exit_code_where: it holds if the files can be written.",
 "C238": "",
 "C239": "Refuted: the cloud is of a class without ring and time. C239_xyzirt_where: coordinates and intensities are right.",
 "C240": "Refuted: the layer is always \"raw\". C240_raw_layer_where: it holds for --layer raw.",
 "C241": "Refuted: a column beyond the row reads the next row or beyond the matrix. C241_columns_where: no undefined behaviour if the columns exist.",
 "C242": "Refuted: \".mm\" and \".icplog\" are looked for anywhere in the path. C242_input_kind_where: it holds if they only occur as extensions.",
 "C243": "",
 "C244": "Refuted: a fraction is truncated and a negative number is converted to size_t, which is undefined. C243_rawlog_entry covers the valid indices.",
 "C245": "Refuted: a single point is rejected. C245_load_xyz_where: it holds otherwise.",
 "C246": "",
 "C247": "Refuted: layers that are not point clouds are dropped. C247_all_layers_where: it holds if all are point clouds.",
 "C248": "",
 "C249": "C249_overflowing_weights_give_NaN shows that the condition on the sum is needed.",
 "C250": "",
 "C251": "Refuted: a width of at most 2^-128 (or one that overflows) gives NaN. C251_numbers_in_unit_interval_where: the exact condition; C251_fixed_range: with a fixed range.",
 "C252": "",
 "C253": "Refuted: with intensities 0 and 41 the brightest gets 1 - 2^-24. C253_brightest_gets_almost_one: at least 1 - 2^-24 always; C253_brightest_gets_one_where: exactly 1 if the width is a power of two.",
 "C254": "",
 "C255": "Refuted: rounding. C254 bounds the error; C255_time_differences_kept_where: exact if the stamps are positive and the latest is at most twice the earliest.",
 "C256": "",
 "C257": "",
 "C258": "",
 "C259": "",
 "C260": "Refuted: with resolution 0.1f the coordinate 0.5 lies below 5 resolutions and has index 5. C260_index_of_a_coordinate_where: it holds except in the last 2^-24 part of the voxel; C260_index_of_a_coordinate_or_the_next: there it is the next index at worst.",
 "C261": "",
 "C262": "Refuted: the mean of seven points at 3 is above 3. C262_mean_error_bound: the error bound; C262_mean_of_equal_points_where: exact for one or two points.",
 "C263": "",
 "C264": "Refuted: NaN if the square of the parameter underflows or overflows. The _where theorems: exactly then.",
 "C265": "",
 "C266": "Refuted if the square of the range overflows: with a maximum of 2^70 everything beyond 2^64 counts as inside. C266_clearly_outside_is_outside: it holds if it does not overflow; C266_clearly_inside_is_inside: always.",
 "C269": "refuted: C269_satisfied_pairs_hide_the_prior_refuted holds for every prior and both builds; C269_where: with pairs whose error exceeds maxCost the prior takes part in the step.",
 "C267": "MRPT's logarithm and jacob_dDinvP1invP2_de1e2 are parameters.",
 "C271": "refuted: C271_old_formula_comes_back_refuted (for every pair of values); C271_reconfigured_where: exact if no formula with variables was ever declared for the variable, with no restriction on the history.",
 "C272": "refuted: C272_left_out_changes_value_refuted; C272_left_out_where gives the exact set of kept values (exact numbers; the number parser of the expression library reads decimals exactly).",
 "C275": "refuted: C275_failed_load_refuted (for every configuration without robust_kernel whose first entries are readable); C275_failed_load_where bounds what a failed load can change.",
 "C279": "refuted: C279_empty_list_matches_by_name_refuted (for every accepted configuration with an empty list); C279_listed_only_where for non-empty lists.",
 "C282": "refuted: C282_documented_configuration_refuted (for every configuration without `threshold` and without reuse); C282_paired_ratio_where for accepted ones.",
 "C283": "refuted: C283_accepted_ratio_throws_refuted (for every ratio outside the interval and every pair of layers); C283_inlier_ratio_where characterises acceptance.",
 "C286": "refuted: C286_missing_class_accepted_refuted (for every accepted definition without class); C286_with_class_where.",
 "C287": "refuted: C287_old_sections_stay_refuted (for every pair of configurations); C287_named_entries_where for any number of calls.",
 "C288": "refuted: C288_dangling_formula_refuted (every section, key and formula of one variable); C288_first_initialize_where.",
 "C291": "refuted: C291_rejected_configuration_refuted (every such configuration, every map); C291_rejected_configuration_where says exactly when it stays usable.",
 "C295": "refuted: C295_flattening_is_never_switched_off_refuted, C295_twist_is_never_removed_refuted, C295_center_stays_refuted; C295_decimate_again_where is an equivalence.",
 "C297": "refuted: C297_rejected_twist_is_switched_on_refuted; C297_twist_where.",
 "C299": "refuted: C299_ring_without_outputs_refuted, C299_curvature_without_outputs_refuted, C299_occupancy_without_outputs_refuted; C299_outputs_where for the others.",
 "C300": "refuted: C300_aligned_refuted (concrete: off by more than 1 m with a perfect matcher); C300_aligned_where gives the pose for every guess and an equivalence.",
 "C301": "refuted: C301_failed_match_refuted (every guess); C301_failed_match_where gives the quality for every call.",
 "C304": "refuted for every accepted call: C304_no_pairings_no_covariance_refuted.",
 "C309": "refuted: C309_plugins_are_ignored_refuted (every run); C309_sm2mm_where says exactly when a map is written and which.",
 "C310": "refuted: C310_incomplete_input_refuted (every partial read that is not empty); C310_nothing_read_where.",
 "C311": "refuted: C311_unreadable_file_refuted; C311_mm_info_where gives the exact outcome.",
 "C313": "refuted: C313_line_options_ignored_refuted (every map); C313_lines_where.",
 "C315": "refuted: C315_point_size_of_another_layer_refuted (every pair of layers); C315_single_layer_where.",
 "C317": "refuted: C317_drawing_changes_the_map_refuted; C317_drawing_where is an equivalence.",
 "C319": "refuted for every set of pairings: C319_other_pairings_not_shown_refuted; C318 has the kinds that are shown.",
 "C322": "refuted: C322_reported_outlier_moves_the_pose_refuted (any linear solver); C322_first_pass_outliers_have_no_influence_where for pairs rejected by the first test.",
 "C323": "end to end: the models of the matcher (PointMatcherModel), the solver (HornModel), the evaluator (QualityModel) and the loop (IcpModel) composed; exact arithmetic, composePoint exact on the points for the guess and the true pose; no hook, no robust kernel, one layer.",
 "C324": "as C323, with OlaeModel.",
 "C325": "IEEE binary32 arithmetic with Flocq; induction over the history with the memory as invariant.",
 "C327": "refuted: a new ICP object with maxIterations = 0 dereferences a null attachedSource() (ICP.cpp 351). The where theorem: no other cause, if the first matcher is attached or an iteration is allowed.",
 "C329": "refuted: the copy shares the layer objects; holds exactly for functors that make new objects for the layers they change.",
 "C330": "refuted for labels with a dollar (std::regex_replace interprets the replacement text, and later passes expand placeholders in it); proved for labels without.",
 "C331": "refuted when the number is followed by a digit of a label; proved, for arbitrary labels, if it is the first placeholder and is followed by neither a digit nor a dollar (the default format is such).",
 "C332": "refuted: 64-bit identifiers are cut to 32 bits, and no identifier is shown as 0; proved for 32-bit identifiers.",
 "C333": "refuted: the record shares the layer objects; the where theorem is an equivalence.",
 "C334": "end to end as C323, any evaluators, hook and formulas; coordinates rational, solver over the reals, composePoint accurate up to eps (C334_exact: eps = 0). Per iteration the rounding may cost 4 n eps (threshold + eps). Assumes of the pairs in the run what C85 does: at least three, none within 0.1 mm of the centroids (such pairs are left out by the solver), correct eigenvectors.",
 "C335": "refuted: a local point whose nearest global point is taken by an earlier point is left out, and may be moved away from a perfect position (dense scan against a sparse map). The where theorem: no two local points compete for a global point during the run.",
 "C336": "refuted: a colour outside 0..255 is converted from float to an unsigned byte out of range, which is undefined behaviour; the where theorem: all colours between 0 and 255 (bounds given exactly). Anchored in the shipped tool.",
 "C337": "observation insertion itself (MRPT) is a parameter of the model; the theorem says which layer it is applied to, when, and with what effect on the rest of the map",
 "C338": "generators and filters are parameters; the trace of calls is explicit",
 "C339": "refuted: lines and planes add their error with the squared weight, while point pairs use the weight; point-to-plane pairs use the weight in the TBB build and its square without TBB, so the two builds stop at different iterations. C339_compared_error gives the exact value compared in each iteration (all classes, both builds); the where theorem: no kernel, class weights 0 or 1. Point pairs with the class weight (no individual weights); TBB schedules that lose no addition. C339_parallel_lines_undefined: the iterations that are undefined.",
 "C340": "proved in exact arithmetic: rounding of the sums, which does depend on the order, is outside the model.",
 "C341": "proved; C341_library_components_ignore_the_order shows that Horn, OLAE and the paired-ratio evaluator are order-free, C341_default_pipeline is the pipeline with one matcher. Exact arithmetic; the subsampling of the local points (maxLocalPointsPerLayer) must not act, since it picks positions.",
 "C342": "refuted: of two local points near one global point the first in the cloud gets it, even if the other one is nearer; the refutation is a run whose pose differs by 5 cm in one iteration. The where theorem: no two local points compete for a global point at the poses of the run (or sharing is allowed).",
 "C343": "proved for all pairings.",
 "C344": "refuted in one point: a map whose layers hold no points is not empty() and gets a blank summary without its layers. Proved: when it throws, what it shows of the head, lines, planes and metadata, and - where some layer has a point or a voxel or is of another class - the totals (that of size_points_only()) and each layer.",
 "C345": "refuted: the reason byte is not checked when it is read, and print() throws for the values 7..255; the where theorem gives the exact domain (<= 6), and C345_results_print shows that all results of align() print, also after a round trip.",
 "C346": "proved in exact arithmetic, relative to the contract of the eigenvector routine resp. the linear solver for the matrix of the run.",
 "C347": "refuted: pairs with an error below a quarter of the largest are left out of the step, however many; 6 pairs are fixed and 7 that fitted are broken, the sum grows from 6 to 7. The where theorem: the errors of each kind are within a factor of four of each other.",
 "C348": "proved in exact arithmetic, for pairings without individual point weights and without line-to-line pairings; the linear solver is assumed to solve the one system it is given.",
 "C349": "proved in exact arithmetic, relative to the contracts of the nearest neighbour search, the pose difference and the linear solver.",
 "C350": "proved in exact arithmetic for the solver; relative to a correct nearest neighbour search and eigen-decomposition of the systems of the run.",
 "C351": "refuted: with the default options, a run makes the sum of the squared distances grow, because the pairs whose global point is taken are dropped without replacement; C351_default_options_where proves it for the runs in which no kept pair is dropped.",
 "C352": "proved for the closed-form solvers (Horn, OLAE), whose answer depends on the pairs only; the Gauss-Newton solver starts from the current pose, so the statement does not apply to it.",
 "C353": "proved in exact arithmetic; relative to a correct eigen-decomposition.",
 "C354": "proved in exact arithmetic; relative to a correct nearest neighbour search and eigen-decomposition of the systems of the run.",
 "C355": "refuted as stated: FilterBoundingBox::filter does not call checkAllParametersAreRealized() and runs with the default box (C355_unevaluated_formulas_refuse_refuted, C355_box_ignores_it); proved for the filters by range, occupancy and time stamps, merge, slice, pole, decimation, deskew and the curvature generator (_where).",
 "C356": "proved in exact arithmetic, for CPose3D's difference of poses (the pose seen from the other), any norms of it, and without hook and checkpoints; relative to a correct nearest neighbour search and eigen-decomposition of the systems of both runs.",
 "C357": "proved as C356, for norms that do not depend on the axes.",
 "C358": "refuted as stated, for scans with an off-centre origin: the stalling test looks at the motion of the local origin, so a first correction that only turns the scan about it ends the run at iteration 0, while the same scan in a frame ten metres to the side is matched again. The _where theorem proves what holds for every rigid motion: the two runs have their searches (poses and pairs) in common as long as both last. C357 is the exact domain in which nothing changes (same origin).",
 "C359": "Matcher_Points_DistanceThreshold (relative threshold 0, one pair per point) with Horn's solver; the searches of the run have no ties and one best fit; the sizes of a motion (length, angle) are a function with the scaling property, shown for an example function; quality checkpoints off.",
 "C361": "coordinates as rationals; a layer that is not a cloud is what it converts to; the visiting order of the single-point grid is assumed to depend on the keys only (order_of_keys; the identity is an instance).",
 "C362": "refuted: the index of a coordinate is rounded towards zero (PointCloudToVoxelGrid.h 118), so the voxels on the coordinate planes are twice as wide as the others: two points 40 cm to both sides of the origin share a voxel of one metre there and nowhere else. The _where theorem is the domain: no coordinate changes its sign; then the voxels and their points are the same, the keys moved."
}