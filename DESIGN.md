# DESIGN

Formal model of MOLAorg/mp2p_icp (pinned commit in /repo) in Rocq (Coq 8.16.1).  `properties.jsonl` lists the
properties, `MANIFEST.json` maps them to theorems, `seeded/LOG.jsonl` records the wrong programs tried against the
theorems.  This file is generated by `tools/design.py` from `tools/design_head.md`, `tools/design_plan.md` and the
manifest.

## How the development is organised (rocq/theories)

| suffix | role |
|---|---|
| `*Model.v` | the code, function by function; each definition cites file and lines of /repo and its simplifications |
| `*Spec.v` | vocabulary used by the statements (few small definitions, no reference to the model's loops) |
| `*Proofs*.v` | lemmas |
| `*Props.v` | the theorems named `Cxx_...`, one `Print Assumptions` after each, and concrete cases that meet their hypotheses |

Conventions:
- `res A = Ok a | Throw | UB` (Base.v): a C++ exception is `Throw`, undefined behaviour (out-of-range index, null or
  end dereference) is `UB`, so "never undefined" is a provable statement.
- A theorem whose name ends in `_refuted` proves that the code violates the property: the opposite of its statement,
  either for all inputs of a class or on a concrete run of the model.  Such properties have status `partial`.  Where
  the code violates a natural property only on part of its domain, the property is split: one id for the exact domain on
  which it holds (`proved`), another for the failing part (`_refuted`).
- Where C++ gives no order (hash maps, thread schedules, random numbers), the model has a parameter and the theorem
  quantifies over it.
- External code (mrpt, Eigen, exprtk, TBB) is a parameter; what is assumed of it is a visible hypothesis of the theorem
  (e.g. `nn_correct`: the k-nearest search returns the k nearest; `spectral`: the symmetric eigen-solver returns an
  orthonormal eigenbasis), and a concrete instance beside the theorems shows that it can be met.

## Trusted base

1. **Coq's kernel** 8.16.1 (and `coqchk`, which vcheck runs), `coq_makefile`.  No kernel check is switched off, there is
   no axiom, parameter, Admitted, functor, module type or plugin of our own.
2. **Axioms** listed by `Print Assumptions`, all of the standard library (the table at the end has the list for each theorem):
   - `-`: closed under the global context;
   - `R2`: `ClassicalDedekindReals.sig_forall_dec`, `FunctionalExtensionality.functional_extensionality_dep`;
   - `R3`: those and `ClassicalDedekindReals.sig_not_dec`;
   - `R4`: those and `Classical_Prop.classic`.
   They come from the standard library's real numbers; theorems over naturals, integers and rationals use none.
3. **The reading of the C++**: that each model definition does what the cited lines do.
4. **Arithmetic**: floats and doubles are exact rationals (`Q`) or exact reals (`R`).  Rounding, NaN, infinities and
   overflow of `float`/`double` are outside every theorem, as is overflow of 32-bit voxel indices.  Serialization works on
   64-bit patterns, so nothing is assumed there.  Unsigned counters that the code lets wrap (debug-log number) are modelled
   with their wrap-around.
5. **Memory model**: threads are interleaved one memory access at a time (sequential consistency).  The theorems about
   parallel loops either show that the accesses never conflict (so there is no data race) or exhibit one.

## What is modelled

| model | code of /repo |
|---|---|
| PairingsModel | Pairings.cpp/.h: construction, push_back (copy, move), size, empty, contents counters, eval_centroids_robust |
| MatcherModel | Matcher.cpp: iteration window, run_matchers |
| BitfieldModel | pointcloud_bitfield.h, MatchState of Matcher.h |
| PointMatcherModel | Matcher_Points_Base.cpp, Matcher_Points_DistanceThreshold.cpp (sequential build), Matcher_Points_InlierRatio.cpp |
| ParallelModel | the TBB build of Matcher_Points_DistanceThreshold.cpp (ranges, schedule) |
| SolverModel, IcpModel, QualityModel | Solver.cpp, ICP.cpp align() loop, quality evaluation, QualityEvaluator_PairedRatio, debug-log numbering |
| VelocityModel | LocalVelocityBuffer.cpp: adding, pruning, trajectory reconstruction |
| CodecModel, SerialModel | serialization of Pairings, PairWeights, WeightParameters, Parameters, Results, LogRecord, metric_map_t, Georeferencing |
| FilterModel | FilterBoundingBox, ByRange, ByIntensity, ByRing, RemoveByVoxelOccupancy, DeleteLayer, AdjustTimestamps, NormalizeIntensity, GetOrCreatePointLayer, apply_filter_pipeline |
| VoxelModel | PointCloudToVoxelGrid(+Single), FilterDecimateVoxels, FilterDecimateAdaptive |
| GeomModel | errorTerms.cpp, robust_kernels.h, pt2ln_pl_to_pt2pt.cpp |
| VisitModel, HornModel, OlaeModel | visit_correspondences.h, optimal_tf_horn.cpp, optimal_tf_olae.cpp, Solver_Horn/OLAE |
| GnModel | optimal_tf_gauss_newton.cpp, Solver_GaussNewton.cpp |
| CovModel | covariance.cpp |
| ParamModel | Parameterizable.cpp/.h |
| DeskewModel | FilterDeskew.cpp |
| MapModel | metricmap.cpp: merge_with, empty, size, clone/copy, georeference as YAML |
| SmModel | Generator.cpp, sm2mm.cpp |
| FeatModel | estimate_points_eigen.cpp; Matcher_Point2Plane.cpp, Matcher_Point2Line.cpp, Matcher_Adaptive.cpp: one layer (the eigen-decomposition, the plane search and the statistics of mrpt are parameters) |
| CurvModel | FilterCurvature.cpp |
| PoleModel | FilterPoleDetector.cpp |
| QuadModel | FilterDecimateVoxelsQuadratic.cpp/.h |
| FMergeModel | FilterMerge.cpp; FilterVoxelSlice.cpp (insertObservation, the occupancy grid and the voxel map of mrpt are parameters) |
| EdgesModel | FilterEdgesPlanes.cpp (the eigen-solver of mrpt is a parameter) |
| EdgeGenModel | GeneratorEdgesFromCurvature.cpp; GeneratorEdgesFromRangeImage.cpp (the unprojection look-up table of mrpt is a parameter; the base class dispatch of the latter is in SmModel) |
| QEvalModel | QualityEvaluator_RangeImageSimilarity.cpp, QualityEvaluator_Voxels.cpp (evaluate; debug output and initialize dropped) |
| ConfigModel | icp_pipeline_from_yaml.cpp, ICP.cpp 481-606, Parameters.cpp load_from/save_to, FilterBase.cpp and Generator.cpp pipelines from YAML, load_plugin.cpp |
| VelYamlModel | LocalVelocityBuffer.cpp toYAML/fromYAML |
| SmCli | apps/sm-cli/*.cpp |
| MmTools | apps/mm-georef, mm-filter, mm2txt, txt2mm, kitti2mm main.cpp; metricmap.cpp save/load |
| IcpRun | apps/icp-run/main.cpp inputs, load_xyz_file.cpp, apps/rawlog-filter/main.cpp |
| Float | the floating point arithmetic of ICP::evaluate_quality, PairedRatio, robust_kernels.h, Matcher_Points_InlierRatio (count), FilterNormalizeIntensity, FilterAdjustTimestamps, FilterByRange, FilterDecimateVoxels (mean), coord2idx |
| GnPriorModel | mp2p_icp/src/optimal_tf_gauss_newton.cpp 310-341 (prior term) |
| InitModel.v | PairWeights.cpp 26-44, WeightParameters.cpp 70-90, Matcher.cpp 28-33, Solver.cpp 28-34, Solver_Horn.cpp 33-39, Solver_OLAE.cpp 31-37, Matcher_Points_Base.cpp 132-181, Matcher_Adaptive.cpp 32-57, Matcher_Point2Line.cpp 35-44, Matcher_Points_InlierRatio.cpp 34-39, Matcher_Points_DistanceThreshold.cpp 39-46, QualityEvaluator_PairedRatio.cpp 27-43, QualityEvaluator_Voxels.cpp 33-38 |
| GenInitModel.v | Generator.cpp 47-160 and 515-561, Generator.h 106-157 |
| FInitModel.v | initialize() of the filters: FilterDecimateVoxels.cpp 36-105, FilterDeleteLayer.cpp 28-72, FilterByRing.cpp 29-62, FilterBoundingBox.cpp 30-72, FilterByRange.cpp 30-65, FilterMerge.cpp 32-59, FilterDeskew.cpp 41-67, FilterByIntensity.cpp 29-54, FilterAdjustTimestamps.cpp 30-53, FilterNormalizeIntensity.cpp 30-52, FilterCurvature.cpp 30-50, FilterVoxelSlice.cpp 30-54, FilterPoleDetector.cpp 108-139, FilterRemoveByVoxelOccupancy.cpp 32-56, FilterDecimateAdaptive.cpp 31-57, FilterDecimateVoxelsQuadratic.cpp 30-60, FilterEdgesPlanes.cpp 29-56 |
| LpmModel.v, LpmSpec.v | ICP_LibPointmatcher.cpp 51-225, metricmap.cpp 437, 534-555, 750-766 |
| SanityModel.v | pointcloud_sanity_check.cpp 27-76 |
| CliAppsModel.v | apps/icp-run/main.cpp 114-136, 226-334; apps/sm2mm/main.cpp 82-153; apps/mm-info/main.cpp 35-65 |
| VisModel.v, VisSpec.v | metricmap.cpp 180-434, render_params.h, Pairings.cpp 176-276 |
| EndToEndModel.v | ICP.cpp:36-382, Matcher_Points_DistanceThreshold.cpp, Solver_Horn.cpp:41-64, Solver_OLAE.cpp:46-67, QualityEvaluator_PairedRatio.cpp:45-73 composed |
| LogFileModel.v | ICP.cpp:64-77, 322-468; LogRecord.cpp:82-98 |
| SummaryModel.v | mp2p_icp/src/Pairings.cpp (149-173), mp2p_icp_map/src/metricmap.cpp (557-648), mp2p_icp/src/Results.cpp (57-70), IterTermReason.h |
| PlaneSolveModel.v | mp2p_icp/src/pt2ln_pl_to_pt2pt.cpp (46-118), Solver_Horn.cpp (41-64), Solver_OLAE.cpp (46-67) |

## What is not modelled

Floating-point rounding, except in the Float models (C249-C266); the mrpt containers and nearest-neighbour trees; OpenGL (the objects `get_visualization`
creates are modelled, their rendering is not); log formatting, profiling; dynamic linking itself (load_plugin.cpp is modelled up to dlopen); libpointmatcher
(the wrapper ICP_LibPointmatcher is modelled, the library is a parameter); command-line parsing of the apps; the GUI programs mm-viewer and icp-log-viewer.  See the comment at the head of each model for local
simplifications.

## Plan per property

Each line: what is modelled and how it is proved.

| id | property | model and proof |
|---|---|---|
| C01 | Merging pairing sets keeps every pairing, in order | PairingsModel: record of five lists + weight blocks + counter; push_back by list append; direct proof. |
| C02 | Merging by move appends the same pairings as merging by copy | same model, move overload; equality refuted (counter overwritten, weights dropped), proved on the five lists. |
| C03 | Pairings survive serialization | byte-level codec (Codec.v: list of bytes, u8/u32/u64 little-endian, vectors with length prefix); round trip with arbitrary suffix, prefix rejection, version gate. |
| C04 | Robust centroids are the mean of the non-outlier pairs | eval_centroids_robust as the loop over indices with an outlier cursor; spec = sum over filtered index list. |
| C05 | A matcher only runs in its configured iteration window | decision rule as boolean function; iff statement. |
| C06 | run_matchers is the ordered concatenation of all matchers' outputs | run_matchers as a fold with oracle matchers; spec by independent recursive concatenation. |
| C07 | Distance-threshold pairings respect the configured bound | implMatchOneLayer (non-TBB) over integer coordinates with a nearest-neighbour oracle; invariant over the loop. |
| C08 | No global point is paired twice when re-matching is forbidden | invariant on match state: every paired global index is marked. |
| C09 | A local point marked by an earlier matcher is skipped by later ones | same loop; refuted for allowGlobal=true, proved for allowGlobal=false. |
| C10 | Distance-threshold matching is complete within the metric threshold | same loop, NN oracle specified as k nearest sorted. |
| C11 | Inlier-ratio matcher keeps the best fraction | sorted multimap as insertion sort; nKeep rounding; spec about order. |
| C12 | Layer selection and per-layer weights | impl_match over association lists of layers; weight block invariant. |
| C13 | Local cloud subsampling picks distinct points and a valid bounding box | transform_local_to_global with a permutation parameter; distinctness proved, "every point has a chance" refuted. |
| C14 | Parallel matching gives the sequential pairings when re-matching is allowed | interleaving semantics: each iteration is read/append/mark steps; refuted with a two-thread schedule, permutation invariance proved when re-matching is allowed. |
| C15 | Matched-point bookkeeping behaves as a set | both representations refine a set of indices. |
| C16 | A solver only runs in its configured window | gate with latch as state machine over call sequences. |
| C17 | Solver pipeline: first success wins | fold over solver oracles. |
| C18 | ICP always stops within the iteration budget and says why | align loop as fuelled recursion over oracle components, total result record; trace of events. |
| C19 | The returned pose is the last solution found, unless a solver fails | same; refuted on solver error (solver resets output), proved otherwise. |
| C20 | Stalling criterion | same; stall test as boolean over absolute components. |
| C21 | Quality checkpoints and hooks end ICP at once | same; trace shows no later call. |
| C22 | Returned pairings belong to the returned solution | same. |
| C23 | Overall quality is a weighted mean within [0,1] | weighted mean over rationals/reals. |
| C24 | Paired-ratio quality is a ratio in [0,1] | counts as naturals, ratio as real. |
| C25 | Debug-log numbering and decimation | atomic counter step, list of requests in any interleaving order. |
| C26 | Closed-form solvers give each pair its weight | cursor over weight blocks as in the visitor; spec = block index by prefix sums; refuted in presence of outliers at block boundaries, proved without outliers. |
| C27 | Robust kernels are proper down-weighting functions | real functions, stdlib Reals. |
| C28 | Residuals vanish exactly on perfect alignment | real geometry, algebra + sum of squares. |
| C29 | Analytic Jacobians are the derivatives of the residuals | real 12-vector algebra; exact affine expansion; line-to-line by derivative. |
| C30 | Gauss-Newton builds each inner iteration's normal equations afresh | inner loop with accumulators; two build flavours. |
| C31 | Covariance residual vector has one slot per residual | index layout as list of (slot) writes; refuted with line-to-line pairs, proved without. |
| C32 | Horn needs three pairs | gate on the number of pairs; wrapper resets the output first, refuted. |
| C33 | Line and plane pairings convert to genuine point pairs | projection algebra over reals, selection as loop over the sorted list. |
| C34 | Metric maps survive serialization across versions | codec for every version with abstract layer payload codec. |
| C35 | Merging maps adds up their contents | maps as association lists; merge as code order with exception outcome carrying the mutated state. |
| C36 | Map size and emptiness | same model. |
| C37 | The velocity buffer keeps exactly the recent window | sorted association list keyed by time, window pruning. |
| C38 | Trajectory reconstruction | iterator positions in a sorted list; end dereference as UB outcome. |
| C39 | Realised parameters always reflect the latest variables | parameter objects + environment + expression oracle; realize as state machine. |
| C40 | Bounding-box filter partitions the cloud | cloud as list of points, layers as association list; aliasing modelled. |
| C41 | Range, intensity and ring filters partition the cloud | same. |
| C42 | Voxel grids put each point in exactly one voxel | grid as association list keyed by integer triples; C++ truncating division modelled on integers. |
| C43 | Voxel decimation keeps one representative per occupied voxel | same grid, per-method selection; random choice as oracle. |
| C44 | Adaptive decimation outputs distinct input points, within its target, and at least one per voxel | round-robin loop with fuel. |
| C45 | Deleting layers removes exactly the listed layers | association list removal. |
| C46 | Timestamp adjustment preserves differences and absolute time | real lists. |
| C47 | Intensity normalisation stays in [0,1] and is monotone | real lists with memory state. |
| C48 | Filter pipelines run in order and stop on error | folds with outcome. |
| C49 | Deskewing gives one corrected point per input point, in any schedule | array write model with arbitrary permutation of iterations. |
| C50 | simplemap_to_metricmap processes exactly the requested key-frames | loop bounds, environment of variables. |
| C51 | Reported iteration count | IcpModel: align() as a fuelled loop over arbitrary components; induction on the iterations. |
| C52 | Iteration log holds exactly the decimated iterations and the stalled one | IcpModel: align() as a fuelled loop over arbitrary components; induction on the iterations. |
| C53 | align() fails only for its documented preconditions | IcpModel: align() as a fuelled loop over arbitrary components; induction on the iterations. Components arbitrary but never failing. |
| C54 | Configured layer weights reach the solver | PointMatcherModel with a nearest-neighbour search assumed correct; loop invariants on match state and output.; From C09, the layer completeness lemma and the subsampling lemmas; case split on the effective limit. Refuted in general: push_back ignores point_weights, so run_matchers always returns none. C54_weights_where: the weights survive exactly when the matchers attach none. |
| C55 | A matching run never reads or marks outside the maps | PointMatcherModel with a nearest-neighbour search assumed correct; loop invariants on match state and output. Whole runs from a fresh MatchState; invariant: every layer has a bit field of its size. |
| C56 | Potential pairings bound the pairings | PointMatcherModel with a nearest-neighbour search assumed correct; loop invariants on match state and output. Distance-threshold and inlier-ratio matchers. |
| C57 | Version-0 pairings read into a fresh object | SerialModel: byte-level codecs of every version; round trips, truncation, version gates. |
| C58 | ICP parameters survive serialization, but for the quality checkpoints | the encodable values characterised per class by lengths and ranges; round trip theorems restated on them; SerialModel: byte-level codecs of every version; round trips, truncation, version gates. External value codecs arbitrary. |
| C59 | Solver weight parameters survive serialization | the encodable values characterised per class by lengths and ranges; round trip theorems restated on them; SerialModel: byte-level codecs of every version; round trips, truncation, version gates. All versions; truncation; never undefined. |
| C60 | ICP results and log records survive serialization | the encodable values characterised per class by lengths and ranges; round trip theorems restated on them; SerialModel: byte-level codecs of every version; round trips, truncation, version gates. Parameters up to C58. |
| C61 | load_from_file reports every failure | SerialModel: byte-level codecs of every version; round trips, truncation, version gates. Any reader. |
| C62 | Georeferencing data survives serialization | SerialModel: byte-level codecs of every version; round trips, truncation, version gates. metric_map_t resets it before reading, so C34 holds. |
| C63 | Occupancy filter separates static from dynamic points | FilterModel: the loop over the input layer, aliasing of layers included; induction on the index. |
| C64 | Filters return also when the input layer is an output | FilterModel: the loop over the input layer, aliasing of layers included; induction on the index.; exact domain on which the refuted filter properties do hold: induction over the input points / layer names Refuted: bounding box and range filters re-read the growing input size at every step, so in-place use never returns once a point is routed to the input. For intensity and ring filters in-place use is covered by C41 (points appended once). In-place use is proved to terminate exactly when no point is routed to the input layer (C64_*_where). |
| C65 | Box and range filters accept exactly the configurations with an output | FilterModel: the loop over the input layer, aliasing of layers included; induction on the index. |
| C66 | A routing filter that throws loses nothing | FilterModel: the loop over the input layer, aliasing of layers included; induction on the index. |
| C67 | The time offset is added on top of the adjustment | FilterModel: filters that change a channel (time, intensity) as list maps with memory; proofs on min/max folds.; exact domain on which the refuted filter properties do hold: induction over the input points / layer names Refuted for the shift methods (the offset is subtracted; C46 gives the exact value -offset). C67_offset_where: Normalize puts the earliest point at the offset; the shift methods do so iff the offset is 0. |
| C68 | The full voxel grid works with the std::map flavour | VoxelModel: induction over the inserted points.; exact domain on which the refuted voxel-filter properties do hold: induction over the points and the voxel list Refuted: with the flag off nothing is ever reported (processing writes the other container). C68_reported_where: all points are reported iff the robin-map flag is on or there are no points. |
| C69 | The container flavour does not change what voxel decimation outputs | VoxelModel: grid as an association list with arbitrary visiting order; induction over the cloud.; exact domain on which the refuted voxel-filter properties do hold: induction over the points and the voxel list Refuted: all methods but FirstPoint write no point with the std::map flavour. C69_one_per_voxel_where: one point per voxel iff FirstPoint, robin map, or empty input. |
| C70 | Small clouds are passed through by every decimation method | VoxelModel: grid as an association list with arbitrary visiting order; induction over the cloud.; exact domain on which the refuted voxel-filter properties do hold: induction over the points and the voxel list Refuted for methods other than FirstPoint: copies the cloud, then throws. C70_succeeds_where: success iff FirstPoint or exactly one input layer is not small. |
| C71 | Missing optional inputs of voxel decimation are ignored | VoxelModel: grid as an association list with arbitrary visiting order; induction over the cloud. Refuted: throws when no input exists. |
| C72 | Adaptive decimation reaches its target when enough points are available | VoxelModel: the round-robin loop of FilterDecimateAdaptive with a per-voxel cursor; invariants over passes.; exact domain on which the refuted voxel-filter properties do hold: induction over the points and the voxel list Refuted: exact result for two voxels; 11 of 20 points on a concrete cloud. C72_target_reached_where gives the condition under which the target count is reached. |
| C73 | Adaptive decimation accepts any cloud | VoxelModel: the round-robin loop of FilterDecimateAdaptive with a per-voxel cursor; invariants over passes.; exact domain on which the refuted voxel-filter properties do hold: induction over the points and the voxel list Refuted: out-of-range read. C73_no_dense_voxel_where: nothing is added, without undefined behaviour, iff the output already had the target number of points. |
| C74 | Converting line/plane pairings keeps the existing point pairs | GeomModel: real algebra (nsatz, nra) and derivatives.; exact domain on which the refuted residual / weight properties do hold: case analysis, real arithmetic and induction over the pair list Refuted: the function builds its output from the line/plane pairings only, so existing point pairs are dropped. C74_output_where: every output pair comes from a line or plane pairing, at most one each. |
| C75 | The line-to-line residual vanishes on aligned lines | GeomModel: real algebra (nsatz, nra) and derivatives.; exact domain on which the refuted residual / weight properties do hold: case analysis, real arithmetic and induction over the pair list Refuted: the code rotates the local director with R transposed. C75_zero_where: coinciding lines give zero when the rotation and its transpose agree on the local director. |
| C76 | The line-to-line Jacobian is the derivative of its residual | GeomModel: real algebra (nsatz, nra) and derivatives.; exact domain on which the refuted residual / weight properties do hold: case analysis, real arithmetic and induction over the pair list; algebra on the Jacobian rows; bounds on the rounded quotient; acceptance of documents characterised by induction over the entries Refuted: the Jacobian is not the derivative of the code's residual, and the derivative of the norm has the wrong sign. C76_translation_where: the translation part is the derivative. |
| C77 | error_line2line sets every residual component | GeomModel: real algebra (nsatz, nra) and derivatives.; exact domain on which the refuted residual / weight properties do hold: case analysis, real arithmetic and induction over the pair list Refuted: only the first component is written for parallel lines. C77_all_set_where: all components are set iff the computed angle reaches the threshold. |
| C78 | Robust weights are the derivatives of a loss | GeomModel: robust kernels as real functions. Real-number model. |
| C79 | The Geman-McClure weight is that of the documented loss | exact domain on which the refuted residual / weight properties do hold: case analysis, real arithmetic and induction over the pair list; GeomModel: robust kernels as real functions. Refuted for every c other than 1: the documented loss has c^2 and no factor c. C79_documented_where: agreement iff c = 1 or the error is 0. |
| C80 | Weights are right when an outlier starts a block | exact domain on which the refuted residual / weight properties do hold: case analysis, real arithmetic and induction over the pair list; VisitModel: the walk over correspondences as the list of calls received by the lambda. Refuted: three one-pair blocks with pair 1 an outlier; pair 2 gets the weight of block 1. C80_weights_where: right if the blocks cover the points and no block after the first starts with an outlier. |
| C81 | Weighted and unweighted matchers can be mixed | exact domain on which the refuted residual / weight properties do hold: case analysis, real arithmetic and induction over the pair list; VisitModel: the walk over correspondences as the list of calls received by the lambda. Refuted: the block iterator is dereferenced at end (UB) for every uncovered pair. C81_defined_where: never undefined if the blocks cover the points and no later block starts with an outlier. |
| C82 | A zero class weight disables the class | exact domain on which the refuted residual / weight properties do hold: case analysis, real arithmetic and induction over the pair list; VisitModel: the walk over correspondences as the list of calls received by the lambda. Refuted: the assertion wi > 0 throws for every set holding such a pair. C82_no_such_pairs_where: with no such pair a zero weight gives the same result as any other. |
| C83 | pt2pt weight only without point_weights | exact domain on which the refuted residual / weight properties do hold: case analysis, real arithmetic and induction over the pair list; VisitModel: the walk over correspondences as the list of calls received by the lambda. Refuted: the block weight is multiplied by the class weight. C83_ratio_where: among point pairs the block weights decide alone; against lines the documented ratio holds iff the class weight is 1 (or the line weight 0). |
| C84 | Horn's rotation is optimal | HornModel: quaternion form and spectral decomposition; optimality over all rotations by real algebra. Assumes the contract of Eigen's symmetric eigen-solver for the matrix of the run (spectral); exact real arithmetic. |
| C85 | Horn is the least-squares pose for point pairs | HornModel: quaternion form and spectral decomposition; optimality over all rotations by real algebra. Assumes the contract of Eigen's symmetric eigen-solver for the matrix of the run (spectral); exact real arithmetic. |
| C86 | Horn recovers the exact pose of noiseless pairs | HornModel: quaternion form and spectral decomposition; optimality over all rotations by real algebra. Assumes the contract of Eigen's symmetric eigen-solver for the matrix of the run (spectral); exact real arithmetic. |
| C87 | A failing solver leaves the caller's result alone | HornModel: quaternion form and spectral decomposition; optimality over all rotations by real algebra.; Case analysis of the Horn solver on the pairings that make it fail, with the optimality lemmas of HornProofs.v. Refuted: the pose is reset to identity before solving. C87_pose_kept_where gives the domain on which it holds. |
| C88 | Horn accepts problems without point pairs | HornModel: quaternion form and spectral decomposition; optimality over all rotations by real algebra.; Case analysis of the Horn solver on the pairings that make it fail, with the optimality lemmas of HornProofs.v. Refuted: eval_centroids_robust throws for every set without point pairs. C88_succeeds_where gives the domain on which it holds. |
| C89 | Horn minimises the weighted squared error | HornModel: quaternion form and spectral decomposition; optimality over all rotations by real algebra.; Case analysis of the Horn solver on the pairings that make it fail, with the optimality lemmas of HornProofs.v. Refuted by a concrete pairing: the centroids are unweighted. C89_weighted_optimum_where gives the domain on which it holds. |
| C90 | OLAE recovers the exact pose of noiseless pairs | OlaeModel: linear systems of the four formulations; real algebra. Exact real arithmetic; linear solver is any function solving non-singular 3x3 systems (Cramer's rule is shown to be one). |
| C91 | OLAE is right also when two determinants tie | OlaeModel: linear systems of the four formulations; real algebra. Refuted: quarter turn about x of six axis points; plain and x systems tie, the code takes the singular z system. C90 is the domain on which it holds (one system with strictly largest determinant). |
| C92 | OLAE reports underdetermined problems | OlaeModel: linear systems of the four formulations; real algebra. Refuted: every single point pair gives true and a half turn about z. C90 is the domain on which the result is right. |
| C93 | Gauss-Newton without TBB also restarts its normal equations | GnModel: runs of the inner loop in both builds, schedules and racing additions.; GnModel: normal equations as folds; the fixed point and descent arguments by real algebra. The accumulation is proved for every run, the overshoot on a concrete run. C30_first_iteration_sequential: the first inner iteration of that build is right. |
| C94 | Individual point weights hold in every inner iteration | GnModel: runs of the inner loop in both builds, schedules and racing additions.; Induction over the inner iterations; the cursor over equal weights is constant, and a lossless race sums all contributions. Refuted by a concrete run. C94_equal_weights_where: right in every iteration if all blocks carry the same weight; C30: or without blocks. |
| C95 | Gauss-Newton's result does not depend on the thread schedule | GnModel: runs of the inner loop in both builds, schedules and racing additions. Refuted by two runs. C94_equal_weights_where and C30 hold for every schedule: equal weights or none. |
| C96 | Gauss-Newton never stops early because of a data race | GnModel: runs of the inner loop in both builds, schedules and racing additions.; Induction over the inner iterations; the cursor over equal weights is constant, and a lossless race sums all contributions. Refuted with an explicit interleaving semantics of the racing additions. C96_error_where: if no addition is lost the error tested is the weighted sum of squares in every iteration. |
| C97 | Gauss-Newton returns an exact starting pose unchanged | case analysis; GnModel: runs of the inner loop in both builds, schedules and racing additions. Exponential map and linear solver are parameters. |
| C98 | Each Gauss-Newton step minimises the linearised weighted squared error | GnModel: normal equations as folds; the fixed point and descent arguments by real algebra. Hypothesis: the linear solver solved the systems of this run. |
| C99 | Covariance with both lines and planes sets every slot | CovModel: the residual vector as slots written in order; index arithmetic. Refuted for every such pairing set. C31 is the domain on which it holds (no line pairs together with plane pairs). |
| C100 | Covariance is evaluated at the given pose | CovModel: the residual vector as slots written in order; index arithmetic. Refuted for every pose. The theorem also proves that the other five coordinates are right. |
| C101 | realize() is memory-safe and all-or-nothing | ParamModel: state machine of declare/attach/update/realize; invariants over all histories. As C39. |
| C102 | Parameters may be declared at any time | ParamModel: state machine of declare/attach/update/realize; invariants over all histories. Refuted by a concrete history. C101 is the domain on which it holds. |
| C103 | realize() can be retried once the missing variable is defined | ParamModel: state machine of declare/attach/update/realize; invariants over all histories. Refuted for any value an uncompiled expression may evaluate to. C39/C101 are the domain on which it holds (no failed realize before). |
| C104 | Deskewing keeps the fields of every point | DeskewModel: iterations as programs of memory accesses, any interleaving; simulation argument. The opposite is proved for every point at the origin. C49 proves it for every point not at the origin. |
| C105 | Precise deskewing uses the linear velocity and falls back to constant velocity | DeskewModel: iterations as programs of memory accesses, any interleaving; simulation argument. The opposite is proved. C49_constant_twist proves the translation for the other mode. |
| C106 | Deskewing refuses inputs it cannot handle | DeskewModel: iterations as programs of memory accesses, any interleaving; simulation argument. |
| C107 | A deskewing call that throws leaves the map as it was; a missing input is an error | DeskewModel: iterations as programs of memory accesses, any interleaving; simulation argument. The opposite is proved. C49_completes and C106 give the calls that succeed or throw. |
| C108 | A merge that throws changes nothing | MapModel: maps over a heap of shared layer objects; induction on the layers.; Computation of the map operations on the arguments for which nothing is lost. Refuted: the opposite is proved. C108_planes_where and C108_layer_where give the domain on which it holds. |
| C109 | All maps can be merged | MapModel: maps over a heap of shared layer objects; induction on the layers.; Computation of the map operations on the arguments for which nothing is lost. Refuted: the opposite is proved. C109_merges_where gives the domain on which it holds. |
| C110 | empty() and size() look at the contents of layers | MapModel: maps over a heap of shared layer objects; induction on the layers.; Computation of the map operations on the arguments for which nothing is lost. Refuted: the opposite is proved. C110_empty_where gives the domain on which it holds. |
| C111 | A cloned map is independent | MapModel: maps over a heap of shared layer objects; induction on the layers.; Computation of the map operations on the arguments for which nothing is lost. Refuted: the opposite is proved. C111_independent_where gives the domain on which it holds. |
| C112 | Georeference as YAML | MapModel: maps over a heap of shared layer objects; induction on the layers. Values are exact numbers (the text of a number is not modelled) |
| C113 | Georeference as YAML keeps the orientation | MapModel: maps over a heap of shared layer objects; induction on the layers.; Computation of the map operations on the arguments for which nothing is lost. Refuted: the opposite is proved. C113_rotation_kept_where gives the domain on which it holds. |
| C114 | Point cloud observations are appended to the target layer | SmModel: the generators and the key-frame loop of sm2mm over arbitrary observations. |
| C115 | Generators change nothing but their target layer | SmModel: the generators and the key-frame loop of sm2mm over arbitrary observations. |
| C116 | Key-frames without twist do not use the twist of another key-frame | SmModel: the generators and the key-frame loop of sm2mm over arbitrary observations.; Case analysis over the pipeline steps of sm2mm and the simple-map generators. Refuted: the opposite is proved. C116_default_twist_where gives the domain on which it holds. |
| C117 | Any end_index is valid | SmModel: the generators and the key-frame loop of sm2mm over arbitrary observations.; Case analysis over the pipeline steps of sm2mm and the simple-map generators. Refuted: the opposite is proved. C117_end_index_where gives the domain on which it holds. |
| C118 | Final filters can use variables | SmModel: the generators and the key-frame loop of sm2mm over arbitrary observations.; Case analysis over the pipeline steps of sm2mm and the simple-map generators. Refuted: the opposite is proved. C118_final_filters_run_where and C118_no_formulas_where give the domain on which it holds. |
| C119 | An empty list of generators is an error | SmModel: the generators and the key-frame loop of sm2mm over arbitrary observations. |
| C120 | IMU readings go to the velocity buffer | SmModel: the generators and the key-frame loop of sm2mm over arbitrary observations. |
| C121 | An unusable IMU reading has no effect | SmModel: the generators and the key-frame loop of sm2mm over arbitrary observations.; Case analysis over the pipeline steps of sm2mm and the simple-map generators. Refuted: the opposite is proved. C121_existing_layer_where gives the domain on which it holds. |
| C122 | A skipped observation has no effect on custom maps | SmModel: the generators and the key-frame loop of sm2mm over arbitrary observations.; Case analysis over the pipeline steps of sm2mm and the simple-map generators. Refuted: the opposite is proved. C122_existing_layer_where gives the domain on which it holds. |
| C123 | Every generator sees every observation | induction over sensory frames and generators with an explicit schedule of calls; case analysis per observation kind; invariant over the key-frame loop for the errors; SmModel: the generators and the key-frame loop of sm2mm over arbitrary observations. |
| C124 | Merging by copy and by move give the same object | PairingsModel: lists and counters. Refuted by a concrete pair of objects (Pairings.cpp:123-141). C02_move_and_copy_same_lists: the two differ only in the counter, and not if the moved-from one has none. |
| C125 | A matched local point is skipped whatever the other flags are | PointMatcherModel with a nearest-neighbour search assumed correct; loop invariants on match state and output.; From C09, the layer completeness lemma and the subsampling lemmas; case split on the effective limit. Refuted: DistanceThreshold.cpp:115-120 marks nothing with allowMatchAlreadyMatchedGlobalPoints=true. C125_local_once_where: it holds when every matcher marks its local points. |
| C126 | The angular part of the bound is honoured | PointMatcherModel with a nearest-neighbour search assumed correct; loop invariants on match state and output.; From C09, the layer completeness lemma and the subsampling lemmas; case split on the effective limit. Refuted: the early exit uses only the metric threshold (DistanceThreshold.cpp:73-75). C126_angular_where: layer pairs whose boxes meet honour the whole bound; C10 covers the metric part always. |
| C127 | Every point has a chance of being subsampled | PointMatcherModel with a nearest-neighbour search assumed correct; loop invariants on match state and output.; From C09, the layer completeness lemma and the subsampling lemmas; case split on the effective limit. Refuted for every input: only indices below the limit are shuffled (Matcher_Points_Base.cpp:224-232). C127_selected_where: exactly the first points, as many as the limit, are ever selected. |
| C128 | Parallel matching never pairs a global point twice when forbidden | ParallelModel: interleavings of the workers of the TBB build. Refuted with two workers; each worker alone never reuses a point (proved). Without parallelism C08 proves it. |
| C129 | The TBB build finds the same neighbours with an angular threshold | ParallelModel: interleavings of the workers of the TBB build. Refuted by a concrete cloud. C14_radius_search_same_without_angle proves it without angular threshold. |
| C130 | A solver error does not lose the last solution | IcpModel: align() as a fuelled loop over arbitrary components; induction on the iterations. Refuted: solvers reset their output first. C19 proves it when the last solve succeeds. |
| C131 | Stalling means one small step | IcpModel: align() as a fuelled loop over arbitrary components; induction on the iterations. Refuted by a concrete run. C20_stall_criterion is the criterion that holds. |
| C132 | Log numbers never repeat | IcpModel: align() as a fuelled loop over arbitrary components; induction on the iterations. Refuted after 2^32 calls. C25_numbers_distinct proves it below 2^32 calls. |
| C133 | Trajectory reconstruction never reads outside the buffer | VelocityModel: sorted association lists, all histories. Refuted: undefined behaviour exactly when no later sample exists (LocalVelocityBuffer.cpp:96-106). |
| C134 | Reported iteration count is the number of executed iterations | IcpModel: align() as a fuelled loop over arbitrary components; induction on the iterations. Refuted; the exact relation is C51. |
| C135 | Requesting iteration details is safe | IcpModel: align() as a fuelled loop over arbitrary components; induction on the iterations. Refuted: ICP.cpp:236. C53 is the domain on which it holds. |
| C136 | Limiting the number of local points is safe | PointMatcherModel with a nearest-neighbour search assumed correct; loop invariants on match state and output.; From C09, the layer completeness lemma and the subsampling lemmas; case split on the effective limit. Refuted for every input with overlapping boxes. C136_out_of_range_where: undefined exactly when the limit takes effect and the boxes meet, success otherwise. |
| C137 | Version-0 pairings read the same whatever object they are read into | SerialModel: byte-level codecs of every version; round trips, truncation, version gates.; From the round-trip lemmas of SerialProofs.v, with the exact value read back. Refuted: Pairings.cpp:51. C137_old_version_where: the counter is reset exactly when the object had none. |
| C138 | Quality checkpoints survive serialization | SerialModel: byte-level codecs of every version; round trips, truncation, version gates.; From the round-trip lemmas of SerialProofs.v, with the exact value read back. Refuted: never written, read as the defaults. C138_parameters_back_where: they come back iff the checkpoints are the default ones and the environment does not force debug files. |
| C139 | LoadFromFile throws on errors | SerialModel: byte-level codecs of every version; round trips, truncation, version gates.; From the round-trip lemmas of SerialProofs.v, with the exact value read back. Refuted: LogRecord.h:87-92. C139_loads_where: every readable file is delivered. |
| C140 | Reading georeferencing replaces the previous value | SerialModel: byte-level codecs of every version; round trips, truncation, version gates.; From the round-trip lemmas of SerialProofs.v, with the exact value read back. Refuted: metricmap.cpp:836-844. C140_georeferencing_where: right iff something was stored or the argument was empty. |
| C141 | The intensity filter accepts any output and empty clouds | FilterModel: the loop over the input layer, aliasing of layers included; induction on the index.; exact domain on which the refuted filter properties do hold: induction over the input points / layer names Refuted: FilterByIntensity.cpp:37-42 tests "low" twice and "high" never; empty clouds throw. C141_accepted_where / C141_filtered_where give the exact accepted configurations and result. |
| C142 | Deleting layers is all or nothing | FilterModel: the loop over the input layer, aliasing of layers included; induction on the index.; exact domain on which the refuted filter properties do hold: induction over the input points / layer names Refuted. C142_deleted_where: on an error exactly the layers listed before the first missing one are gone; C142_nothing_lost_where: nothing is lost iff the first listed layer is the missing one. |
| C143 | Point-to-plane matching pairs exactly the points that have a plane in range | FeatModel: the visiting loops are reduced to one generic loop over the points that take part, then induction. exact set of pairings and marks; success with room |
| C144 | Point-to-line matching pairs exactly the points whose neighbours form a line | FeatModel: the visiting loops are reduced to one generic loop over the points that take part, then induction. exact set of pairings and marks; success from three points on |
| C145 | A line is fitted only to neighbours within the threshold | FeatModel: the visiting loops are reduced to one generic loop over the points that take part, then induction.; From the exact results C144 and C147: counting the near neighbours, inspecting the accepted planes and pairs. Refuted: all the knn neighbours are fitted. C145_line_of_near_points_where: holds when minimumLinePoints >= knn. |
| C146 | Accepted point-to-line parameters never make matching throw | FeatModel: the visiting loops are reduced to one generic loop over the points that take part, then induction. Refuted: minimumLinePoints = 2 is accepted and throws. C144_point_to_line_succeeds: it never fails with minimumLinePoints >= 3. |
| C147 | Adaptive matching: planes or thresholded nearest points, exactly | FeatModel: invariant of the table of neighbours, sortedness turns break into filter, induction over the table. complete characterisation of the result, including when it fails |
| C148 | Adaptive matching of maps with nothing in range is safe | FeatModel: invariant of the table of neighbours, sortedness turns break into filter, induction over the table. Refuted: empty optionals are dereferenced. C147_adaptive_succeeds: no failure if some local point has a global point in range. |
| C149 | Adaptive matching does not reuse a global point when forbidden | FeatModel: invariant of the table of neighbours, sortedness turns break into filter, induction over the table.; From the exact results C144 and C147: counting the near neighbours, inspecting the accepted planes and pairs. Refuted: global points are never marked. C149_marked_before_where: points marked before the call are not taken. |
| C150 | Adaptive matching pairs only with planes near the point | FeatModel: invariant of the table of neighbours, sortedness turns break into filter, induction over the table.; From the exact results C144 and C147: counting the near neighbours, inspecting the accepted planes and pairs. Refuted: the distance is that of the untransformed point. C150_plane_distance_where: the bound holds for the point in the local map. |
| C151 | estimate_points_eigen returns the mean and covariance | FeatModel: sums over lists, permutations. mean, covariance, laws; the eigen-decomposition itself is a parameter |
| C152 | FilterCurvature gives every kept point one class | CurvModel: FilterCurvature as a fold over each ring, square roots avoided by exact sign tests; invariant of the thinning, class relation with real distances. FilterCurvature, all clouds with ring ids up to 4998 |
| C153 | FilterCurvature handles every ring id | CurvModel: FilterCurvature as a fold over each ring, square roots avoided by exact sign tests; invariant of the thinning, class relation with real distances. refuted for ring id 65535; proved below |
| C154 | Near borders of gaps count as large curvature | CurvModel: FilterCurvature as a fold over each ring, square roots avoided by exact sign tests; invariant of the thinning, class relation with real distances. refuted for gaps after the point; proved for gaps before it |
| C155 | FilterPoleDetector sends each column to one output | PoleModel: FilterPoleDetector with an association-list grid and arbitrary visiting order; invariant of the grid built so far. FilterPoleDetector, any visiting order |
| C156 | Poles and no-poles together are the input | PoleModel: FilterPoleDetector with an association-list grid and arbitrary visiting order; invariant of the grid built so far. refuted; exact content of the outputs proved |
| C157 | Pole columns are grid_size wide | PoleModel: FilterPoleDetector with an association-list grid and arbitrary visiting order; invariant of the grid built so far. refuted at the axes; proved for non-negative coordinates |
| C158 | FilterPoleDetector has no undefined behaviour | PoleModel: FilterPoleDetector with an association-list grid and arbitrary visiting order; invariant of the grid built so far. refuted; exact condition proved |
| C159 | FilterDecimateVoxelsQuadratic: one point per quadratic voxel | QuadModel: FilterDecimateVoxelsQuadratic on top of the voxel grid model; the lattice coordinate is characterised by a small relation; algebra for its shape. FilterDecimateVoxelsQuadratic: exact output for every visiting order and all draws, plus refusals. |
| C160 | FilterDecimateVoxelsQuadratic keeps the channels of the points it keeps | QuadModel: FilterDecimateVoxelsQuadratic on top of the voxel grid model; the lattice coordinate is characterised by a small relation; algebra for its shape. Refuted for outputs with channels; plain outputs proved. |
| C161 | Quadratic lattice coordinates invert | QuadModel: FilterDecimateVoxelsQuadratic on top of the voxel grid model; the lattice coordinate is characterised by a small relation; algebra for its shape. Refuted for negative coordinates within the radius; proved elsewhere. |
| C162 | The quadratic lattice coordinate is a proper coordinate | QuadModel: FilterDecimateVoxelsQuadratic on top of the voxel grid model; the lattice coordinate is characterised by a small relation; algebra for its shape. All shape facts of real2grid. |
| C163 | Quadratic voxels are not narrower than the resolution | QuadModel: FilterDecimateVoxelsQuadratic on top of the voxel grid model; the lattice coordinate is characterised by a small relation; algebra for its shape. Refuted between radius/2 and radius; proved for non-negative spans within radius/2 or beyond the radius (C162: odd). |
| C164 | FilterDecimateVoxelsQuadratic reports a missing input layer | QuadModel: FilterDecimateVoxelsQuadratic on top of the voxel grid model; the lattice coordinate is characterised by a small relation; algebra for its shape. Refuted when output and input share the name; proved when they differ. |
| C165 | FilterMerge puts each point where it belongs | FMergeModel: FilterMerge and FilterVoxelSlice with the target map's insertion and the grid's update as arbitrary functions; induction over points and voxels. The target's insertObservation is an arbitrary function; a version for point clouds is also proved. |
| C166 | FilterMerge has no undefined behaviour | FMergeModel: FilterMerge and FilterVoxelSlice with the target map's insertion and the grid's update as arbitrary functions; induction over points and voxels. Refuted for null target layers; proved otherwise. |
| C167 | FilterVoxelSlice takes exactly the voxels that meet the slice | FMergeModel: FilterMerge and FilterVoxelSlice with the target map's insertion and the grid's update as arbitrary functions; induction over points and voxels. The occupancy grid of mrpt is an arbitrary type with arbitrary operations; the kept voxels are unique. |
| C168 | FilterVoxelSlice slices colour voxel maps | FMergeModel: FilterMerge and FilterVoxelSlice with the target map's insertion and the grid's update as arbitrary functions; induction over points and voxels. Refuted; exact behaviour proved: an empty grid. |
| C169 | FilterEdgesPlanes classifies every populated voxel | EdgesModel: FilterEdgesPlanes with an arbitrary eigen-solver; fold over the visited voxels, each contributing a piece specified by small relations. Exact contents of the four layers and of the planes for an arbitrary eigen-solver. |
| C170 | plane_centroids matches the planes of the map | EdgesModel: FilterEdgesPlanes with an arbitrary eigen-solver; fold over the visited voxels, each contributing a piece specified by small relations. Refuted for maps with planes; proved for maps without. |
| C171 | FilterEdgesPlanes accepts every cloud | EdgesModel: FilterEdgesPlanes with an arbitrary eigen-solver; fold over the visited voxels, each contributing a piece specified by small relations. Refuted; exact condition of the exception proved. |
| C172 | FilterEdgesPlanes terminates | EdgesModel: FilterEdgesPlanes with an arbitrary eigen-solver; fold over the visited voxels, each contributing a piece specified by small relations. Refuted for decimation 0; proved otherwise. |
| C173 | use_tsl_robin_map does not change the result of FilterEdgesPlanes | EdgesModel: FilterEdgesPlanes with an arbitrary eigen-solver; fold over the visited voxels, each contributing a piece specified by small relations. Refuted; the other container gives empty outputs, proved. |
| C174 | full_decim samples every occupied voxel | EdgesModel: FilterEdgesPlanes with an arbitrary eigen-solver; fold over the visited voxels, each contributing a piece specified by small relations. Refuted; exact set of sampled voxels proved. |
| C175 | FilterEdgesPlanes is exception safe | EdgesModel: FilterEdgesPlanes with an arbitrary eigen-solver; fold over the visited voxels, each contributing a piece specified by small relations. Refuted; what is preserved on failure proved. |
| C176 | The curvature edge generator outputs exactly the corners | EdgeGenModel: images as functions on pixels, loops as flat maps, fixed-point statistics on integers with int64 overflow explicit; telescoping sums, bounds, and lists of pixels in reading order. |
| C177 | The curvature edge generator keeps earlier points | EdgeGenModel: images as functions on pixels, loops as flat maps, fixed-point statistics on integers with int64 overflow explicit; telescoping sums, bounds, and lists of pixels in reading order. Refuted: the layer is replaced (C177_where: the result does not depend on what it held). |
| C178 | The curvature edge generator ignores the other observations | EdgeGenModel: images as functions on pixels, loops as flat maps, fixed-point statistics on integers with int64 overflow explicit; telescoping sums, bounds, and lists of pixels in reading order. |
| C179 | The range-image edge generator outputs exactly the significant pixels | EdgeGenModel: images as functions on pixels, loops as flat maps, fixed-point statistics on integers with int64 overflow explicit; telescoping sums, bounds, and lists of pixels in reading order. |
| C180 | The range-image edge generator is defined on every rotating scan | EdgeGenModel: images as functions on pixels, loops as flat maps, fixed-point statistics on integers with int64 overflow explicit; telescoping sums, bounds, and lists of pixels in reading order. Refuted: undefined exactly when the scan has fewer than 8 columns or the range falls over a window (C180_where). |
| C181 | The range-image edge generator keeps earlier points | EdgeGenModel: images as functions on pixels, loops as flat maps, fixed-point statistics on integers with int64 overflow explicit; telescoping sums, bounds, and lists of pixels in reading order. Refuted: the layer is replaced (C181_where). |
| C182 | Plane points of 3D scans go to the planes layer | EdgeGenModel: images as functions on pixels, loops as flat maps, fixed-point statistics on integers with int64 overflow explicit; telescoping sums, bounds, and lists of pixels in reading order. Refuted: the edges object is stored under the planes name; both layers are always the same (C182_where). |
| C183 | The range-image edge generator is defined on every 3D scan | EdgeGenModel: images as functions on pixels, loops as flat maps, fixed-point statistics on integers with int64 overflow explicit; telescoping sums, bounds, and lists of pixels in reading order. Refuted: null pointer without planes layer; with both layers undefined exactly when a row's last difference is negative and there are more than two blocks (C183_where). |
| C184 | Edges of 3D scans | EdgeGenModel: images as functions on pixels, loops as flat maps, fixed-point statistics on integers with int64 overflow explicit; telescoping sums, bounds, and lists of pixels in reading order. |
| C185 | Range image quality is a quality | QEvalModel: range images as functions on pixels with squared rational ranges, fold over the points with the nearest-point invariant; the mean as a sum over pixels in the reals; phi abstract. Real numbers; erf(x/sqrt 2) is any function phi with phi 0 = 0, values in [0,1] and positive for positive arguments. |
| C186 | Registered clouds score 1 | QEvalModel: range images as functions on pixels with squared rational ranges, fold over the points with the nearest-point invariant; the mean as a sum over pixels in the reals; phi abstract. Refuted: the code moves the global cloud by the pose and the local cloud by its inverse. Proved where the pose is that of the global cloud in the local frame (the inverse of the documented meaning). |
| C187 | Range images show what is in view | QEvalModel: range images as functions on pixels with squared rational ranges, fold over the points with the nearest-point invariant; the mean as a sum over pixels in the reals; phi abstract. Refuted: points behind the camera and points up to one pixel left of or above the image are drawn. Proved where there are none. |
| C188 | Nearest range per pixel, mean over pixels | QEvalModel: range images as functions on pixels with squared rational ranges, fold over the points with the nearest-point invariant; the mean as a sum over pixels in the reals; phi abstract. |
| C189 | Range image quality is always defined | QEvalModel: range images as functions on pixels with squared rational ranges, fold over the points with the nearest-point invariant; the mean as a sum over pixels in the reals; phi abstract. Refuted: a point on the plane of the camera (x = 0), or coordinates outside int, give an undefined conversion. The exact domain is proved. |
| C190 | Voxel quality is a quality | QEvalModel: voxel maps as lists of cells, the terms of the sum are characterised as the losses of the compared pairs; bounds of the mean; monotonicity of the logistic function. |
| C191 | A voxel map matches itself | QEvalModel: voxel maps as lists of cells, the terms of the sum are characterised as the losses of the compared pairs; bounds of the mean; monotonicity of the logistic function. The geometry of Bonxai cells is any pair of functions with cell(position(c)) = c. |
| C192 | Agreement and contradiction of voxels | QEvalModel: voxel maps as lists of cells, the terms of the sum are characterised as the losses of the compared pairs; bounds of the mean; monotonicity of the logistic function. |
| C193 | Voxel quality is symmetric | QEvalModel: voxel maps as lists of cells, the terms of the sum are characterised as the losses of the compared pairs; bounds of the mean; monotonicity of the logistic function. Refuted: the code places global voxels with the resolution of the local map. Proved for maps of the same resolution. |
| C194 | Solvers, matchers and quality evaluators are as configured | ConfigModel: YAML trees, a state monad over the set of loaded plugins; class registry, initialisers and scalar conversions arbitrary; loops by induction on the entries against relational specifications (ConfigSpec). The class registry, the initialisation of each class and the YAML scalar conversions are arbitrary functions. |
| C195 | A rejected configuration leaves the previous objects in place | ConfigModel: YAML trees, a state monad over the set of loaded plugins; class registry, initialisers and scalar conversions arbitrary; loops by induction on the entries against relational specifications (ConfigSpec). Refuted: the list is cleared first and the objects before the rejected entry stay. Exact content after a rejection proved (_where). |
| C196 | Disabled entries have no effect | ConfigModel: YAML trees, a state monad over the set of loaded plugins; class registry, initialisers and scalar conversions arbitrary; loops by induction on the entries against relational specifications (ConfigSpec). Also for entries whose class, plugin or params would be rejected. |
| C197 | icp_pipeline_from_yaml builds the pipeline described | ConfigModel: YAML trees, a state monad over the set of loaded plugins; class registry, initialisers and scalar conversions arbitrary; loops by induction on the entries against relational specifications (ConfigSpec). The equivalence gives existence and uniqueness of the pipeline described. |
| C198 | The "params" section is honoured | ConfigModel: YAML trees, a state monad over the set of loaded plugins; class registry, initialisers and scalar conversions arbitrary; loops by induction on the entries against relational specifications (ConfigSpec). Refuted: the section is ignored when "derived" is present. Proved where there is no "derived". |
| C199 | Parameters::load_from sets what is given and nothing else | ConfigModel: YAML trees, a state monad over the set of loaded plugins; class registry, initialisers and scalar conversions arbitrary; loops by induction on the entries against relational specifications (ConfigSpec). Both directions: what is accepted and with which result. |
| C200 | Saved parameters load back | ConfigModel: YAML trees, a state monad over the set of loaded plugins; class registry, initialisers and scalar conversions arbitrary; loops by induction on the entries against relational specifications (ConfigSpec). Full equality of the parameters is false because of the checkpoints (C201). |
| C201 | Quality checkpoints survive saving | ConfigModel: YAML trees, a state monad over the set of loaded plugins; class registry, initialisers and scalar conversions arbitrary; loops by induction on the entries against relational specifications (ConfigSpec). Refuted: save_to does not write them. Proved where the reader already has them. |
| C202 | Filter and generator pipelines are as configured | ConfigModel: YAML trees, a state monad over the set of loaded plugins; class registry, initialisers and scalar conversions arbitrary; loops by induction on the entries against relational specifications (ConfigSpec). Empty pipelines included. |
| C203 | Accepted pipelines can be evaluated | ConfigModel: YAML trees, a state monad over the set of loaded plugins; class registry, initialisers and scalar conversions arbitrary; loops by induction on the entries against relational specifications (ConfigSpec). Refuted: an empty list and zero weights are accepted. Proved where some entry is enabled and the weights are positive. |
| C204 | Plugin resolution | ConfigModel: YAML trees, a state monad over the set of loaded plugins; class registry, initialisers and scalar conversions arbitrary; loops by induction on the entries against relational specifications (ConfigSpec). File system and environment arbitrary. |
| C205 | The "plugin" field of generator entries is loaded | ConfigModel: YAML trees, a state monad over the set of loaded plugins; class registry, initialisers and scalar conversions arbitrary; loops by induction on the entries against relational specifications (ConfigSpec). Refuted: only the class is looked up, although CHANGELOG.rst says all pipeline modules have the field. Proved where the class is already known. |
| C206 | A velocity buffer written as YAML is read back | algebra on the Jacobian rows; bounds on the rounded quotient; acceptance of documents characterised by induction over the entries; VelYamlModel: YAML trees of the buffer; round trip by induction on the sorted entries; text formats as parameters with stated laws. The text formats of stamps, twists and numbers are parameters; what is assumed of them is the record Readable, met by a concrete instance. |
| C207 | No buffer entry is lost in the YAML | VelYamlModel: YAML trees of the buffer; round trip by induction on the sorted entries; text formats as parameters with stated laws. Refuted: stamps equal at the printed precision collapse. Proved where the printed stamps differ. |
| C208 | A rejected buffer document changes nothing | VelYamlModel: YAML trees of the buffer; round trip by induction on the sorted entries; text formats as parameters with stated laws. Refuted: fields are assigned as they are read. Proved where the rejection is at the first field. |
| C209 | Horn: outliers found by the scale test are left out | Second pass of Horn: the centroid loop with a sorted list of outliers is shown to skip exactly them (induction with the cursor invariant of the walk); C210 is refuted by five pairs on a line for every eigen decomposition, and proved for first-pass outliers by extensionality of the walk. Eigen decomposition contract as a hypothesis on the matrix of the run; point weights: if given, no block starts at an outlier (C80). |
| C210 | Horn: reported outliers do not influence the pose | Second pass of Horn: the centroid loop with a sorted list of outliers is shown to skip exactly them (induction with the cursor invariant of the walk); C210 is refuted by five pairs on a line for every eigen decomposition, and proved for first-pass outliers by extensionality of the walk. Refuted: pairs rejected by the second scale test are reported as outliers but stay in the centroids. C210_first_pass_outliers_have_no_influence_where: it does hold for pairs that fail the first test. |
| C211 | sm-cli cut keeps the range | Each command is unfolded over an arbitrary map (induction over the keyframes); from_ypr is shown to be a rotation from sin2+cos2=1; C217 by showing that the exit code commutes with every write; C224 by the row norm of a rotation matrix. |
| C212 | sm-cli: cut in two and join gives the map back | Each command is unfolded over an arbitrary map (induction over the keyframes); from_ypr is shown to be a rotation from sin2+cos2=1; C217 by showing that the exit code commutes with every write; C224 by the row norm of a rotation matrix. |
| C213 | sm-cli trim keeps the box | Each command is unfolded over an arbitrary map (induction over the keyframes); from_ypr is shown to be a rotation from sin2+cos2=1; C217 by showing that the exit code commutes with every write; C224 by the row norm of a rotation matrix. The corners are accepted by the box constructor. |
| C214 | sm-cli tf moves the whole map | Each command is unfolded over an arbitrary map (induction over the keyframes); from_ypr is shown to be a rotation from sin2+cos2=1; C217 by showing that the exit code commutes with every write; C224 by the row norm of a rotation matrix. Contract of mrpt changeCoordinatesReference() on the mean as a hypothesis. |
| C215 | sm-cli join concatenates | Each command is unfolded over an arbitrary map (induction over the keyframes); from_ypr is shown to be a rotation from sin2+cos2=1; C217 by showing that the exit code commutes with every write; C224 by the row norm of a rotation matrix. |
| C216 | sm-cli level only rotates about the origin | Each command is unfolded over an arbitrary map (induction over the keyframes); from_ypr is shown to be a rotation from sin2+cos2=1; C217 by showing that the exit code commutes with every write; C224 by the row norm of a rotation matrix. Contracts of changeCoordinatesReference() and of the optimiser as hypotheses; the latter is met, e.g., by the constant zero (ex_hyps). |
| C217 | sm-cli: exit code 0 means that the output was written | computed exit codes over all command lines classes; case analysis on the reader's outcome; Each command is unfolded over an arbitrary map (induction over the keyframes); from_ypr is shown to be a rotation from sin2+cos2=1; C217 by showing that the exit code commutes with every write; C224 by the row norm of a rotation matrix. Refuted: the results of saveToFile(), saveToTextFile_TUM() and saveToRawLogFile() are ignored, so the exit code does not depend on which files can be written. C217_exit_code_where: it holds if every file can be written. |
| C218 | sm-cli info reports the map | Induction over keyframes and observations with invariants: sorted association lists for the label table and the trajectory, the bounding box and the extreme time stamps of a prefix. |
| C219 | sm-cli info: first time stamp | Induction over keyframes and observations with invariants: sorted association lists for the label table and the trajectory, the bounding box and the extreme time stamps of a prefix. Refuted: an observation with an invalid time stamp counts as one of the epoch. C219_first_time_where: it holds if every observation has a valid stamp. |
| C220 | sm-cli export-keyframes | Induction over keyframes and observations with invariants: sorted association lists for the label table and the trajectory, the bounding box and the extreme time stamps of a prefix. Simplification: if the loop fails midway, the partial twist file is not modelled. |
| C221 | sm-cli export-keyframes: one row per keyframe | Induction over keyframes and observations with invariants: sorted association lists for the label table and the trajectory, the bounding box and the extreme time stamps of a prefix. Refuted: of two keyframes with the same stamp only the last has a row. C221_every_keyframe_where: it holds for distinct stamps. |
| C222 | sm-cli export-keyframes: one twist row per frame | Induction over keyframes and observations with invariants: sorted association lists for the label table and the trajectory, the bounding box and the extreme time stamps of a prefix. Refuted: a frame without twist (or without stamp) has no row. C222_twist_rows_where: it holds if every frame has both, row i being that of frame i. |
| C223 | sm-cli export-rawlog | Induction over keyframes and observations with invariants: sorted association lists for the label table and the trajectory, the bounding box and the extreme time stamps of a prefix. |
| C224 | sm-cli level makes a levelable path horizontal | Each command is unfolded over an arbitrary map (induction over the keyframes); from_ypr is shown to be a rotation from sin2+cos2=1; C217 by showing that the exit code commutes with every write; C224 by the row norm of a rotation matrix. Refuted by a path on a plane that misses the origin: the target height is that of the first keyframe before the rotation. C224_level_where: an ideal optimiser levels the path if some rotation brings every keyframe to the height of the first one. |
| C225 | sm-cli export-rawlog copes with null observations | Induction over keyframes and observations with invariants: sorted association lists for the label table and the trajectory, the bounding box and the extreme time stamps of a prefix. Refuted: a null observation before the first time stamp of its keyframe is dereferenced. C225_no_null_where: it holds if no observation is null. |
| C226 | mm-georef injection sets only the georeferencing | computed exit codes over all command lines classes; case analysis on the reader's outcome; A file system with explicit write steps (truncate, complete): each program is unfolded over an arbitrary one, crash points are prefixes of the list of steps; association lists for layers. |
| C227 | mm-georef: extract, then inject | A file system with explicit write steps (truncate, complete): each program is unfolded over an arbitrary one, crash points are prefixes of the list of steps; association lists for layers. For the binary format; see C112/C113 for the YAML form. |
| C228 | mm-georef never replaces a map that it could not read | computed exit codes over all command lines classes; case analysis on the reader's outcome; A file system with explicit write steps (truncate, complete): each program is unfolded over an arbitrary one, crash points are prefixes of the list of steps; association lists for layers. Refuted for stream constructors that do not throw (both behaviours are quantified over): the result of loading is ignored. C228_bad_map_where: it holds if the file can be opened or the constructor throws. |
| C229 | mm-georef: exit code 0 means that the map was written | A file system with explicit write steps (truncate, complete): each program is unfolded over an arbitrary one, crash points are prefixes of the list of steps; association lists for layers. Refuted: the result of save_to_file() is ignored. C229_exit_code_where: it holds if the map can be written or the stream constructor throws. |
| C230 | mm-georef: an interrupted injection keeps the map | A file system with explicit write steps (truncate, complete): each program is unfolded over an arbitrary one, crash points are prefixes of the list of steps; association lists for layers. Refuted: the map is overwritten in place. C230_crash_points_where: the only bad point is between truncation and completion of the write; all other files are intact. |
| C231 | mm-filter renames a layer | A file system with explicit write steps (truncate, complete): each program is unfolded over an arbitrary one, crash points are prefixes of the list of steps; association lists for layers. |
| C232 | mm-filter: --rename-layer with --pipeline | A file system with explicit write steps (truncate, complete): each program is unfolded over an arbitrary one, crash points are prefixes of the list of steps; association lists for layers. Refuted: with --pipeline the option --rename-layer is ignored. C232_pipeline_where and C231: each of them alone takes effect. |
| C233 | mm-filter: exit code and files | A file system with explicit write steps (truncate, complete): each program is unfolded over an arbitrary one, crash points are prefixes of the list of steps; association lists for layers. |
| C234 | mm-filter: an interrupted run keeps the input map | A file system with explicit write steps (truncate, complete): each program is unfolded over an arbitrary one, crash points are prefixes of the list of steps; association lists for layers. Refuted if the output file is the input file. C234_input_intact_where: it holds if they differ. |
| C235 | mm2txt exports the layers | A file system with explicit write steps (truncate, complete): each program is unfolded over an arbitrary one, crash points are prefixes of the list of steps; association lists for layers. |
| C236 | mm2txt fails on a map that cannot be read | A file system with explicit write steps (truncate, complete): each program is unfolded over an arbitrary one, crash points are prefixes of the list of steps; association lists for layers. Refuted for stream constructors that do not throw: the result of loading is ignored. C236_bad_map_where: it holds if the file can be opened or the constructor throws. |
| C237 | mm2txt: exit code 0 means that the text was written | A file system with explicit write steps (truncate, complete): each program is unfolded over an arbitrary one, crash points are prefixes of the list of steps; association lists for layers. Refuted: the results of the writing functions are ignored. C237_exit_code_where: it holds if the files can be written. |
| C238 | txt2mm imports one point per row | Row-major matrix lemma (element (i, j) of the concatenated rows is the j-th of row i) and induction over the rows. |
| C239 | txt2mm --format xyzirt keeps ring and time | Row-major matrix lemma (element (i, j) of the concatenated rows is the j-th of row i) and induction over the rows. Refuted: the cloud is of a class without ring and time. C239_xyzirt_where: coordinates and intensities are right. |
| C240 | txt2mm and kitti2mm honour --layer | Row-major matrix lemma (element (i, j) of the concatenated rows is the j-th of row i) and induction over the rows. Refuted: the layer is always "raw". C240_raw_layer_where: it holds for --layer raw. |
| C241 | txt2mm rejects columns that do not exist | Row-major matrix lemma (element (i, j) of the concatenated rows is the j-th of row i) and induction over the rows. Refuted: a column beyond the row reads the next row or beyond the matrix. C241_columns_where: no undefined behaviour if the columns exist. |
| C242 | icp-run chooses the kind of input by the extension | Substring search is characterised (first occurrence); induction over the entries of the rawlog. Refuted: ".mm" and ".icplog" are looked for anywhere in the path. C242_input_kind_where: it holds if they only occur as extensions. |
| C243 | icp-run: an entry of a rawlog | Substring search is characterised (first occurrence); induction over the entries of the rawlog. |
| C244 | icp-run rejects wrong rawlog indices | Substring search is characterised (first occurrence); induction over the entries of the rawlog. Refuted: a fraction is truncated and a negative number is converted to size_t, which is undefined. C243_rawlog_entry covers the valid indices. |
| C245 | load_xyz_file accepts any file with points | case analysis; Substring search is characterised (first occurrence); induction over the entries of the rawlog. Refuted: a single point is rejected. C245_load_xyz_where: it holds otherwise. |
| C246 | rawlog-filter: one frame per observation | Substring search is characterised (first occurrence); induction over the entries of the rawlog. |
| C247 | rawlog-filter: every layer is in the output | Substring search is characterised (first occurrence); induction over the entries of the rawlog. Refuted: layers that are not point clouds are dropped. C247_all_layers_where: it holds if all are point clouds. |
| C248 | rawlog-filter: a failure keeps the frames before it | Substring search is characterised (first occurrence); induction over the entries of the rawlog. |
| C249 | The overall quality is a number between 0 and 1, rounding included | induction over the history: the memory holds the extremes of all intensities seen; then rounding is monotone, so the division and the clamp keep the order and the unit interval; errors by case analysis; IEEE-754 numbers of Flocq; the value of each operation is the rounded exact value, saturated at infinity (FloatBase.v), and rounding is monotone: induction over the evaluators with 0 <= sum of products <= sum of weights. C249_overflowing_weights_give_NaN shows that the condition on the sum is needed. |
| C250 | The ratio of paired points is a number between 0 and 1, rounding included | IEEE-754 numbers of Flocq; the value of each operation is the rounded exact value, saturated at infinity (FloatBase.v), and rounding is monotone: induction over the evaluators with 0 <= sum of products <= sum of weights. |
| C251 | Normalised intensities are numbers between 0 and 1 | induction over the history: the memory holds the extremes of all intensities seen; then rounding is monotone, so the division and the clamp keep the order and the unit interval; errors by case analysis; Monotonicity of rounding; exact threshold at which 1/width overflows (floats are multiples of 2^-149); relative error of one division. Refuted: a width of at most 2^-128 (or one that overflows) gives NaN. C251_numbers_in_unit_interval_where: the exact condition; C251_fixed_range: with a fixed range. |
| C252 | Normalising intensities keeps the order | Monotonicity of rounding; exact threshold at which 1/width overflows (floats are multiples of 2^-149); relative error of one division. |
| C253 | The brightest point gets intensity 1 | Monotonicity of rounding; exact threshold at which 1/width overflows (floats are multiples of 2^-149); relative error of one division. Refuted: with intensities 0 and 41 the brightest gets 1 - 2^-24. C253_brightest_gets_almost_one: at least 1 - 2^-24 always; C253_brightest_gets_one_where: exactly 1 if the width is a power of two. |
| C254 | EarliestIsZero: the earliest stamp becomes 0, the others follow in order | induction over the history: the memory holds the extremes of all intensities seen; then rounding is monotone, so the division and the clamp keep the order and the unit interval; errors by case analysis; Monotonicity of rounding, relative error of a difference (holds without underflow condition), Sterbenz, tie to even at 1 + 2^-24. |
| C255 | Adjusting the stamps keeps the time between points | Monotonicity of rounding, relative error of a difference (holds without underflow condition), Sterbenz, tie to even at 1 + 2^-24. Refuted: rounding. C254 bounds the error; C255_time_differences_kept_where: exact if the stamps are positive and the latest is at most twice the earliest. |
| C256 | MiddleIsZero: zero lies between the first and the last stamp | Monotonicity of rounding, relative error of a difference (holds without underflow condition), Sterbenz, tie to even at 1 + 2^-24. |
| C257 | Normalize: stamps between 0 and 1 | Monotonicity of rounding, relative error of a difference (holds without underflow condition), Sterbenz, tie to even at 1 + 2^-24. |
| C258 | EarliestIsZero twice is the same as once | Monotonicity of rounding, relative error of a difference (holds without underflow condition), Sterbenz, tie to even at 1 + 2^-24. |
| C259 | The voxel index of a coordinate | Truncation of a rounded quotient; induction over the sum for the accumulated error ((1+u)^n - 1). |
| C260 | A coordinate in [k r, (k+1) r) has index k | Truncation of a rounded quotient; induction over the sum for the accumulated error ((1+u)^n - 1). Refuted: with resolution 0.1f the coordinate 0.5 lies below 5 resolutions and has index 5. C260_index_of_a_coordinate_where: it holds except in the last 2^-24 part of the voxel; C260_index_of_a_coordinate_or_the_next: there it is the next index at worst. |
| C261 | Points of one voxel are close | Truncation of a rounded quotient; induction over the sum for the accumulated error ((1+u)^n - 1). |
| C262 | The mean of equal points is that point | Truncation of a rounded quotient; induction over the sum for the accumulated error ((1+u)^n - 1). Refuted: the mean of seven points at 3 is above 3. C262_mean_error_bound: the error bound; C262_mean_of_equal_points_where: exact for one or two points. |
| C263 | Matcher_Points_InlierRatio never keeps more pairings than there are | Monotonicity of rounding with saturation, division by infinity; error bounds propagated through the six operations of the squared distance. |
| C264 | Robust kernel weights are numbers between 0 and 1 | Monotonicity of rounding with saturation, division by infinity; error bounds propagated through the six operations of the squared distance. Refuted: NaN if the square of the parameter underflows or overflows. The _where theorems: exactly then. |
| C265 | Robust kernels: full weight without error, never more weight for a larger error | Monotonicity of rounding with saturation, division by infinity; error bounds propagated through the six operations of the squared distance. |
| C266 | FilterByRange classifies by distance | Monotonicity of rounding with saturation, division by infinity; error bounds propagated through the six operations of the squared distance. Refuted if the square of the range overflows: with a maximum of 2^70 everything beyond 2^64 counts as inside. C266_clearly_outside_is_outside: it holds if it does not overflow; C266_clearly_inside_is_inside: always. |
| C267 | A prior enters the normal equations of every Gauss-Newton iteration | the prior term is separated from an iteration without prior (iter_drop), matrix algebra, then the loop by induction on the fuel MRPT's logarithm and jacob_dDinvP1invP2_de1e2 are parameters. |
| C268 | With a prior each Gauss-Newton step minimises the joint linearised error | the prior term is separated from an iteration without prior (iter_drop), matrix algebra, then the loop by induction on the fuel |
| C269 | A prior always pulls the solution | the prior term is separated from an iteration without prior (iter_drop), matrix algebra, then the loop by induction on the fuel refuted: C269_satisfied_pairs_hide_the_prior_refuted holds for every prior and both builds; C269_where: with pairs whose error exceeds maxCost the prior takes part in the step. |
| C270 | Gauss-Newton descends along the derivative of the error over rigid motions | every residual is affine in the 12 numbers of the pose (C29), whose derivative along a curve is computed component by component; sums over the pairs by induction |
| C271 | Configuring a component again replaces its formulas | invariant of one variable over histories of calls; rounding to millionths by its floor refuted: C271_old_formula_comes_back_refuted (for every pair of values); C271_reconfigured_where: exact if no formula with variables was ever declared for the variable, with no restriction on the history. |
| C272 | Optional formula parameters left out keep their value | invariant of one variable over histories of calls; rounding to millionths by its floor refuted: C272_left_out_changes_value_refuted; C272_left_out_where gives the exact set of kept values (exact numbers; the number parser of the expression library reads decimals exactly). |
| C273 | Weight parameters are those of the configuration | loaders as sequences of read, required and optional entries; inversion and construction of successful loads; induction over the list of layer entries |
| C274 | Saved weight parameters load back | loaders as sequences of read, required and optional entries; inversion and construction of successful loads; induction over the list of layer entries |
| C275 | A load that throws changes nothing | loaders as sequences of read, required and optional entries; inversion and construction of successful loads; induction over the list of layer entries refuted: C275_failed_load_refuted (for every configuration without robust_kernel whose first entries are readable); C275_failed_load_where bounds what a failed load can change. |
| C276 | A matcher runs in its configured window of iterations | loaders as sequences of read, required and optional entries; inversion and construction of successful loads; induction over the list of layer entries |
| C277 | A solver is tried in its configured window of iterations | loaders as sequences of read, required and optional entries; inversion and construction of successful loads; induction over the list of layer entries |
| C278 | Point matchers: layers and limits are those of the configuration | loaders as sequences of read, required and optional entries; inversion and construction of successful loads; induction over the list of layer entries |
| C279 | A matcher with an empty list of layers matches none | loaders as sequences of read, required and optional entries; inversion and construction of successful loads; induction over the list of layer entries refuted: C279_empty_list_matches_by_name_refuted (for every accepted configuration with an empty list); C279_listed_only_where for non-empty lists. |
| C280 | Matcher_Adaptive accepts exactly its documented parameters | loaders as sequences of read, required and optional entries; inversion and construction of successful loads; induction over the list of layer entries |
| C281 | Matcher_Point2Line accepts exactly its documented parameters | loaders as sequences of read, required and optional entries; inversion and construction of successful loads; induction over the list of layer entries |
| C282 | The paired ratio evaluator is configured as documented | loaders as sequences of read, required and optional entries; inversion and construction of successful loads; induction over the list of layer entries refuted: C282_documented_configuration_refuted (for every configuration without `threshold` and without reuse); C282_paired_ratio_where for accepted ones. |
| C283 | An accepted inlier ratio can be matched with | loaders as sequences of read, required and optional entries; inversion and construction of successful loads; induction over the list of layer entries refuted: C283_accepted_ratio_throws_refuted (for every ratio outside the interval and every pair of layers); C283_inlier_ratio_where characterises acceptance. |
| C284 | Generators accept exactly the documented configurations | invariant of the two loops over the entries (cells are fresh, keys sorted), refinement to the INI block, composition with C39 on histories of parameter updates |
| C285 | The map of a generator is made from its definition | invariant of the two loops over the entries (cells are fresh, keys sorted), refinement to the INI block, composition with C39 on histories of parameter updates |
| C286 | An accepted map definition can be used | invariant of the two loops over the entries (cells are fresh, keys sorted), refinement to the INI block, composition with C39 on histories of parameter updates refuted: C286_missing_class_accepted_refuted (for every accepted definition without class); C286_with_class_where. |
| C287 | Initialising again replaces the map definition | invariant of the two loops over the entries (cells are fresh, keys sorted), refinement to the INI block, composition with C39 on histories of parameter updates refuted: C287_old_sections_stay_refuted (for every pair of configurations); C287_named_entries_where for any number of calls. |
| C288 | Formulas of a map definition point to live memory | invariant of the two loops over the entries (cells are fresh, keys sorted), refinement to the INI block, composition with C39 on histories of parameter updates refuted: C288_dangling_formula_refuted (every section, key and formula of one variable); C288_first_initialize_where. |
| C289 | process() requires a successful initialize() | invariant of the two loops over the entries (cells are fresh, keys sorted), refinement to the INI block, composition with C39 on histories of parameter updates |
| C290 | Decimation and deletion filters are configured exactly as written | every loader as an equivalence with a relation between entries, old and new state; preservation lemmas over sequences of loaders; composition with the routing theorems C40, C41, C45 |
| C291 | A rejected configuration leaves the decimation filter usable | every loader as an equivalence with a relation between entries, old and new state; preservation lemmas over sequences of loaders; composition with the routing theorems C40, C41, C45 refuted: C291_rejected_configuration_refuted (every such configuration, every map); C291_rejected_configuration_where says exactly when it stays usable. |
| C292 | The ring filter selects the listed rings | every loader as an equivalence with a relation between entries, old and new state; preservation lemmas over sequences of loaders; composition with the routing theorems C40, C41, C45 |
| C293 | The bounding box filter uses the configured box | every loader as an equivalence with a relation between entries, old and new state; preservation lemmas over sequences of loaders; composition with the routing theorems C40, C41, C45 |
| C294 | The range filter uses the configured ranges and center | every loader as an equivalence with a relation between entries, old and new state; preservation lemmas over sequences of loaders; composition with the routing theorems C40, C41, C45 |
| C295 | Initialising a filter again replaces its configuration | every loader as an equivalence with a relation between entries, old and new state; preservation lemmas over sequences of loaders; composition with the routing theorems C40, C41, C45 refuted: C295_flattening_is_never_switched_off_refuted, C295_twist_is_never_removed_refuted, C295_center_stays_refuted; C295_decimate_again_where is an equivalence. |
| C296 | Merge poses and twists are read in order | every loader as an equivalence with a relation between entries, old and new state; preservation lemmas over sequences of loaders; composition with the routing theorems C40, C41, C45 |
| C297 | A rejected twist is not used | every loader as an equivalence with a relation between entries, old and new state; preservation lemmas over sequences of loaders; composition with the routing theorems C40, C41, C45 refuted: C297_rejected_twist_is_switched_on_refuted; C297_twist_where. |
| C298 | Every other filter is configured exactly as written | every loader as an equivalence with a relation between entries, old and new state; preservation lemmas over sequences of loaders; composition with the routing theorems C40, C41, C45 |
| C299 | An accepted filter configuration has somewhere to put the points | every loader as an equivalence with a relation between entries, old and new state; preservation lemmas over sequences of loaders; composition with the routing theorems C40, C41, C45 refuted: C299_ring_without_outputs_refuted, C299_curvature_without_outputs_refuted, C299_occupancy_without_outputs_refuted; C299_outputs_where for the others. |
| C300 | The libpointmatcher wrapper returns the pose that aligns the clouds | case analysis of the call into one inversion lemma, then geometry over the reals: triangle inequality, isometry of rotations refuted: C300_aligned_refuted (concrete: off by more than 1 m with a perfect matcher); C300_aligned_where gives the pose for every guess and an equivalence. |
| C301 | A failed match is reported | case analysis of the call into one inversion lemma, then geometry over the reals: triangle inequality, isometry of rotations refuted: C301_failed_match_refuted (every guess); C301_failed_match_where gives the quality for every call. |
| C302 | When the libpointmatcher wrapper accepts maps | case analysis of the call into one inversion lemma, then geometry over the reals: triangle inequality, isometry of rotations |
| C303 | Every point takes part in the alignment | case analysis of the call into one inversion lemma, then geometry over the reals: triangle inequality, isometry of rotations |
| C304 | Pairings and uncertainty describe the alignment | case analysis of the call into one inversion lemma, then geometry over the reals: triangle inequality, isometry of rotations refuted for every accepted call: C304_no_pairings_no_covariance_refuted. |
| C305 | The debug record describes the call | case analysis of the call into one inversion lemma, then geometry over the reals: triangle inequality, isometry of rotations |
| C306 | The consistency check finds every wrong channel | each block as a function of the channel's completeness, then cases |
| C307 | icp-run aligns the maps it is told to, as configured | inversion of the chain of steps into a relational specification, in both directions; induction over the inputs for the cache |
| C308 | icp-run reads each rawlog once | inversion of the chain of steps into a relational specification, in both directions; induction over the inputs for the cache |
| C309 | sm2mm uses the plugins it is given | inversion of the chain of steps into a relational specification, in both directions; induction over the inputs for the cache refuted: C309_plugins_are_ignored_refuted (every run); C309_sm2mm_where says exactly when a map is written and which. |
| C310 | sm2mm rejects a simplemap it cannot read completely | inversion of the chain of steps into a relational specification, in both directions; induction over the inputs for the cache refuted: C310_incomplete_input_refuted (every partial read that is not empty); C310_nothing_read_where. |
| C311 | mm-info fails on a file it cannot read | inversion of the chain of steps into a relational specification, in both directions; induction over the inputs for the cache refuted: C311_unreadable_file_refuted; C311_mm_info_where gives the exact outcome. |
| C312 | Planes and lines are shown as asked | induction over the layers with the objects so far as accumulator; relational specification of one layer (VisSpec.v) |
| C313 | The options for lines are respected | induction over the layers with the objects so far as accumulator; relational specification of one layer (VisSpec.v) refuted: C313_line_options_ignored_refuted (every map); C313_lines_where. |
| C314 | Every layer to be shown is shown once | induction over the layers with the objects so far as accumulator; relational specification of one layer (VisSpec.v) |
| C315 | Each layer gets its own point size | induction over the layers with the objects so far as accumulator; relational specification of one layer (VisSpec.v) refuted: C315_point_size_of_another_layer_refuted (every pair of layers); C315_single_layer_where. |
| C316 | The color limits are those given, or those of the cloud | induction over the layers with the objects so far as accumulator; relational specification of one layer (VisSpec.v) |
| C317 | Drawing does not change the map | induction over the layers with the objects so far as accumulator; relational specification of one layer (VisSpec.v) refuted: C317_drawing_changes_the_map_refuted; C317_drawing_where is an equivalence. |
| C318 | Pairings are shown where they are | induction over the layers with the objects so far as accumulator; relational specification of one layer (VisSpec.v) |
| C319 | Every kind of pairing is shown | induction over the layers with the objects so far as accumulator; relational specification of one layer (VisSpec.v) refuted for every set of pairings: C319_other_pairings_not_shown_refuted; C318 has the kinds that are shown. |
| C320 | Horn's solver is exact despite rejected outliers | the second walk over exact pairs (induction with the position in the sorted outlier list), then the optimality of Horn's rotation and the algebra of OLAE's four systems |
| C321 | OLAE is exact despite rejected outliers | the second walk over exact pairs (induction with the position in the sorted outlier list), then the optimality of Horn's rotation and the algebra of OLAE's four systems |
| C322 | OLAE: reported outliers do not influence the pose | the second walk over exact pairs (induction with the position in the sorted outlier list), then the optimality of Horn's rotation and the algebra of OLAE's four systems refuted: C322_reported_outlier_moves_the_pose_refuted (any linear solver); C322_first_pass_outliers_have_no_influence_where for pairs rejected by the first test. |
| C323 | ICP recovers the exact pose from any guess in the basin | the nearest-neighbour contract gives one candidate per point; induction over the matcher's loop with the bit fields; C86 or C90 for the solver; the distances at the true pose are 0, so the second iteration makes the same pairs and stalls end to end: the models of the matcher (PointMatcherModel), the solver (HornModel), the evaluator (QualityModel) and the loop (IcpModel) composed; exact arithmetic, composePoint exact on the points for the guess and the true pose; no hook, no robust kernel, one layer. |
| C324 | ICP with OLAE recovers the exact pose from any guess in the basin | the nearest-neighbour contract gives one candidate per point; induction over the matcher's loop with the bit fields; C86 or C90 for the solver; the distances at the true pose are 0, so the second iteration makes the same pairs and stalls as C323, with OlaeModel. |
| C325 | Remembered intensity range over any history | induction over the history: the memory holds the extremes of all intensities seen; then rounding is monotone, so the division and the clamp keep the order and the unit interval; errors by case analysis IEEE binary32 arithmetic with Flocq; induction over the history with the memory as invariant. |
| C326 | The debug record and its file describe the call | case analysis of align with its logging; induction over the history of records with the names written so far as invariant; refutations computed in a concrete world |
| C327 | Asking for a debug record is safe | case analysis of align with its logging; induction over the history of records with the names written so far as invariant; refutations computed in a concrete world refuted: a new ICP object with maxIterations = 0 dereferences a null attachedSource() (ICP.cpp 351). The where theorem: no other cause, if the first matcher is attached or an iteration is allowed. |
| C328 | Logging does not change the alignment | simulation: the loop with and without logging, related by equality up to the iteration details; induction over the iterations |
| C329 | Logging functors leave the caller's maps alone | case analysis of align with its logging; induction over the history of records with the names written so far as invariant; refutations computed in a concrete world refuted: the copy shares the layer objects; holds exactly for functors that make new objects for the layers they change. |
| C330 | Names of log files | tokens: each pass of regex_replace over a concatenation of tokens replaces exactly the tokens of its kind; decimal numbers are read back, so padding is injective; a text without dollars in front is kept by all passes refuted for labels with a dollar (std::regex_replace interprets the replacement text, and later passes expand placeholders in it); proved for labels without. |
| C331 | No log file replaces another | tokens: each pass of regex_replace over a concatenation of tokens replaces exactly the tokens of its kind; decimal numbers are read back, so padding is injective; a text without dollars in front is kept by all passes; case analysis of align with its logging; induction over the history of records with the names written so far as invariant; refutations computed in a concrete world refuted when the number is followed by a digit of a label; proved, for arbitrary labels, if it is the first placeholder and is followed by neither a digit nor a dollar (the default format is such). |
| C332 | Identifiers in log file names tell maps apart | tokens: each pass of regex_replace over a concatenation of tokens replaces exactly the tokens of its kind; decimal numbers are read back, so padding is injective; a text without dollars in front is kept by all passes refuted: 64-bit identifiers are cut to 32 bits, and no identifier is shown as 0; proved for 32-bit identifiers. |
| C333 | The debug record is a snapshot | case analysis of align with its logging; induction over the history of records with the names written so far as invariant; refutations computed in a concrete world refuted: the record shares the layer objects; the where theorem is an equivalence. |
| C334 | ICP never gets worse | per-point bounds before and after the solver (triangle inequality for the rounding), summed by induction over the points; least squares (C85) in between; induction over the iterations with the event trace; refutation computed on a scene of 21 points end to end as C323, any evaluators, hook and formulas; coordinates rational, solver over the reals, composePoint accurate up to eps (C334_exact: eps = 0). Per iteration the rounding may cost 4 n eps (threshold + eps). Assumes of the pairs in the run what C85 does: at least three, none within 0.1 mm of the centroids (such pairs are left out by the solver), correct eigenvectors. |
| C335 | ICP with the default options never gets worse | per-point bounds before and after the solver (triangle inequality for the rounding), summed by induction over the points; least squares (C85) in between; induction over the iterations with the event trace; refutation computed on a scene of 21 points refuted: a local point whose nearest global point is taken by an earlier point is left out, and may be moved away from a perfect position (dense scan against a sparse map). The where theorem: no two local points compete for a global point during the run. |
| C336 | txt2mm keeps the colours of a xyzrgb file | computed exit codes over all command lines classes; case analysis on the reader's outcome refuted: a colour outside 0..255 is converted from float to an unsigned byte out of range, which is undefined behaviour; the where theorem: all colours between 0 and 255 (bounds given exactly). Anchored in the shipped tool. |
| C337 | What a generator does with each kind of observation | induction over sensory frames and generators with an explicit schedule of calls; case analysis per observation kind; invariant over the key-frame loop for the errors observation insertion itself (MRPT) is a parameter of the model; the theorem says which layer it is applied to, when, and with what effect on the rest of the map |
| C338 | sm2mm fails early and only for a reason | induction over sensory frames and generators with an explicit schedule of calls; case analysis per observation kind; invariant over the key-frame loop for the errors generators and filters are parameters; the trace of calls is explicit |
| C339 | The error the Gauss-Newton solver compares with maxCost is the weighted squared error | per-class sums by induction over the pairs; induction over the inner iterations with the position in the log; refutations computed on one pair refuted: lines and planes add their error with the squared weight, while point pairs use the weight; point-to-plane pairs use the weight in the TBB build and its square without TBB, so the two builds stop at different iterations. C339_compared_error gives the exact value compared in each iteration (all classes, both builds); the where theorem: no kernel, class weights 0 or 1. Point pairs with the class weight (no individual weights); TBB schedules that lose no addition. C339_parallel_lines_undefined: the iterations that are undefined. |
| C340 | The closed-form solvers do not depend on the order of the pairs | the matcher's pairs as a flat_map over the local points; simulation of the two runs iteration by iteration proved in exact arithmetic: rounding of the sums, which does depend on the order, is outside the model. |
| C341 | The result of ICP does not depend on the order of the local points when global points may be shared | the matcher's pairs as a flat_map over the local points; simulation of the two runs iteration by iteration proved; C341_library_components_ignore_the_order shows that Horn, OLAE and the paired-ratio evaluator are order-free, C341_default_pipeline is the pipeline with one matcher. Exact arithmetic; the subsampling of the local points (maxLocalPointsPerLayer) must not act, since it picks positions. |
| C342 | The result of ICP does not depend on the order of the local points with the default options | simulation of the two runs, along the matcher calls of the first; the refutation computes both runs, with the spectral decomposition of both Horn matrices refuted: of two local points near one global point the first in the cloud gets it, even if the other one is nearer; the refutation is a run whose pose differs by 5 cm in one iteration. The where theorem: no two local points compete for a global point at the poses of the run (or sharing is allowed). |
| C343 | The summary of a set of pairings tells its numbers | the summary as a list of (number, kind) entries, and injectivity of its text by reading it from the left; containment of the parts through the appends; reuse of the round trip of C60 proved for all pairings. |
| C344 | The summary of a map that is not empty names its layers | the summary as a list of (number, kind) entries, and injectivity of its text by reading it from the left; containment of the parts through the appends; reuse of the round trip of C60 refuted in one point: a map whose layers hold no points is not empty() and gets a blank summary without its layers. Proved: when it throws, what it shows of the head, lines, planes and metadata, and - where some layer has a point or a voxel or is of another class - the totals (that of size_points_only()) and each layer. |
| C345 | Results read from an archive can be printed | the summary as a list of (number, kind) entries, and injectivity of its text by reading it from the left; containment of the parts through the appends; reuse of the round trip of C60 refuted: the reason byte is not checked when it is read, and print() throws for the values 7..255; the where theorem gives the exact domain (<= 6), and C345_results_print shows that all results of align() print, also after a round trip. |
| C346 | An aligned pose is kept by the closed-form solvers with planes and lines | the conversion computed at a pose that fits; majorize-minimize argument: the converted point pairs touch the plane and line distances at the current pose and bound them elsewhere, and Horn is least squares on them (C85) proved in exact arithmetic, relative to the contract of the eigenvector routine resp. the linear solver for the matrix of the run. |
| C347 | A step of the Horn solver never increases the distances to planes and lines | the conversion computed at a pose that fits; majorize-minimize argument: the converted point pairs touch the plane and line distances at the current pose and bound them elsewhere, and Horn is least squares on them (C85) refuted: pairs with an error below a quarter of the largest are left out of the step, however many; 6 pairs are fixed and 7 that fitted are broken, the sum grows from 6 to 7. The where theorem: the errors of each kind are within a factor of four of each other. |
| C348 | Gauss-Newton corrects a wrong translation in one step | residuals at the moved pose are exactly -J d, so d solves the normal equations whatever the weights; uniqueness from well-posedness; the second inner iteration finds no error proved in exact arithmetic, for pairings without individual point weights and without line-to-line pairings; the linear solver is assumed to solve the one system it is given. |
| C349 | Registration with Gauss-Newton keeps aligned maps aligned and corrects a wrong translation | the run of EndToEndProps (C323) with a solver object that reads its starting pose from the context; three corners of a triangle make the system well posed proved in exact arithmetic, relative to the contracts of the nearest neighbour search, the pose difference and the linear solver. |
| C350 | Trimmed ICP never gets worse | the multimap is sorted, so the pairs kept have the least sum among all choices of k candidates (induction over the sorted list); the least-squares pose can only lower the sum over the kept points, which bounds the trimmed sum; refutation by a computed run proved in exact arithmetic for the solver; relative to a correct nearest neighbour search and eigen-decomposition of the systems of the run. |
| C351 | Trimmed ICP with the default options never gets worse | the multimap is sorted, so the pairs kept have the least sum among all choices of k candidates (induction over the sorted list); the least-squares pose can only lower the sum over the kept points, which bounds the trimmed sum; refutation by a computed run refuted: with the default options, a run makes the sum of the squared distances grow, because the pairs whose global point is taken are dropped without replacement; C351_default_options_where proves it for the runs in which no kept pair is dropped. |
| C352 | The same pairs twice end the run | the cost of the pairs falls strictly while the run goes on, so no set of pairs returns; there are finitely many (pigeonhole) proved for the closed-form solvers (Horn, OLAE), whose answer depends on the pairs only; the Gauss-Newton solver starts from the current pose, so the statement does not apply to it. |
| C353 | When the least-squares pose is unique | the sum of squares as a quadratic form of the quaternion plus the error of the centroid; a simple greatest eigenvalue leaves two opposite quaternions, a double one gives a second rotation proved in exact arithmetic; relative to a correct eigen-decomposition. |
| C354 | ICP ends by itself | the cost of the pairs falls strictly while the run goes on, so no set of pairs returns; there are finitely many (pigeonhole) proved in exact arithmetic; relative to a correct nearest neighbour search and eigen-decomposition of the systems of the run. |
| C355 | A filter with unevaluated formulas refuses | case analysis of each filter's prelude; the bounding box filter is shown to compute the same whatever the flag, with a counterexample refuted as stated: FilterBoundingBox::filter does not call checkAllParametersAreRealized() and runs with the default box (C355_unevaluated_formulas_refuse_refuted, C355_box_ignores_it); proved for the filters by range, occupancy and time stamps, merge, slice, pole, decimation, deskew and the curvature generator (_where). |
| C356 | The frame of the global map does not matter | simultaneous induction over the courses of the two runs; a step seen from other frames is the step conjugated by the motion of the local frame proved in exact arithmetic, for CPose3D's difference of poses (the pose seen from the other), any norms of it, and without hook and checkpoints; relative to a correct nearest neighbour search and eigen-decomposition of the systems of both runs. |
| C357 | The axes of the local map's frame do not matter | simultaneous induction over the courses of the two runs; a step seen from other frames is the step conjugated by the motion of the local frame proved as C356, for norms that do not depend on the axes. |
| C358 | The origin of the local map's frame does not matter | C358's common part from the induction of FrameProps; the scene of six points seen from four frames, Horn's matrix computed in closed form for all of them, two- and one-iteration runs computed for an abstract matcher refuted as stated, for scans with an off-centre origin: the stalling test looks at the motion of the local origin, so a first correction that only turns the scan about it ends the run at iteration 0, while the same scan in a frame ten metres to the side is matched again. The _where theorem proves what holds for every rigid motion: the two runs have their searches (poses and pairs) in common as long as both last. C357 is the exact domain in which nothing changes (same origin). |
| C359 | The unit of length does not matter | C359 by induction on the course of the two runs: points seen from rescaled poses are rescaled, so are distances and thresholds, and the rescaled best fit is the best fit; the case computes both runs (factors 1 and 2) for the six points Matcher_Points_DistanceThreshold (relative threshold 0, one pair per point) with Horn's solver; the searches of the run have no ties and one best fit; the sizes of a motion (length, angle) are a function with the scaling property, shown for an example function; quality checkpoints off. |
| C360 | The voxels of a cloud do not depend on the unit of length | C360 by induction over the points: the indices, the distance test, the means and the squared errors are homogeneous |
| C361 | The unit of length does not matter to the filters | C361 by a relation between the effects on two maps, kept by every step of the filters coordinates as rationals; a layer that is not a cloud is what it converts to; the visiting order of the single-point grid is assumed to depend on the keys only (order_of_keys; the identity is an instance). |
| C362 | The origin of a cloud does not matter to its voxels | C362's domain by induction over the points, the refutation by computing two grids refuted: the index of a coordinate is rounded towards zero (PointCloudToVoxelGrid.h 118), so the voxels on the coordinate planes are twice as wide as the others: two points 40 cm to both sides of the origin share a voxel of one metre there and nowhere else. The _where theorem is the domain: no coordinate changes its sign; then the voxels and their points are the same, the keys moved. |

## Status, theorems and Print Assumptions

| id | status | theorems (file): assumptions |
|---|---|---|
| C01 | proved | C01_merge_copy_appends (PairingsProps.v): -, C01_empty_iff_no_pairs (PairingsProps.v): - |
| C02 | proved | C02_move_and_copy_same_lists (PairingsProps.v): - |
| C03 | proved | C03_what_fits (SerialFitProps.v): -, C03_roundtrip_of_what_fits (SerialFitProps.v): -, C03_version_bytes (SerialFitProps.v): -, C03_roundtrip (SerialProps.v): -, C03_truncated_rejected (SerialProps.v): -, C03_unknown_version_rejected (SerialProps.v): -, C03_never_undefined (SerialProps.v): - |
| C04 | proved | C04_centroids_are_inlier_means (PairingsProps.v): R2, C04_invalid_outliers_throw (PairingsProps.v): R2 |
| C05 | proved | C05_matcher_runs_in_window (PipelineProps.v): - |
| C06 | proved | C06_run_matchers_concatenates (PipelineProps.v): - |
| C07 | proved | C07_pairings_within_bound (PointMatcherProps.v): -, C07_pipeline_pairs_are_genuine (PointMatcherProps.v): - |
| C08 | proved | C08_no_global_point_twice (PointMatcherProps.v): - |
| C09 | proved | C09_matched_local_points_skipped (PointMatcherProps.v): -, C09_marked_local_points_skipped (PointMatcherProps.v): - |
| C10 | proved | C10_in_range_points_are_paired (PointMatcherProps.v): - |
| C11 | proved | C11_inlier_ratio_keeps_best (PointMatcherProps.v): -, C11_kept_count_in_range (PointMatcherProps.v): - |
| C12 | proved | C12_layers_and_weights (PointMatcherProps.v): -, C12_weight_blocks_partition (PointMatcherProps.v): -, C12_missing_listed_layer_is_an_error (PointMatcherProps.v): - |
| C13 | proved | C13_subsampling (PointMatcherProps.v): - |
| C14 | proved | C14_parallel_equals_sequential (ParallelProps.v): -, C14_schedule_independent (ParallelProps.v): -, C14_parallel_pairs_within_bound (ParallelProps.v): -, C14_every_schedule_terminates (ParallelProps.v): -, C14_radius_search_same_without_angle (ParallelProps.v): - |
| C15 | proved | C15_bitfield_is_a_set (BitfieldProps.v): -, C15_out_of_range_is_ub (BitfieldProps.v): -, C15_initialize_from (BitfieldProps.v): - |
| C16 | proved | C16_calls_during_a_whole_run (LatchProps.v): -, C16_finished_is_for_the_whole_run (LatchProps.v): -, C16_solver_runs_iff_allowed (PipelineProps.v): -, C16_latch_is_permanent (PipelineProps.v): - |
| C17 | proved | C17_first_success_wins (PipelineProps.v): -, C17_false_iff_all_fail (PipelineProps.v): - |
| C18 | proved | C18_budget_and_reason (IcpProps.v): -, C18_reason_is_defined (IcpProps.v): - |
| C19 | proved | C19_returned_pose (IcpProps.v): -, C19_pose_after_solver_error (IcpProps.v): - |
| C20 | proved | C20_stall_criterion (IcpProps.v): - |
| C21 | proved | C21_checkpoint_and_hook_stop (IcpProps.v): - |
| C22 | proved | C22_final_pairings_and_quality (IcpProps.v): - |
| C23 | proved | C23_quality_is_weighted_mean (PipelineProps.v): -, C23_weighted_mean_within_range (PipelineProps.v): -, C23_hard_discard_gives_zero (PipelineProps.v): -, C23_bad_weight_throws (PipelineProps.v): - |
| C24 | proved | C24_paired_ratio (PipelineProps.v): - |
| C25 | proved | C25_log_numbering (IcpProps.v): -, C25_numbers_distinct (IcpProps.v): - |
| C26 | proved | C26_weights_of_every_pair (VisitProps.v): R3, C26_normalised_weights_sum_to_one (VisitProps.v): R3, C26_first_pass (VisitProps.v): R3, C26_no_spurious_failure (VisitProps.v): R3 |
| C27 | proved | C27_kernels_down_weight (GeomProps.v): R2, C27_none_is_one (GeomProps.v): R2, C27_kernels_vanish (GeomProps.v): R2 |
| C28 | proved | C28_point2point (GeomProps.v): R2, C28_point2line (GeomProps.v): R2, C28_point2plane (GeomProps.v): R2, C28_plane2plane (GeomProps.v): R2 |
| C29 | proved | C29_point2point (GeomProps.v): R2, C29_point2line (GeomProps.v): R2, C29_point2plane (GeomProps.v): R2, C29_plane2plane (GeomProps.v): R2, C29_line2line_parallel (GeomProps.v): R2 |
| C30 | proved | C30_normal_equations_of_every_iteration (GnProps.v): R4, C30_first_iteration_sequential (GnProps.v): R4 |
| C31 | proved | C31_every_component_in_its_slot (CovProps.v): -, C31_fallback_without_pairings (CovProps.v): -, C31_estimate_with_pairings (CovProps.v): - |
| C32 | proved | C32_horn_needs_three_pairs (HornProps.v): R3, C32_horn_true_means_three_pairs (HornProps.v): R3 |
| C33 | proved | C33_selection (GeomProps.v): R3, C33_plane_projection (GeomProps.v): R3, C33_plane_tolerance (GeomProps.v): R3, C33_line_projection (GeomProps.v): R3, C33_when_refused (LooseEndsProps.v): R3 |
| C34 | proved | C34_what_fits (SerialFitProps.v): -, C34_roundtrip (SerialProps.v): -, C34_old_versions (SerialProps.v): -, C34_rejects (SerialProps.v): - |
| C35 | proved | C35_merging_gives_the_union (MapProps.v): -, C35_sizes_add_up (MapProps.v): - |
| C36 | proved | C36_size (MapProps.v): -, C36_clear (MapProps.v): -, C36_empty (MapProps.v): - |
| C37 | proved | C37_exact_content (VelocityProps.v): -, C37_one_value_per_stamp_in_order (VelocityProps.v): -, C37_time_ordered (VelocityProps.v): - |
| C38 | proved | C38_empty_when_nothing_close (VelocityProps.v): -, C38_reconstruction (VelocityProps.v): - |
| C39 | proved | C39_realize_uses_latest_values (ParamProps.v): -, C39_constants_keep_their_value (ParamProps.v): -, C39_use_throws_iff_not_realized (ParamProps.v): - |
| C40 | proved | C40_bounding_box_routes (FilterProps.v): -, C40_partition (FilterProps.v): -, C40_rejects (FilterProps.v): - |
| C41 | proved | C41_range_routes (FilterProps.v): R3, C41_range_unrealized_rejected (FilterProps.v): -, C41_intensity_routes (FilterProps.v): -, C41_ring_routes (FilterProps.v): - |
| C42 | proved | C42_full_grid (VoxelProps.v): -, C42_full_grid_exactly_one (VoxelProps.v): -, C42_full_grid_min_distance (VoxelProps.v): -, C42_single_grid (VoxelProps.v): -, C42_voxel_geometry (VoxelProps.v): - |
| C43 | proved | C43_first_point (DecimateProps.v): -, C43_other_methods (DecimateProps.v): - |
| C44 | proved | C44_distinct_bounded (AdaptiveProps.v): -, C44_disabled (AdaptiveProps.v): -, C44_number_of_points (LooseEndsProps.v): - |
| C45 | proved | C45_delete_exact (FilterProps.v): -, C45_delete_checked (FilterProps.v): -, C45_delete_checked_result (FilterProps.v): -, C45_others_untouched (FilterProps.v): - |
| C46 | proved | C46_shift_methods (ChannelProps.v): -, C46_reference_at_zero (ChannelProps.v): -, C46_normalize (ChannelProps.v): -, C46_no_timestamps (ChannelProps.v): - |
| C47 | proved | C47_normalised_and_monotone (ChannelProps.v): -, C47_memory_is_exact_range (ChannelProps.v): -, C47_affine_on_history (ChannelProps.v): -, C47_reversed_fixed_range_reverses (ChannelProps.v): -, C47_needs_intensity (ChannelProps.v): - |
| C48 | proved | C48_pipeline_in_order (FilterProps.v): -, C48_stops_at_first_failure (FilterProps.v): -, C48_null_entry (FilterProps.v): - |
| C49 | proved | C49_one_corrected_point_per_input_point (DeskewProps.v): -, C49_completes (DeskewProps.v): -, C49_skipping_copies_every_point (DeskewProps.v): -, C49_empty_input (DeskewProps.v): -, C49_iterations_never_conflict (DeskewProps.v): -, C49_constant_twist (DeskewProps.v): - |
| C50 | proved | C50_exactly_the_requested_key_frames (SmProps.v): -, C50_own_pose_and_twist (SmProps.v): -, C50_filters_follow_handled_observations (SmProps.v): -, C50_former_contents_ignored (SmProps.v): - |
| C51 | proved | C51_reported_iterations (IcpProps.v): - |
| C52 | proved | C52_iteration_details (IcpProps.v): - |
| C53 | proved | C53_align_succeeds (IcpProps.v): - |
| C54 | partial | C54_layer_weights_lost_refuted (PointMatcherProps.v): -, C54_weights_where (PointMatcherWhereProps.v): - |
| C55 | proved | C55_matching_never_out_of_range (PointMatcherProps.v): -, C55_no_limit_layer_succeeds (PointMatcherProps.v): - |
| C56 | proved | C56_pairings_never_exceed_potential (PointMatcherProps.v): -, C56_potential_counts_local_points (PointMatcherProps.v): - |
| C57 | proved | C57_old_version (SerialProps.v): - |
| C58 | proved | C58_what_fits (SerialFitProps.v): -, C58_parameters_roundtrip (SerialProps.v): -, C58_old_versions (SerialProps.v): - |
| C59 | proved | C59_what_fits (SerialFitProps.v): -, C59_weights_roundtrip (SerialProps.v): -, C59_weights_truncated_and_versions (SerialProps.v): -, C59_old_version_keeps_kernel (SerialProps.v): - |
| C60 | proved | C60_what_fits_results (SerialFitProps.v): -, C60_what_fits (SerialFitProps.v): -, C60_log_roundtrip_of_what_fits (SerialFitProps.v): -, C60_results_roundtrip (SerialProps.v): -, C60_results_rejects (SerialProps.v): -, C60_log_roundtrip (SerialProps.v): -, C60_log_rejects (SerialProps.v): - |
| C61 | proved | C61_load_reports (SerialProps.v): - |
| C62 | proved | C62_georeferencing (SerialProps.v): - |
| C63 | proved | C63_occupancy_routes (FilterProps.v): - |
| C64 | partial | C64_in_place_never_ends_refuted (FilterProps.v): -, C64_bounding_box_where (FilterWhereProps.v): -, C64_range_where (FilterWhereProps.v): R3 |
| C65 | proved | C65_bbox_accepts (FilterProps.v): -, C65_range_accepts (FilterProps.v): - |
| C66 | proved | C66_bbox_error_keeps_layers (FilterProps.v): -, C66_range_error_keeps_layers (FilterProps.v): - |
| C67 | partial | C67_offset_sign_refuted (ChannelProps.v): -, C67_offset_where (FilterWhereProps.v): - |
| C68 | partial | C68_std_map_flavour_reports_nothing_refuted (VoxelProps.v): -, C68_reported_where (VoxelWhereProps.v): - |
| C69 | partial | C69_std_map_flavour_drops_everything_refuted (DecimateProps.v): -, C69_one_per_voxel_where (VoxelWhereProps.v): - |
| C70 | partial | C70_small_input_copied_then_throws_refuted (DecimateProps.v): -, C70_succeeds_where (VoxelWhereProps.v): - |
| C71 | partial | C71_missing_optional_input_throws_refuted (DecimateProps.v): -, C71_missing_as_if_not_listed (DecimateProps.v): - |
| C72 | partial | C72_target_not_reached_refuted (AdaptiveProps.v): -, C72_two_voxels_refuted (AdaptiveProps.v): -, C72_target_reached_where (VoxelWhereProps.v): - |
| C73 | partial | C73_no_dense_voxel_undefined_refuted (AdaptiveProps.v): -, C73_no_dense_voxel_where (VoxelWhereProps.v): - |
| C74 | partial | C74_point_pairs_dropped_refuted (GeomProps.v): R3, C74_only_point_pairs_gives_nothing_refuted (GeomProps.v): -, C74_output_where (GeomWhereProps.v): R3 |
| C75 | partial | C75_aligned_lines_not_recognised_refuted (GeomProps.v): R4, C75_direction_residual_refuted (GeomProps.v): R3, C75_zero_where (GeomWhereProps.v): R4 |
| C76 | partial | C76_line2line_jacobian_wrong_refuted (GeomProps.v): R3, C76_norm_derivative_sign_refuted (GeomProps.v): R3, C76_translation_where (GeomWhereProps.v): R3, C76_direction_rows_exact (LooseEndsProps.v): R3 |
| C77 | partial | C77_parallel_lines_components_unset_refuted (GeomProps.v): R4, C77_all_set_where (GeomWhereProps.v): R4 |
| C78 | proved | C78_cauchy_weight_from_loss (KernelProps.v): R4, C78_gm_weight_from_scaled_loss (KernelProps.v): R2 |
| C79 | partial | C79_documented_where (GeomWhereProps.v): R2, C79_gm_weight_not_from_documented_loss_refuted (KernelProps.v): R2 |
| C80 | partial | C80_weights_where (GeomWhereProps.v): R3, C80_outlier_at_block_start_shifts_weights_refuted (VisitProps.v): R3 |
| C81 | partial | C81_defined_where (GeomWhereProps.v): R3, C81_uncovered_pairs_read_past_the_end_refuted (VisitProps.v): R3 |
| C82 | partial | C82_no_such_pairs_where (GeomWhereProps.v): R3, C82_zero_class_weight_fails_refuted (VisitProps.v): R3 |
| C83 | partial | C83_ratio_where (GeomWhereProps.v): R3, C83_pt2pt_weight_used_with_blocks_refuted (VisitProps.v): R3 |
| C84 | proved | C84_horn_rotation_is_optimal (HornProps.v): R3 |
| C85 | proved | C85_horn_is_least_squares (HornProps.v): R3 |
| C86 | proved | C86_horn_recovers_the_pose (HornProps.v): R3 |
| C87 | partial | C87_failure_resets_the_pose_refuted (HornProps.v): R3, C87_pose_kept_where (HornWhereProps.v): R3 |
| C88 | partial | C88_no_points_throws_refuted (HornProps.v): R3, C88_succeeds_where (HornWhereProps.v): R3 |
| C89 | partial | C89_weighted_optimum_refuted (HornProps.v): R3, C89_weighted_optimum_where (HornWhereProps.v): R3 |
| C90 | proved | C90_olae_recovers_the_pose (OlaeProps.v): R3 |
| C91 | partial | C91_tied_determinants_give_a_wrong_pose_refuted (OlaeProps.v): R3 |
| C92 | partial | C92_single_pair_half_turn_refuted (OlaeProps.v): R3 |
| C93 | partial | C93_sequential_build_overshoots_refuted (GnCasesProps.v): R4, C93_sequential_build_accumulates (GnProps.v): R4 |
| C94 | partial | C94_second_iteration_uses_last_weight_refuted (GnCasesProps.v): R4, C94_equal_weights_where (GnWhereProps.v): R4 |
| C95 | partial | C95_result_depends_on_the_schedule_refuted (GnCasesProps.v): R4 |
| C96 | partial | C96_lost_update_stops_too_early_refuted (GnCasesProps.v): R4, C96_error_where (GnWhereProps.v): R4 |
| C97 | proved | C97_missing_guess_is_an_error (ErrorProps.v): R4, C97_exact_start_is_returned (GnCasesProps.v): R4 |
| C98 | proved | C98_steps_minimise_the_linearised_error (GnProps.v): R4 |
| C99 | partial | C99_tail_slots_never_set_refuted (CovProps.v): - |
| C100 | partial | C100_z_not_assigned_refuted (CovProps.v): - |
| C101 | proved | C101_realize_is_defined (ParamProps.v): -, C101_failed_realize_changes_nothing (ParamProps.v): - |
| C102 | partial | C102_declaring_after_attaching_refuted (ParamProps.v): - |
| C103 | partial | C103_retry_after_undefined_variable_refuted (ParamProps.v): - |
| C104 | partial | C104_points_at_the_origin_lose_their_fields_refuted (DeskewProps.v): - |
| C105 | partial | C105_precise_mode_ignores_linear_velocity_refuted (DeskewProps.v): -, C105_precise_mode_ignores_the_twist_refuted (DeskewProps.v): - |
| C106 | proved | C106_no_motion_model_throws (DeskewProps.v): -, C106_no_times_throws (DeskewProps.v): -, C106_unrealized_throws (DeskewProps.v): -, C106_missing_input_throws (DeskewProps.v): - |
| C107 | partial | C107_failed_call_leaves_blank_points_refuted (DeskewProps.v): -, C107_missing_input_accepted_refuted (DeskewProps.v): - |
| C108 | partial | C108_failed_merge_keeps_the_lines_refuted (MapProps.v): -, C108_failed_merge_keeps_the_layer_refuted (MapProps.v): -, C108_planes_where (MapWhereProps.v): -, C108_layer_where (MapWhereProps.v): - |
| C109 | partial | C109_planes_cannot_be_moved_refuted (MapProps.v): -, C109_other_layers_cannot_be_merged_refuted (MapProps.v): -, C109_null_dereference_refuted (MapProps.v): -, C109_merges_where (MapWhereProps.v): - |
| C110 | partial | C110_a_map_with_an_empty_layer_is_not_empty_refuted (MapProps.v): -, C110_points_of_voxel_maps_not_counted_refuted (MapProps.v): -, C110_empty_where (MapWhereProps.v): - |
| C111 | partial | C111_changes_show_in_the_clone_refuted (MapProps.v): -, C111_independent_where (MapWhereProps.v): - |
| C112 | proved | C112_georef_yaml (MapProps.v): -, C112_other_types_rejected (MapProps.v): - |
| C113 | partial | C113_rotation_lost_refuted (MapProps.v): -, C113_rotation_kept_where (MapWhereProps.v): - |
| C114 | proved | C114_point_clouds_are_appended (SmProps.v): - |
| C115 | proved | C115_skipped_observations_have_no_effect (SmProps.v): -, C115_only_the_target_layer_changes (SmProps.v): - |
| C116 | partial | C116_stale_twist_refuted (SmProps.v): -, C116_default_twist_where (SmWhereProps.v): - |
| C117 | partial | C117_largest_end_index_processes_nothing_refuted (SmProps.v): -, C117_end_index_where (SmWhereProps.v): - |
| C118 | partial | C118_final_filters_cannot_use_variables_refuted (SmProps.v): -, C118_final_filters_run_where (SmWhereProps.v): -, C118_no_formulas_where (SmWhereProps.v): - |
| C119 | proved | C119_no_generators_throws (SmProps.v): - |
| C120 | proved | C120_imu_readings (SmProps.v): - |
| C121 | partial | C121_unusable_imu_creates_the_layer_refuted (SmProps.v): -, C121_existing_layer_where (SmWhereProps.v): - |
| C122 | partial | C122_skipped_observation_creates_the_layer_refuted (SmProps.v): -, C122_existing_layer_where (SmWhereProps.v): - |
| C123 | proved | C123_sensory_frames (SmMoreProps.v): -, C123_sensory_frame_no_generators (SmMoreProps.v): -, C123_all_generators_see_every_observation (SmProps.v): -, C123_no_generators (SmProps.v): - |
| C124 | partial | C124_move_equals_copy_refuted (PairingsProps.v): - |
| C125 | partial | C125_skip_for_all_flags_refuted (PointMatcherProps.v): -, C125_local_once_where (PointMatcherWhereProps.v): - |
| C126 | partial | C126_angular_threshold_refuted (PointMatcherProps.v): -, C126_angular_where (PointMatcherWhereProps.v): - |
| C127 | partial | C127_tail_never_selected_refuted (PointMatcherProps.v): -, C127_selected_where (PointMatcherWhereProps.v): - |
| C128 | partial | C128_one_range_no_global_twice_partial (ParallelProps.v): -, C128_forbidden_global_reuse_refuted (ParallelProps.v): - |
| C129 | partial | C129_builds_differ_with_angle_refuted (ParallelProps.v): - |
| C130 | partial | C130_returned_pose_refuted (IcpProps.v): - |
| C131 | partial | C131_stall_refuted (IcpProps.v): - |
| C132 | partial | C132_numbers_distinct_refuted (IcpProps.v): - |
| C133 | partial | C133_past_the_end_refuted (VelocityProps.v): - |
| C134 | partial | C134_reported_iterations_refuted (IcpProps.v): - |
| C135 | partial | C135_align_no_ub_refuted (IcpProps.v): - |
| C136 | partial | C136_limit_reads_out_of_range_refuted (PointMatcherProps.v): -, C136_out_of_range_where (PointMatcherWhereProps.v): - |
| C137 | partial | C137_old_version_refuted (SerialProps.v): -, C137_old_version_where (SerialWhereProps.v): - |
| C138 | partial | C138_checkpoints_lost_refuted (SerialProps.v): -, C138_parameters_back_where (SerialWhereProps.v): - |
| C139 | partial | C139_load_throws_refuted (SerialProps.v): -, C139_loads_where (SerialWhereProps.v): - |
| C140 | partial | C140_georeferencing_not_reset_refuted (SerialProps.v): -, C140_georeferencing_where (SerialWhereProps.v): - |
| C141 | partial | C141_only_high_rejected_refuted (FilterProps.v): -, C141_empty_cloud_throws_refuted (FilterProps.v): -, C141_accepted_where (FilterWhereProps.v): -, C141_filtered_where (FilterWhereProps.v): - |
| C142 | partial | C142_error_after_partial_deletion_refuted (FilterProps.v): -, C142_deleted_where (FilterWhereProps.v): -, C142_nothing_lost_where (FilterWhereProps.v): - |
| C143 | proved | C143_point_to_plane_exact (FeatProps.v): -, C143_point_to_plane_succeeds (FeatProps.v): - |
| C144 | proved | C144_point_to_line_exact (FeatProps.v): -, C144_point_to_line_succeeds (FeatProps.v): - |
| C145 | partial | C145_line_of_near_points_refuted (FeatProps.v): -, C145_line_of_near_points_where (FeatWhereProps.v): - |
| C146 | partial | C146_two_point_lines_refuted (FeatProps.v): - |
| C147 | proved | C147_adaptive_exact (AdMatchProps.v): -, C147_adaptive_succeeds (AdMatchProps.v): - |
| C148 | partial | C148_nothing_in_range_refuted (AdMatchProps.v): - |
| C149 | partial | C149_global_points_reused_refuted (AdMatchProps.v): -, C149_marked_before_where (FeatWhereProps.v): - |
| C150 | partial | C150_plane_distance_refuted (AdMatchProps.v): -, C150_plane_distance_where (FeatWhereProps.v): - |
| C151 | proved | C151_mean_and_covariance (EigenProps.v): -, C151_by_indices (EigenProps.v): -, C151_covariance_laws (EigenProps.v): - |
| C152 | proved | C152_curvature_classes (CurvProps.v): R3, C152_thinning_unique (CurvProps.v): -, C152_class_unique (CurvProps.v): R3, C152_partition (CurvProps.v): R3, C152_rejects (CurvProps.v): -, C152_rejects_channel (CurvProps.v): - |
| C153 | partial | C153_no_ub_refuted (CurvProps.v): -, C153_no_ub_below_65535 (CurvProps.v): R3 |
| C154 | partial | C154_near_border_refuted (CurvProps.v): R3, C154_near_border_judged_by_previous (CurvProps.v): R3 |
| C155 | proved | C155_pole_classes (PoleProps.v): -, C155_rejects (PoleProps.v): -, C155_rejects_output (PoleProps.v): - |
| C156 | partial | C156_outputs_cover_refuted (PoleProps.v): -, C156_outputs_cover_judged (PoleProps.v): - |
| C157 | partial | C157_columns_bounded_refuted (PoleProps.v): -, C157_columns_bounded_positive (PoleProps.v): - |
| C158 | partial | C158_no_ub_refuted (PoleProps.v): -, C158_ub_exactly (PoleProps.v): - |
| C159 | proved | C159_one_point_per_voxel (QuadProps.v): -, C159_rejects (QuadProps.v): -, C159_missing_input_ignored (QuadProps.v): - |
| C160 | partial | C160_channels_kept_refuted (QuadProps.v): -, C160_plain_output (QuadProps.v): - |
| C161 | partial | C161_inverse_refuted (QuadProps.v): R3, C161_inverse_where (QuadProps.v): R3 |
| C162 | proved | C162_lattice_coordinate (QuadProps.v): - |
| C163 | partial | C163_width_refuted (QuadProps.v): -, C163_width_where (QuadProps.v): - |
| C164 | partial | C164_missing_input_is_an_error_refuted (QuadProps.v): -, C164_missing_input_other_output (QuadProps.v): - |
| C165 | proved | C165_merge (FMergeProps.v): -, C165_merge_clouds (FMergeProps.v): -, C165_rejects (FMergeProps.v): - |
| C166 | partial | C166_no_ub_refuted (FMergeProps.v): -, C166_no_ub_without_null_target (FMergeProps.v): - |
| C167 | proved | C167_slice (FMergeProps.v): -, C167_kept_unique (FMergeProps.v): -, C167_rejects (FMergeProps.v): - |
| C168 | partial | C168_rgb_sliced_refuted (FMergeProps.v): -, C168_rgb_gives_empty_grid (FMergeProps.v): - |
| C169 | proved | C169_edges_planes (EdgesProps.v): -, C169_rejects (EdgesProps.v): - |
| C170 | partial | C170_centroids_match_refuted (EdgesProps.v): -, C170_centroids_match_if_no_planes (EdgesProps.v): - |
| C171 | partial | C171_accepts_refuted (EdgesProps.v): -, C171_throws_exactly (EdgesProps.v): - |
| C172 | partial | C172_ends_refuted (EdgesProps.v): -, C172_ends_if_positive (EdgesProps.v): - |
| C173 | partial | C173_container_refuted (EdgesProps.v): -, C173_std_map_finds_nothing (EdgesProps.v): - |
| C174 | partial | C174_full_covers_refuted (EdgesProps.v): -, C174_full_covers_where (EdgesProps.v): - |
| C175 | partial | C175_exception_safe_refuted (EdgesProps.v): -, C175_other_layers_kept (EdgesProps.v): - |
| C176 | proved | C176_corners (EdgeGenProps.v): R3, C176_rejects (EdgeGenProps.v): - |
| C177 | partial | C177_earlier_points_kept_refuted (EdgeGenProps.v): -, C177_where (EdgeGenProps.v): - |
| C178 | proved | C178_other_observations (EdgeGenProps.v): - |
| C179 | proved | C179_significant_pixels (EdgeGenProps.v): - |
| C180 | partial | C180_defined_refuted (EdgeGenProps.v): -, C180_where (EdgeGenProps.v): - |
| C181 | partial | C181_earlier_points_kept_refuted (EdgeGenProps.v): -, C181_where (EdgeGenProps.v): - |
| C182 | partial | C182_planes_layer_refuted (EdgeGenProps.v): -, C182_where (EdgeGenProps.v): - |
| C183 | partial | C183_no_planes_layer_refuted (EdgeGenProps.v): -, C183_where (EdgeGenProps.v): - |
| C184 | proved | C184_edge_blocks (EdgeGenProps.v): -, C184_rejects (EdgeGenProps.v): - |
| C185 | proved | C185_quality_in_unit_interval (QEvalProps.v): R3, C185_layer_required (QEvalProps.v): R3, C185_nothing_visible (QEvalProps.v): R3 |
| C186 | partial | C186_registered_gives_one_refuted (QEvalProps.v): R3, C186_registered_where (QEvalProps.v): R3 |
| C187 | partial | C187_only_points_in_view_refuted (QEvalProps.v): -, C187_left_of_the_image_refuted (QEvalProps.v): -, C187_in_view_where (QEvalProps.v): - |
| C188 | proved | C188_nearest_range (QEvalProps.v): -, C188_mean_of_pixels (QEvalProps.v): R3 |
| C189 | partial | C189_defined_for_every_cloud_refuted (QEvalProps.v): R3, C189_defined_where (QEvalProps.v): R3 |
| C190 | proved | C190_zero_or_inside (VoxQualProps.v): R3, C190_zero_iff_nothing_compared (VoxQualProps.v): R3, C190_layer_required (VoxQualProps.v): R3, C190_evaluate (VoxQualProps.v): R3 |
| C191 | proved | C191_identical_maps (VoxQualProps.v): R4 |
| C192 | proved | C192_agreement_above_half (VoxQualProps.v): R4, C192_contradiction_below_half (VoxQualProps.v): R4 |
| C193 | partial | C193_symmetric_refuted (VoxQualProps.v): R4, C193_symmetric_where (VoxQualProps.v): R3 |
| C194 | proved | C194_matchers_as_configured (ConfigProps.v): -, C194_solvers_as_configured (ConfigProps.v): -, C194_quality_as_configured (ConfigProps.v): - |
| C195 | partial | C195_rejected_keeps_list_refuted (ConfigProps.v): -, C195_rejected_where (ConfigProps.v): -, C195_rejected_quality_where (ConfigProps.v): - |
| C196 | proved | C196_disabled_entries_have_no_effect (ConfigProps.v): - |
| C197 | proved | C197_pipeline_as_configured (ConfigProps.v): - |
| C198 | partial | C198_params_section_where (ConfigProps.v): -, C198_params_section_is_honoured_refuted (ConfigProps.v): - |
| C199 | proved | C199_parameters_as_given (ConfigProps.v): - |
| C200 | proved | C200_saved_parameters_load (ConfigProps.v): - |
| C201 | partial | C201_checkpoints_survive_saving_refuted (ConfigProps.v): -, C201_checkpoints_where (ConfigProps.v): - |
| C202 | proved | C202_filters_as_configured (ConfigProps.v): -, C202_filters_of_a_file (ConfigProps.v): -, C202_generators_as_configured (ConfigProps.v): - |
| C203 | partial | C203_accepted_pipelines_can_be_evaluated_refuted (ConfigProps.v): -, C203_evaluable_where (ConfigProps.v): - |
| C204 | proved | C204_plugin_resolution (ConfigProps.v): - |
| C205 | partial | C205_generator_plugin_is_loaded_refuted (ConfigProps.v): -, C205_generator_where (ConfigProps.v): - |
| C206 | proved | C206_accepted_documents (LooseEndsProps.v): -, C206_written_buffer_is_read_back (VelYamlProps.v): -, C206_absent_sections_keep (VelYamlProps.v): -, C206_only_maps (VelYamlProps.v): - |
| C207 | partial | C207_no_entry_is_lost_refuted (VelYamlProps.v): -, C207_entries_kept_where (VelYamlProps.v): - |
| C208 | partial | C208_rejected_document_changes_nothing_refuted (VelYamlProps.v): -, C208_rejected_where (VelYamlProps.v): - |
| C209 | proved | C209_second_pass_uses_only_the_inliers (HornOutlierProps.v): R3 |
| C210 | partial | C210_reported_outlier_moves_the_pose_refuted (HornOutlierProps.v): R3, C210_first_pass_outliers_have_no_influence_where (HornOutlierProps.v): R3 |
| C211 | proved | C211_cut_keeps_the_range (SmCliProps.v): R3 |
| C212 | proved | C212_cut_then_join (SmCliProps.v): R3 |
| C213 | proved | C213_trim_keeps_the_box (SmCliProps.v): R3 |
| C214 | proved | C214_tf_moves_every_keyframe (SmCliProps.v): R3, C214_tf_twice (SmCliProps.v): R2, C214_relative_poses_kept (SmCliProps.v): R2 |
| C215 | proved | C215_join_concatenates (SmCliProps.v): R3 |
| C216 | proved | C216_level_is_a_rotation (SmCliProps.v): R3 |
| C217 | partial | C217_usage_exit_codes (CliCodesProps.v): R3, C217_failures_exit_with_1 (CliCodesProps.v): R3, C217_exit_code_ignores_write_errors_refuted (SmCliProps.v): R3, C217_unwritten_output_exits_with_0_refuted (SmCliProps.v): R3, C217_exit_code_where (SmCliProps.v): R3 |
| C218 | proved | C218_info_reports_the_map (SmCliExportProps.v): R3 |
| C219 | partial | C219_unstamped_observation_is_first_refuted (SmCliExportProps.v): R3, C219_first_time_where (SmCliExportProps.v): R3 |
| C220 | proved | C220_export_keyframes (SmCliExportProps.v): R3 |
| C221 | partial | C221_same_stamp_loses_a_keyframe_refuted (SmCliExportProps.v): R3, C221_every_keyframe_where (SmCliExportProps.v): R3 |
| C222 | partial | C222_frame_without_twist_has_no_row_refuted (SmCliExportProps.v): R3, C222_twist_rows_where (SmCliExportProps.v): R3 |
| C223 | proved | C223_export_rawlog (SmCliExportProps.v): R3 |
| C224 | partial | C224_level_does_not_level_refuted (SmCliProps.v): R3, C224_level_where (SmCliProps.v): R3 |
| C225 | partial | C225_null_observation_is_dereferenced_refuted (SmCliExportProps.v): R3, C225_no_null_where (SmCliExportProps.v): R3 |
| C226 | proved | C226_format_by_extension (CliCodesProps.v): -, C226_bad_georeferencing_file (CliCodesProps.v): -, C226_inject_sets_only_the_georeferencing (MmToolsProps.v): - |
| C227 | proved | C227_extract_then_inject (MmToolsProps.v): - |
| C228 | partial | C228_load_tells (CliCodesProps.v): -, C228_unreadable_map_is_replaced_refuted (MmToolsProps.v): -, C228_bad_map_where (MmToolsProps.v): - |
| C229 | partial | C229_unwritable_map_exits_with_0_refuted (MmToolsProps.v): -, C229_exit_code_where (MmToolsProps.v): - |
| C230 | partial | C230_interrupted_injection_loses_the_map_refuted (MmToolsProps.v): -, C230_crash_points_where (MmToolsProps.v): - |
| C231 | proved | C231_rename_layer (MmToolsProps.v): - |
| C232 | partial | C232_rename_ignored_with_pipeline_refuted (MmToolsProps.v): -, C232_pipeline_where (MmToolsProps.v): - |
| C233 | proved | C233_filter_exit_code_and_crash_points (MmToolsProps.v): -, C233_unreadable_input_fails (MmToolsProps.v): - |
| C234 | partial | C234_interrupted_filter_in_place_loses_the_map_refuted (MmToolsProps.v): -, C234_input_intact_where (MmToolsProps.v): - |
| C235 | proved | C235_mm2txt_exports_the_layers (MmToolsProps.v): - |
| C236 | partial | C236_unreadable_map_exits_with_0_refuted (MmToolsProps.v): -, C236_bad_map_where (MmToolsProps.v): - |
| C237 | partial | C237_unwritten_text_exits_with_0_refuted (MmToolsProps.v): -, C237_exit_code_where (MmToolsProps.v): - |
| C238 | proved | C238_xyz_one_point_per_row (TxtToMapProps.v): -, C238_xyzi_one_point_per_row (TxtToMapProps.v): -, C238_xyzrgb_one_point_per_row (TxtToMapProps.v): -, C238_xyzrgb_normalized_one_point_per_row (TxtToMapProps.v): - |
| C239 | partial | C239_ring_and_time_are_lost_refuted (TxtToMapProps.v): -, C239_xyzirt_where (TxtToMapProps.v): - |
| C240 | partial | C240_layer_option_is_ignored_refuted (TxtToMapProps.v): -, C240_layer_option_of_kitti2mm_is_ignored_refuted (TxtToMapProps.v): -, C240_raw_layer_where (TxtToMapProps.v): - |
| C241 | partial | C241_column_beyond_the_row_refuted (TxtToMapProps.v): -, C241_columns_where (TxtToMapProps.v): - |
| C242 | partial | C242_mm_anywhere_in_the_path_refuted (IcpRunProps.v): -, C242_icplog_anywhere_in_the_path_refuted (IcpRunProps.v): -, C242_input_kind_where (IcpRunProps.v): - |
| C243 | proved | C243_rawlog_entry (IcpRunProps.v): - |
| C244 | partial | C244_negative_index_is_undefined_refuted (IcpRunProps.v): -, C244_fraction_is_truncated_refuted (IcpRunProps.v): - |
| C245 | partial | C245_errors (ErrorProps.v): -, C245_single_point_is_rejected_refuted (IcpRunProps.v): -, C245_load_xyz_where (IcpRunProps.v): - |
| C246 | proved | C246_one_frame_per_observation (IcpRunProps.v): - |
| C247 | partial | C247_other_layers_are_dropped_refuted (IcpRunProps.v): -, C247_all_layers_where (IcpRunProps.v): - |
| C248 | proved | C248_failure_keeps_the_frames_before (IcpRunProps.v): - |
| C249 | proved | C249_bad_weight_is_an_error (FloatHistoryProps.v): R4, C249_overall_quality_in_unit_interval (FloatProps.v): R4, C249_unanimous_evaluators (FloatProps.v): R4, C249_overflowing_weights_give_NaN (FloatProps.v): R4 |
| C250 | proved | C250_paired_ratio_in_unit_interval (FloatProps.v): R4, C250_more_pairings_never_lower_it (FloatProps.v): R4, C250_one_only_if_all_paired (FloatProps.v): R4 |
| C251 | partial | C251_empty_channel_is_an_error (FloatHistoryProps.v): R4, C251_numbers_in_unit_interval_where (FloatIntensityProps.v): R4, C251_numbers_in_unit_interval_refuted (FloatIntensityProps.v): R4, C251_fixed_range (FloatIntensityProps.v): R4 |
| C252 | proved | C252_order_is_kept (FloatIntensityProps.v): R4 |
| C253 | partial | C253_brightest_gets_almost_one (FloatIntensityProps.v): R4, C253_brightest_gets_one_where (FloatIntensityProps.v): R4, C253_brightest_gets_one_refuted (FloatIntensityProps.v): R4 |
| C254 | proved | C254_empty_channel_is_an_error (FloatHistoryProps.v): R4, C254_earliest_becomes_zero (FloatStampProps.v): R4 |
| C255 | partial | C255_time_differences_kept_where (FloatStampProps.v): R4, C255_time_differences_kept_refuted (FloatStampProps.v): R4 |
| C256 | proved | C256_middle_zero_is_inside (FloatStampProps.v): R4 |
| C257 | proved | C257_normalized_stamps_in_unit_interval (FloatStampProps.v): R4 |
| C258 | proved | C258_earliest_is_zero_is_idempotent (FloatStampProps.v): R4 |
| C259 | proved | C259_index_defined_iff (FloatVoxelProps.v): R4, C259_index_monotone (FloatVoxelProps.v): R4, C259_index_odd (FloatVoxelProps.v): R4 |
| C260 | partial | C260_index_of_a_coordinate_or_the_next (FloatVoxelProps.v): R4, C260_index_of_a_coordinate_where (FloatVoxelProps.v): R4, C260_index_of_a_coordinate_refuted (FloatVoxelProps.v): R4 |
| C261 | proved | C261_same_voxel_is_close (FloatVoxelProps.v): R4 |
| C262 | partial | C262_mean_error_bound (FloatVoxelProps.v): R4, C262_mean_of_equal_points_where (FloatVoxelProps.v): R4, C262_mean_of_equal_points_refuted (FloatVoxelProps.v): R4 |
| C263 | proved | C263_kept_pairings_are_available (FloatKernelProps.v): R4, C263_larger_ratio_keeps_no_fewer (FloatKernelProps.v): R4 |
| C264 | partial | C264_cauchy_weight_in_unit_interval_where (FloatKernelProps.v): R4, C264_geman_mcclure_weight_in_unit_interval_where (FloatKernelProps.v): R4, C264_kernel_weight_in_unit_interval_refuted (FloatKernelProps.v): R4 |
| C265 | proved | C265_kernel_full_weight_without_error (FloatKernelProps.v): R4, C265_kernel_weight_never_grows_with_the_error (FloatKernelProps.v): R4 |
| C266 | partial | C266_clearly_inside_is_inside (FloatKernelProps.v): R4, C266_clearly_outside_is_outside (FloatKernelProps.v): R4, C266_point_beyond_the_range_is_outside_refuted (FloatKernelProps.v): R4 |
| C267 | proved | C267_residual_is_the_relative_pose (GnPriorProps.v): R2, C267_normal_equations_with_prior (GnPriorProps.v): R4 |
| C268 | proved | C268_steps_with_prior (GnPriorProps.v): R4 |
| C269 | partial | C269_satisfied_pairs_hide_the_prior_refuted (GnPriorProps.v): R4, C269_where (GnPriorProps.v): R4 |
| C270 | proved | C270_gradient (GnGradProps.v): R4 |
| C271 | partial | C271_reconfigured_where (ParamReconfProps.v): -, C271_old_formula_comes_back_refuted (ParamReconfProps.v): - |
| C272 | partial | C272_given_formula (ParamReconfProps.v): -, C272_left_out_where (ParamReconfProps.v): -, C272_left_out_changes_value_refuted (ParamReconfProps.v): - |
| C273 | proved | C273_weights_as_configured (InitProps.v): -, C273_weighted_solver_as_configured (InitProps.v): - |
| C274 | proved | C274_weights_round_trip (InitProps.v): - |
| C275 | partial | C275_failed_load_where (InitProps.v): -, C275_failed_load_refuted (InitProps.v): - |
| C276 | proved | C276_matcher_window (InitProps.v): - |
| C277 | proved | C277_solver_window (InitProps.v): - |
| C278 | proved | C278_matcher_base_as_configured (InitProps.v): - |
| C279 | partial | C279_empty_list_matches_by_name_refuted (InitProps.v): -, C279_listed_only_where (InitProps.v): - |
| C280 | proved | C280_adaptive_as_configured (InitProps.v): - |
| C281 | proved | C281_line_as_configured (InitProps.v): - |
| C282 | partial | C282_voxel_evaluator_as_configured (InitProps.v): -, C282_paired_ratio_where (InitProps.v): -, C282_documented_configuration_refuted (InitProps.v): - |
| C283 | partial | C283_accepted_ratio_throws_refuted (InitProps.v): -, C283_inlier_ratio_where (InitProps.v): - |
| C284 | proved | C284_accepted_configurations (GenInitProps.v): - |
| C285 | proved | C285_ini_as_configured (GenInitProps.v): - |
| C286 | partial | C286_missing_class_accepted_refuted (GenInitProps.v): -, C286_with_class_where (GenInitProps.v): - |
| C287 | partial | C287_old_sections_stay_refuted (GenInitProps.v): -, C287_named_entries_where (GenInitProps.v): - |
| C288 | partial | C288_dangling_formula_refuted (GenInitProps.v): -, C288_first_initialize_where (GenInitProps.v): - |
| C289 | proved | C289_ready_iff_initialised (GenInitProps.v): - |
| C290 | proved | C290_decimate_as_configured (FInitProps.v): -, C290_delete_as_configured (FInitProps.v): -, C290_listed_layers_are_deleted (FInitProps.v): - |
| C291 | partial | C291_rejected_configuration_where (FInitProps.v): -, C291_rejected_configuration_refuted (FInitProps.v): - |
| C292 | proved | C292_ring_as_configured (FInitProps.v): -, C292_ring_accepts (FInitProps.v): -, C292_listed_rings_are_selected (FInitProps.v): - |
| C293 | proved | C293_box_as_configured (FInitProps.v): -, C293_configured_box_selects (FInitProps.v): - |
| C294 | proved | C294_range_as_configured (FInitProps.v): -, C294_configured_range_selects (FInitProps.v): R3 |
| C295 | partial | C295_flattening_is_never_switched_off_refuted (FInitProps.v): -, C295_twist_is_never_removed_refuted (FInitProps.v): -, C295_center_stays_refuted (FInitProps.v): -, C295_decimate_again_where (FInitProps.v): - |
| C296 | proved | C296_merge_as_configured (FInitProps.v): -, C296_configured_pose (FInitProps.v): -, C296_deskew_as_configured (FInitProps.v): -, C296_configured_twist (FInitProps.v): -, C296_no_twist (FInitProps.v): -, C296_merge_frame (FInitProps.v): - |
| C297 | partial | C297_rejected_twist_is_switched_on_refuted (FInitProps.v): -, C297_twist_where (FInitProps.v): - |
| C298 | proved | C298_intensity_as_configured (FInitProps.v): -, C298_timestamps_as_configured (FInitProps.v): -, C298_normalize_as_configured (FInitProps.v): -, C298_curvature_as_configured (FInitProps.v): -, C298_slice_as_configured (FInitProps.v): -, C298_poles_as_configured (FInitProps.v): -, C298_occupancy_as_configured (FInitProps.v): -, C298_adaptive_as_configured (FInitProps.v): -, C298_quadratic_as_configured (FInitProps.v): -, C298_edges_as_configured (FInitProps.v): -, C298_configured_slice (FInitProps.v): -, C298_configured_poles (FInitProps.v): -, C298_configured_occupancy (FInitProps.v): -, C298_configured_timestamps (FInitProps.v): - |
| C299 | partial | C299_ring_without_outputs_refuted (FInitProps.v): -, C299_curvature_without_outputs_refuted (FInitProps.v): -, C299_occupancy_without_outputs_refuted (FInitProps.v): -, C299_outputs_where (FInitProps.v): - |
| C300 | partial | C300_aligned_where (LpmProps.v): R3, C300_aligned_refuted (LpmProps.v): R3 |
| C301 | partial | C301_failed_match_where (LpmProps.v): ClassicalDedekindReals.sig_forall_dec, C301_failed_match_refuted (LpmProps.v): ClassicalDedekindReals.sig_forall_dec |
| C302 | proved | C302_runs_exactly_if (LpmProps.v): ClassicalDedekindReals.sig_forall_dec, C302_voxels_alone_are_rejected (LpmProps.v): ClassicalDedekindReals.sig_forall_dec |
| C303 | proved | C303_every_point_takes_part (LpmProps.v): R2 |
| C304 | partial | C304_no_pairings_no_covariance_refuted (LpmProps.v): ClassicalDedekindReals.sig_forall_dec |
| C305 | proved | C305_record_of_the_call (LpmProps.v): ClassicalDedekindReals.sig_forall_dec |
| C306 | proved | C306_sanity_check (SanityProps.v): - |
| C307 | proved | C307_icp_run (CliAppsProps.v): - |
| C308 | proved | C308_each_rawlog_is_read_once (CliAppsProps.v): -, C308_missing_rawlog (CliAppsProps.v): - |
| C309 | partial | C309_sm2mm_where (CliAppsProps.v): -, C309_sm2mm_ends_where (CliAppsProps.v): -, C309_plugins_are_ignored_refuted (CliAppsProps.v): - |
| C310 | partial | C310_incomplete_input_refuted (CliAppsProps.v): -, C310_nothing_read_where (CliAppsProps.v): - |
| C311 | partial | C311_mm_info_where (CliAppsProps.v): -, C311_unreadable_file_refuted (CliAppsProps.v): - |
| C312 | proved | C312_planes_and_lines (VisProps.v): R2 |
| C313 | partial | C313_line_options_ignored_refuted (VisProps.v): R2, C313_lines_where (VisProps.v): R2 |
| C314 | proved | C314_every_layer_once (VisProps.v): R2, C314_invisible_points (VisProps.v): R2, C314_only_the_named_layers (VisProps.v): R2 |
| C315 | partial | C315_point_size_of_another_layer_refuted (VisProps.v): R2, C315_single_layer_where (VisProps.v): R2 |
| C316 | proved | C316_color_limits (VisProps.v): R2 |
| C317 | partial | C317_drawing_where (VisProps.v): R2, C317_drawing_changes_the_map_refuted (VisProps.v): R2 |
| C318 | proved | C318_pairings_shown (VisProps.v): R2 |
| C319 | partial | C319_other_pairings_not_shown_refuted (VisProps.v): R2 |
| C320 | proved | C320_horn_despite_outliers (RobustSolveProps.v): R3 |
| C321 | proved | C321_olae_despite_outliers (RobustSolveProps.v): R3 |
| C322 | partial | C322_reported_outlier_moves_the_pose_refuted (RobustSolveProps.v): R3, C322_first_pass_outliers_have_no_influence_where (RobustSolveProps.v): R3 |
| C323 | proved | C323_registration_recovers_the_pose (EndToEndProps.v): R3 |
| C324 | proved | C324_registration_with_olae_recovers_the_pose (EndToEndProps.v): R3 |
| C325 | proved | C325_range_of_the_whole_history (FloatHistoryProps.v): R4, C325_outputs_in_unit_interval (FloatHistoryProps.v): R4 |
| C326 | proved | C326_the_record (LogRecordProps.v): - |
| C327 | partial | C327_record_is_safe_where (LogRecordProps.v): -, C327_record_is_safe_refuted (LogRecordProps.v): - |
| C328 | proved | C328_logging_does_not_change_the_result (LogFileProps.v): -, C328_same_failures (LogFileProps.v): - |
| C329 | partial | C329_maps_untouched_where (LogRecordProps.v): -, C329_maps_untouched_refuted (LogRecordProps.v): - |
| C330 | partial | C330_filename_where (LogNameProps.v): -, C330_label_is_kept_refuted (LogNameProps.v): - |
| C331 | partial | C331_one_file_per_number_where (LogNameProps.v): -, C331_same_file_refuted (LogNameProps.v): -, C331_no_file_is_replaced_where (LogRecordProps.v): - |
| C332 | partial | C332_ids_distinguish_refuted (LogNameProps.v): -, C332_ids_distinguish_where (LogNameProps.v): - |
| C333 | partial | C333_record_is_a_snapshot_refuted (LogRecordProps.v): -, C333_record_is_a_snapshot_where (LogRecordProps.v): - |
| C334 | proved | C334_run_descends (MonotoneProps.v): R3, C334_icp_never_gets_worse (MonotoneProps.v): R3, C334_exact (MonotoneProps.v): R3 |
| C335 | partial | C335_default_options_where (MonotoneProps.v): R3, C335_default_options_refuted (MonotoneProps.v): R3 |
| C336 | partial | C336_colour_out_of_range_refuted (CliCodesProps.v): -, C336_colours_where (CliCodesProps.v): - |
| C337 | proved | C337_other_observations (SmMoreProps.v): -, C337_depth_images (SmMoreProps.v): -, C337_velodyne_scans (SmMoreProps.v): -, C337_custom_maps (SmMoreProps.v): - |
| C338 | proved | C338_unknown_variable (SmMoreProps.v): -, C338_errors_come_from_the_pipeline (SmMoreProps.v): - |
| C339 | partial | C339_compared_error (GnErrorProps.v): R4, C339_weighted_error_where (GnErrorProps.v): R4, C339_parallel_lines_undefined (GnErrorProps.v): R4, C339_weight_squared_refuted (GnErrorProps.v): R4, C339_builds_disagree_refuted (GnErrorProps.v): R4 |
| C340 | proved | C340_solvers_ignore_the_order (OrderProps.v): R3 |
| C341 | proved | C341_library_components_ignore_the_order (OrderProps.v): R3, C341_order_of_the_local_points (OrderProps.v): -, C341_default_pipeline (OrderProps.v): R3 |
| C342 | partial | C342_default_options_where (OrderWhereProps.v): R3, C342_default_options_refuted (OrderWhereProps.v): R3 |
| C343 | proved | C343_none_iff_empty (SummaryProps.v): -, C343_summary_shows_the_numbers (SummaryProps.v): - |
| C344 | partial | C344_throws (SummaryProps.v): -, C344_names_every_layer_refuted (SummaryProps.v): -, C344_names_every_layer_where (SummaryProps.v): -, C344_lines_and_planes (SummaryProps.v): -, C344_empty_map (SummaryProps.v): - |
| C345 | partial | C345_results_print (SummaryProps.v): -, C345_what_is_read_prints_refuted (SummaryProps.v): -, C345_what_is_read_prints_where (SummaryProps.v): - |
| C346 | proved | C346_aligned_pose_is_kept_by_horn (PlaneSolveProps.v): R3, C346_aligned_pose_is_kept_by_olae (PlaneSolveProps.v): R3 |
| C347 | partial | C347_error_never_grows_where (PlaneSolveProps.v): R3, C347_error_never_grows_refuted (PlaneSolveProps.v): R3 |
| C348 | proved | C348_wrong_translation_is_corrected (GnTransProps.v): R4, C348_within_the_limit_the_start_stays (GnTransProps.v): R4 |
| C349 | proved | C349_aligned_maps_stay_aligned (EndToEndGnProps.v): R4, C349_registration_with_gauss_newton_corrects_the_translation (EndToEndGnProps.v): R4 |
| C350 | proved | C350_run_descends (TrimmedProps.v): R3, C350_exact (TrimmedProps.v): R3 |
| C351 | partial | C351_default_options_where (TrimmedProps.v): R3, C351_default_options_refuted (TrimmedProps.v): R3 |
| C352 | proved | C352_same_pairs_stop (FixpointProps.v): R2 |
| C353 | proved | C353_one_best_fit_iff (HornUniqueProps.v): R3 |
| C354 | proved | C354_ends_by_itself (FixpointProps.v): R3 |
| C355 | partial | C355_unevaluated_formulas_refuse_where (RealizedProps.v): -, C355_box_ignores_it (RealizedProps.v): -, C355_unevaluated_formulas_refuse_refuted (RealizedProps.v): - |
| C356 | proved | C356_frame_of_the_global_map (FrameProps.v): R3 |
| C357 | proved | C357_axes_of_the_local_map (FrameProps.v): R3 |
| C358 | partial | C358_origin_of_the_local_map_where (FrameCaseProps.v): R3, C358_origin_of_the_local_map_refuted (FrameCaseProps.v): R3 |
| C359 | proved | C359_unit_of_length (UnitsProps.v): R3 |
| C360 | proved | C360_voxels_in_another_unit (VoxelUnitsProps.v): -, C360_single_voxels_in_another_unit (VoxelUnitsProps.v): -, C360_same_representative (VoxelUnitsProps.v): - |
| C361 | proved | C361_box_in_another_unit (FilterUnitsProps.v): -, C361_range_in_another_unit (FilterUnitsProps.v): -, C361_decimation_in_another_unit (FilterUnitsProps.v): - |
| C362 | partial | C362_origin_of_the_voxels_where (VoxelOriginProps.v): -, C362_origin_of_the_voxels_refuted (VoxelOriginProps.v): - |
