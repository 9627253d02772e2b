{
 "AdaptiveProps.v": "VoxelModel: the round-robin loop of FilterDecimateAdaptive with a per-voxel cursor; invariants over passes.",
 "BitfieldProps.v": "BitfieldModel: refinement to a set of ids over all operation histories.",
 "ChannelProps.v": "FilterModel: filters that change a channel (time, intensity) as list maps with memory; proofs on min/max folds.",
 "CovProps.v": "CovModel: the residual vector as slots written in order; index arithmetic.",
 "DecimateProps.v": "VoxelModel: grid as an association list with arbitrary visiting order; induction over the cloud.",
 "DeskewProps.v": "DeskewModel: iterations as programs of memory accesses, any interleaving; simulation argument.",
 "FilterProps.v": "FilterModel: the loop over the input layer, aliasing of layers included; induction on the index.",
 "GeomProps.v": "GeomModel: real algebra (nsatz, nra) and derivatives.",
 "GnCasesProps.v": "GnModel: runs of the inner loop in both builds, schedules and racing additions.",
 "GnProps.v": "GnModel: normal equations as folds; the fixed point and descent arguments by real algebra.",
 "HornProps.v": "HornModel: quaternion form and spectral decomposition; optimality over all rotations by real algebra.",
 "IcpProps.v": "IcpModel: align() as a fuelled loop over arbitrary components; induction on the iterations.",
 "KernelProps.v": "GeomModel: robust kernels as real functions.",
 "MapProps.v": "MapModel: maps over a heap of shared layer objects; induction on the layers.",
 "OlaeProps.v": "OlaeModel: linear systems of the four formulations; real algebra.",
 "PairingsProps.v": "PairingsModel: lists and counters.",
 "ParallelProps.v": "ParallelModel: interleavings of the workers of the TBB build.",
 "ParamProps.v": "ParamModel: state machine of declare/attach/update/realize; invariants over all histories.",
 "PipelineProps.v": "MatcherModel, SolverModel: folds over arbitrary components.",
 "PointMatcherProps.v": "PointMatcherModel with a nearest-neighbour search assumed correct; loop invariants on match state and output.",
 "SerialProps.v": "SerialModel: byte-level codecs of every version; round trips, truncation, version gates.",
 "SmProps.v": "SmModel: the generators and the key-frame loop of sm2mm over arbitrary observations.",
 "VelocityProps.v": "VelocityModel: sorted association lists, all histories.",
 "VisitProps.v": "VisitModel: the walk over correspondences as the list of calls received by the lambda.",
 "VoxelProps.v": "VoxelModel: induction over the inserted points.",
 "FeatProps.v": "FeatModel: the visiting loops are reduced to one generic loop over the points that take part, then induction.",
 "EigenProps.v": "FeatModel: sums over lists, permutations.",
 "AdMatchProps.v": "FeatModel: invariant of the table of neighbours, sortedness turns break into filter, induction over the table.",
 "LatchProps.v": "IcpModel + SolverModel: invariant over the iterations of align() relating the latch, the event trace and an external log of the calls.",
 "CurvProps.v": "CurvModel: FilterCurvature as a fold over each ring, square roots avoided by exact sign tests; invariant of the thinning, class relation with real distances.",
 "PoleProps.v": "PoleModel: FilterPoleDetector with an association-list grid and arbitrary visiting order; invariant of the grid built so far.",
 "QuadProps.v": "QuadModel: FilterDecimateVoxelsQuadratic on top of the voxel grid model; the lattice coordinate is characterised by a small relation; algebra for its shape.",
 "FMergeProps.v": "FMergeModel: FilterMerge and FilterVoxelSlice with the target map's insertion and the grid's update as arbitrary functions; induction over points and voxels.",
 "EdgesProps.v": "EdgesModel: FilterEdgesPlanes with an arbitrary eigen-solver; fold over the visited voxels, each contributing a piece specified by small relations.",
 "EdgeGenProps.v": "EdgeGenModel: images as functions on pixels, loops as flat maps, fixed-point statistics on integers with int64 overflow explicit; telescoping sums, bounds, and lists of pixels in reading order.",
 "QEvalProps.v": "QEvalModel: range images as functions on pixels with squared rational ranges, fold over the points with the nearest-point invariant; the mean as a sum over pixels in the reals; phi abstract.",
 "VoxQualProps.v": "QEvalModel: voxel maps as lists of cells, the terms of the sum are characterised as the losses of the compared pairs; bounds of the mean; monotonicity of the logistic function.",
 "ConfigProps.v": "ConfigModel: YAML trees, a state monad over the set of loaded plugins; class registry, initialisers and scalar conversions arbitrary; loops by induction on the entries against relational specifications (ConfigSpec).",
 "VelYamlProps.v": "VelYamlModel: YAML trees of the buffer; round trip by induction on the sorted entries; text formats as parameters with stated laws.",
 "FilterWhereProps.v": "exact domain on which the refuted filter properties do hold: induction over the input points / layer names",
 "VoxelWhereProps.v": "exact domain on which the refuted voxel-filter properties do hold: induction over the points and the voxel list",
 "GeomWhereProps.v": "exact domain on which the refuted residual / weight properties do hold: case analysis, real arithmetic and induction over the pair list",
 "HornWhereProps.v": "Case analysis of the Horn solver on the pairings that make it fail, with the optimality lemmas of HornProofs.v.",
 "SmWhereProps.v": "Case analysis over the pipeline steps of sm2mm and the simple-map generators.",
 "MapWhereProps.v": "Computation of the map operations on the arguments for which nothing is lost.",
 "SerialWhereProps.v": "From the round-trip lemmas of SerialProofs.v, with the exact value read back.",
 "PointMatcherWhereProps.v": "From C09, the layer completeness lemma and the subsampling lemmas; case split on the effective limit.",
 "GnWhereProps.v": "Induction over the inner iterations; the cursor over equal weights is constant, and a lossless race sums all contributions.",
 "FeatWhereProps.v": "From the exact results C144 and C147: counting the near neighbours, inspecting the accepted planes and pairs.",
 "HornOutlierProps.v": "Second pass of Horn: the centroid loop with a sorted list of outliers is shown to skip exactly them (induction with the cursor invariant of the walk); C210 is refuted by five pairs on a line for every eigen decomposition, and proved for first-pass outliers by extensionality of the walk.",
 "SmCliProps.v": "Each command is unfolded over an arbitrary map (induction over the keyframes); from_ypr is shown to be a rotation from sin2+cos2=1; C217 by showing that the exit code commutes with every write; C224 by the row norm of a rotation matrix.",
 "SmCliExportProps.v": "Induction over keyframes and observations with invariants: sorted association lists for the label table and the trajectory, the bounding box and the extreme time stamps of a prefix.",
 "MmToolsProps.v": "A file system with explicit write steps (truncate, complete): each program is unfolded over an arbitrary one, crash points are prefixes of the list of steps; association lists for layers.",
 "TxtToMapProps.v": "Row-major matrix lemma (element (i, j) of the concatenated rows is the j-th of row i) and induction over the rows.",
 "IcpRunProps.v": "Substring search is characterised (first occurrence); induction over the entries of the rawlog.",
 "FloatProps.v": "IEEE-754 numbers of Flocq; the value of each operation is the rounded exact value, saturated at infinity (FloatBase.v), and rounding is monotone: induction over the evaluators with 0 <= sum of products <= sum of weights.",
 "FloatIntensityProps.v": "Monotonicity of rounding; exact threshold at which 1/width overflows (floats are multiples of 2^-149); relative error of one division.",
 "FloatStampProps.v": "Monotonicity of rounding, relative error of a difference (holds without underflow condition), Sterbenz, tie to even at 1 + 2^-24.",
 "FloatVoxelProps.v": "Truncation of a rounded quotient; induction over the sum for the accumulated error ((1+u)^n - 1).",
 "FloatKernelProps.v": "Monotonicity of rounding with saturation, division by infinity; error bounds propagated through the six operations of the squared distance.",
 "GnPriorProps.v": "the prior term is separated from an iteration without prior (iter_drop), matrix algebra, then the loop by induction on the fuel",
 "GnGradProps.v": "every residual is affine in the 12 numbers of the pose (C29), whose derivative along a curve is computed component by component; sums over the pairs by induction",
 "ParamReconfProps.v": "invariant of one variable over histories of calls; rounding to millionths by its floor",
 "InitProps.v": "loaders as sequences of read, required and optional entries; inversion and construction of successful loads; induction over the list of layer entries",
 "GenInitProps.v": "invariant of the two loops over the entries (cells are fresh, keys sorted), refinement to the INI block, composition with C39 on histories of parameter updates",
 "FInitProps.v": "every loader as an equivalence with a relation between entries, old and new state; preservation lemmas over sequences of loaders; composition with the routing theorems C40, C41, C45",
 "LpmProps.v": "case analysis of the call into one inversion lemma, then geometry over the reals: triangle inequality, isometry of rotations",
 "SanityProps.v": "each block as a function of the channel's completeness, then cases",
 "CliAppsProps.v": "inversion of the chain of steps into a relational specification, in both directions; induction over the inputs for the cache",
 "VisProps.v": "induction over the layers with the objects so far as accumulator; relational specification of one layer (VisSpec.v)",
 "RobustSolveProps.v": "the second walk over exact pairs (induction with the position in the sorted outlier list), then the optimality of Horn's rotation and the algebra of OLAE's four systems",
 "EndToEndProps.v": "the nearest-neighbour contract gives one candidate per point; induction over the matcher's loop with the bit fields; C86 or C90 for the solver; the distances at the true pose are 0, so the second iteration makes the same pairs and stalls",
 "FloatHistoryProps.v": "induction over the history: the memory holds the extremes of all intensities seen; then rounding is monotone, so the division and the clamp keep the order and the unit interval; errors by case analysis",
 "LogFileProps.v": "simulation: the loop with and without logging, related by equality up to the iteration details; induction over the iterations",
 "LogRecordProps.v": "case analysis of align with its logging; induction over the history of records with the names written so far as invariant; refutations computed in a concrete world",
 "LogNameProps.v": "tokens: each pass of regex_replace over a concatenation of tokens replaces exactly the tokens of its kind; decimal numbers are read back, so padding is injective; a text without dollars in front is kept by all passes",
 "ErrorProps.v": "case analysis",
 "MonotoneProps.v": "per-point bounds before and after the solver (triangle inequality for the rounding), summed by induction over the points; least squares (C85) in between; induction over the iterations with the event trace; refutation computed on a scene of 21 points",
 "CliCodesProps.v": "computed exit codes over all command lines classes; case analysis on the reader's outcome",
 "SmMoreProps.v": "induction over sensory frames and generators with an explicit schedule of calls; case analysis per observation kind; invariant over the key-frame loop for the errors",
 "SerialFitProps.v": "the encodable values characterised per class by lengths and ranges; round trip theorems restated on them",
 "GnErrorProps.v": "per-class sums by induction over the pairs; induction over the inner iterations with the position in the log; refutations computed on one pair",
 "LooseEndsProps.v": "algebra on the Jacobian rows; bounds on the rounded quotient; acceptance of documents characterised by induction over the entries",
 "OrderProofs.v": "permutation invariance of the sums and centroids; the outliers as positions of a predicate that does not depend on the order",
 "OrderProps.v": "the matcher's pairs as a flat_map over the local points; simulation of the two runs iteration by iteration",
 "OrderWhereProps.v": "simulation of the two runs, along the matcher calls of the first; the refutation computes both runs, with the spectral decomposition of both Horn matrices",
 "SummaryProps.v": "the summary as a list of (number, kind) entries, and injectivity of its text by reading it from the left; containment of the parts through the appends; reuse of the round trip of C60",
 "PlaneSolveProps.v": "the conversion computed at a pose that fits; majorize-minimize argument: the converted point pairs touch the plane and line distances at the current pose and bound them elsewhere, and Horn is least squares on them (C85)",
 "GnTransProps.v": "residuals at the moved pose are exactly -J d, so d solves the normal equations whatever the weights; uniqueness from well-posedness; the second inner iteration finds no error",
 "EndToEndGnProps.v": "the run of EndToEndProps (C323) with a solver object that reads its starting pose from the context; three corners of a triangle make the system well posed",
 "DescentProofs.v": "induction over the loop of align() for any matcher whose pairs bound a cost from above at every pose and nearly equal it at the current one",
 "TrimmedProps.v": "the multimap is sorted, so the pairs kept have the least sum among all choices of k candidates (induction over the sorted list); the least-squares pose can only lower the sum over the kept points, which bounds the trimmed sum; refutation by a computed run",
 "FixpointProofs.v": "an inductive relation for the course of a run of align() (searches, poses, reason), shown of every run by induction over the loop",
 "FixpointProps.v": "the cost of the pairs falls strictly while the run goes on, so no set of pairs returns; there are finitely many (pigeonhole)",
 "HornUniqueProps.v": "the sum of squares as a quadratic form of the quaternion plus the error of the centroid; a simple greatest eigenvalue leaves two opposite quaternions, a double one gives a second rotation",
 "RealizedProps.v": "case analysis of each filter's prelude; the bounding box filter is shown to compute the same whatever the flag, with a counterexample",
 "FrameProofs.v": "inverse and product of rigid motions; what it means that a pose, a point or a pair is the same seen from another frame",
 "FrameStep.v": "distances are the same from both frames, so are nearest neighbours and the threshold test; the best fit of the moved pairs is the moved best fit, by its uniqueness",
 "FrameProps.v": "simultaneous induction over the courses of the two runs; a step seen from other frames is the step conjugated by the motion of the local frame",
 "FrameCaseProps.v": "C358's common part from the induction of FrameProps; the scene of six points seen from four frames, Horn's matrix computed in closed form for all of them, two- and one-iteration runs computed for an abstract matcher",
 "UnitsProps.v": "C359 by induction on the course of the two runs: points seen from rescaled poses are rescaled, so are distances and thresholds, and the rescaled best fit is the best fit; the case computes both runs (factors 1 and 2) for the six points",
 "VoxelUnitsProps.v": "C360 by induction over the points: the indices, the distance test, the means and the squared errors are homogeneous",
 "FilterUnitsProps.v": "C361 by a relation between the effects on two maps, kept by every step of the filters",
 "VoxelOriginProps.v": "C362's domain by induction over the points, the refutation by computing two grids"
}