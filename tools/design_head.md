# DESIGN

Formal model of MOLAorg/mp2p_icp (pinned commit in /repo) in Rocq (Coq 8.16.1).  `properties.jsonl` lists the
properties, `MANIFEST.json` maps them to theorems, `seeded/LOG.jsonl` records the wrong programs tried against the
theorems.  This file is generated by `tools/design.py` from `tools/design_head.md`, `tools/design_plan.md` and the
manifest.

## How the development is organised (rocq/theories)

| suffix | role |
|---|---|
| `*Model.v` | the code, function by function; each definition cites file and lines of /repo and its simplifications |
| `*Spec.v` | vocabulary used by the statements (few small definitions, no reference to the model's loops) |
| `*Proofs*.v` | lemmas |
| `*Props.v` | the theorems named `Cxx_...`, one `Print Assumptions` after each, and concrete cases that meet their hypotheses |

Conventions:
- `res A = Ok a | Throw | UB` (Base.v): a C++ exception is `Throw`, undefined behaviour (out-of-range index, null or
  end dereference) is `UB`, so "never undefined" is a provable statement.
- A theorem whose name ends in `_refuted` proves that the code violates the property: the opposite of its statement,
  either for all inputs of a class or on a concrete run of the model.  Such properties have status `partial`.  Where
  the code violates a natural property only on part of its domain, the property is split: one id for the exact domain on
  which it holds (`proved`), another for the failing part (`_refuted`).
- Where C++ gives no order (hash maps, thread schedules, random numbers), the model has a parameter and the theorem
  quantifies over it.
- External code (mrpt, Eigen, exprtk, TBB) is a parameter; what is assumed of it is a visible hypothesis of the theorem
  (e.g. `nn_correct`: the k-nearest search returns the k nearest; `spectral`: the symmetric eigen-solver returns an
  orthonormal eigenbasis), and a concrete instance beside the theorems shows that it can be met.

## Trusted base

1. **Coq's kernel** 8.16.1 (and `coqchk`, which vcheck runs), `coq_makefile`.  No kernel check is switched off, there is
   no axiom, parameter, Admitted, functor, module type or plugin of our own.
2. **Axioms** listed by `Print Assumptions`, all of the standard library (the table at the end has the list for each theorem):
   - `-`: closed under the global context;
   - `R2`: `ClassicalDedekindReals.sig_forall_dec`, `FunctionalExtensionality.functional_extensionality_dep`;
   - `R3`: those and `ClassicalDedekindReals.sig_not_dec`;
   - `R4`: those and `Classical_Prop.classic`.
   They come from the standard library's real numbers; theorems over naturals, integers and rationals use none.
3. **The reading of the C++**: that each model definition does what the cited lines do.
4. **Arithmetic**: floats and doubles are exact rationals (`Q`) or exact reals (`R`).  Rounding, NaN, infinities and
   overflow of `float`/`double` are outside every theorem, as is overflow of 32-bit voxel indices.  Serialization works on
   64-bit patterns, so nothing is assumed there.  Unsigned counters that the code lets wrap (debug-log number) are modelled
   with their wrap-around.
5. **Memory model**: threads are interleaved one memory access at a time (sequential consistency).  The theorems about
   parallel loops either show that the accesses never conflict (so there is no data race) or exhibit one.

## What is modelled

| model | code of /repo |
|---|---|
| PairingsModel | Pairings.cpp/.h: construction, push_back (copy, move), size, empty, contents counters, eval_centroids_robust |
| MatcherModel | Matcher.cpp: iteration window, run_matchers |
| BitfieldModel | pointcloud_bitfield.h, MatchState of Matcher.h |
| PointMatcherModel | Matcher_Points_Base.cpp, Matcher_Points_DistanceThreshold.cpp (sequential build), Matcher_Points_InlierRatio.cpp |
| ParallelModel | the TBB build of Matcher_Points_DistanceThreshold.cpp (ranges, schedule) |
| SolverModel, IcpModel, QualityModel | Solver.cpp, ICP.cpp align() loop, quality evaluation, QualityEvaluator_PairedRatio, debug-log numbering |
| VelocityModel | LocalVelocityBuffer.cpp: adding, pruning, trajectory reconstruction |
| CodecModel, SerialModel | serialization of Pairings, PairWeights, WeightParameters, Parameters, Results, LogRecord, metric_map_t, Georeferencing |
| FilterModel | FilterBoundingBox, ByRange, ByIntensity, ByRing, RemoveByVoxelOccupancy, DeleteLayer, AdjustTimestamps, NormalizeIntensity, GetOrCreatePointLayer, apply_filter_pipeline |
| VoxelModel | PointCloudToVoxelGrid(+Single), FilterDecimateVoxels, FilterDecimateAdaptive |
| GeomModel | errorTerms.cpp, robust_kernels.h, pt2ln_pl_to_pt2pt.cpp |
| VisitModel, HornModel, OlaeModel | visit_correspondences.h, optimal_tf_horn.cpp, optimal_tf_olae.cpp, Solver_Horn/OLAE |
| GnModel | optimal_tf_gauss_newton.cpp, Solver_GaussNewton.cpp |
| CovModel | covariance.cpp |
| ParamModel | Parameterizable.cpp/.h |
| DeskewModel | FilterDeskew.cpp |
| MapModel | metricmap.cpp: merge_with, empty, size, clone/copy, georeference as YAML |
| SmModel | Generator.cpp, sm2mm.cpp |
@@EXTRA@@

## What is not modelled

Floating-point rounding, except in the Float models (C249-C266); the mrpt containers and nearest-neighbour trees; OpenGL (the objects `get_visualization`
creates are modelled, their rendering is not); log formatting, profiling; dynamic linking itself (load_plugin.cpp is modelled up to dlopen); libpointmatcher
(the wrapper ICP_LibPointmatcher is modelled, the library is a parameter); command-line parsing of the apps; the GUI programs mm-viewer and icp-log-viewer.  See the comment at the head of each model for local
simplifications.

## Plan per property

Each line: what is modelled and how it is proved.
