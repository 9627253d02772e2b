| id | property | model and proof plan |
|---|---|---|
| C01 | Merging pairing sets keeps every pairing, in order | PairingsModel: record of five lists + weight blocks + counter; push_back by list append; direct proof. |
| C02 | Merging by copy and by move give the same result | same model, move overload; equality refuted (counter overwritten, weights dropped), proved on the five lists. |
| C03 | Pairings survive serialization | byte-level codec (Codec.v: list of bytes, u8/u32/u64 little-endian, vectors with length prefix); round trip with arbitrary suffix, prefix rejection, version gate. |
| C04 | Robust centroids are the mean of the non-outlier pairs | eval_centroids_robust as the loop over indices with an outlier cursor; spec = sum over filtered index list. |
| C05 | A matcher only runs in its configured iteration window | decision rule as boolean function; iff statement. |
| C06 | run_matchers is the ordered concatenation of all matchers' outputs | run_matchers as a fold with oracle matchers; spec by independent recursive concatenation. |
| C07 | Distance-threshold pairings respect the configured bound | implMatchOneLayer (non-TBB) over integer coordinates with a nearest-neighbour oracle; invariant over the loop. |
| C08 | No global point is paired twice when re-matching is forbidden | invariant on match state: every paired global index is marked. |
| C09 | A local point already matched is skipped by later matchers | same loop; refuted for allowGlobal=true, proved for allowGlobal=false. |
| C10 | Distance-threshold matching is complete | same loop, NN oracle specified as k nearest sorted. |
| C11 | Inlier-ratio matcher keeps the best fraction | sorted multimap as insertion sort; nKeep rounding; spec about order. |
| C12 | Layer selection and per-layer weights | impl_match over association lists of layers; weight block invariant. |
| C13 | Local cloud subsampling picks distinct points of the whole cloud | transform_local_to_global with a permutation parameter; distinctness proved, "every point has a chance" refuted. |
| C14 | Parallel matching gives the sequential pairings | interleaving semantics: each iteration is read/append/mark steps; refuted with a two-thread schedule, permutation invariance proved when re-matching is allowed. |
| C15 | Matched-point bookkeeping behaves as a set | both representations refine a set of indices. |
| C16 | A solver only runs in its configured window | gate with latch as state machine over call sequences. |
| C17 | Solver pipeline: first success wins | fold over solver oracles. |
| C18 | ICP always stops within the iteration budget and says why | align loop as fuelled recursion over oracle components, total result record; trace of events. |
| C19 | The returned pose is the last solution found | same; refuted on solver error (solver resets output), proved otherwise. |
| C20 | Stalling means two consecutive small corrections | same; stall test as boolean over absolute components. |
| C21 | Quality checkpoints and hooks end ICP at once | same; trace shows no later call. |
| C22 | Returned pairings belong to the returned solution | same. |
| C23 | Overall quality is a weighted mean within [0,1] | weighted mean over rationals/reals. |
| C24 | Paired-ratio quality is a ratio in [0,1] | counts as naturals, ratio as real. |
| C25 | Debug-log numbering and decimation | atomic counter step, list of requests in any interleaving order. |
| C26 | Per-layer point weights are applied to the right pairs | cursor over weight blocks as in the visitor; spec = block index by prefix sums; refuted in presence of outliers at block boundaries, proved without outliers. |
| C27 | Robust kernels are proper down-weighting functions | real functions, stdlib Reals. |
| C28 | Residuals vanish exactly on perfect alignment | real geometry, algebra + sum of squares. |
| C29 | Analytic Jacobians are the derivatives of the residuals | real 12-vector algebra; exact affine expansion; line-to-line by derivative. |
| C30 | Gauss-Newton restarts its normal equations at each inner iteration | inner loop with accumulators; two build flavours. |
| C31 | Covariance residual vector has one slot per residual | index layout as list of (slot) writes; refuted with line-to-line pairs, proved without. |
| C32 | Closed-form solvers refuse under-determined problems and leave the previous pose intact | gate on the number of pairs; wrapper resets the output first, refuted. |
| C33 | Line and plane pairings convert to genuine point pairs | projection algebra over reals, selection as loop over the sorted list. |
| C34 | Metric maps survive serialization across versions | codec for every version with abstract layer payload codec. |
| C35 | Merging maps adds up contents or changes nothing | maps as association lists; merge as code order with exception outcome carrying the mutated state. |
| C36 | Map size and emptiness are consistent | same model. |
| C37 | The velocity buffer keeps exactly the recent window | sorted association list keyed by time, window pruning. |
| C38 | Trajectory reconstruction never reads outside the buffer | iterator positions in a sorted list; end dereference as UB outcome. |
| C39 | Realised parameters always reflect the latest variables | parameter objects + environment + expression oracle; realize as state machine. |
| C40 | Bounding-box filter partitions the cloud | cloud as list of points, layers as association list; aliasing modelled. |
| C41 | Range, intensity and ring filters partition the cloud | same. |
| C42 | Voxel grids put each point in exactly one voxel | grid as association list keyed by integer triples; C++ truncating division modelled on integers. |
| C43 | Voxel decimation keeps one representative per occupied voxel | same grid, per-method selection; random choice as oracle. |
| C44 | Adaptive decimation reaches its target without inventing or repeating points | round-robin loop with fuel. |
| C45 | Deleting layers is all-or-error | association list removal. |
| C46 | Timestamp adjustment preserves differences | real lists. |
| C47 | Intensity normalisation stays in [0,1] and is monotone | real lists with memory state. |
| C48 | Filter pipelines run in order and stop on error | folds with outcome. |
| C49 | Deskewing touches every point once, in any schedule | array write model with arbitrary permutation of iterations. |
| C50 | simplemap_to_metricmap processes exactly the requested key-frames | loop bounds, environment of variables. |
