| FeatModel | estimate_points_eigen.cpp; Matcher_Point2Plane.cpp, Matcher_Point2Line.cpp, Matcher_Adaptive.cpp: one layer (the eigen-decomposition, the plane search and the statistics of mrpt are parameters) |
| CurvModel | FilterCurvature.cpp |
| PoleModel | FilterPoleDetector.cpp |
| QuadModel | FilterDecimateVoxelsQuadratic.cpp/.h |
| FMergeModel | FilterMerge.cpp; FilterVoxelSlice.cpp (insertObservation, the occupancy grid and the voxel map of mrpt are parameters) |
| EdgesModel | FilterEdgesPlanes.cpp (the eigen-solver of mrpt is a parameter) |
| EdgeGenModel | GeneratorEdgesFromCurvature.cpp; GeneratorEdgesFromRangeImage.cpp (the unprojection look-up table of mrpt is a parameter; the base class dispatch of the latter is in SmModel) |
| QEvalModel | QualityEvaluator_RangeImageSimilarity.cpp, QualityEvaluator_Voxels.cpp (evaluate; debug output and initialize dropped) |
| ConfigModel | icp_pipeline_from_yaml.cpp, ICP.cpp 481-606, Parameters.cpp load_from/save_to, FilterBase.cpp and Generator.cpp pipelines from YAML, load_plugin.cpp |
| VelYamlModel | LocalVelocityBuffer.cpp toYAML/fromYAML |
| SmCli | apps/sm-cli/*.cpp |
| MmTools | apps/mm-georef, mm-filter, mm2txt, txt2mm, kitti2mm main.cpp; metricmap.cpp save/load |
| IcpRun | apps/icp-run/main.cpp inputs, load_xyz_file.cpp, apps/rawlog-filter/main.cpp |
| Float | the floating point arithmetic of ICP::evaluate_quality, PairedRatio, robust_kernels.h, Matcher_Points_InlierRatio (count), FilterNormalizeIntensity, FilterAdjustTimestamps, FilterByRange, FilterDecimateVoxels (mean), coord2idx |
| GnPriorModel | mp2p_icp/src/optimal_tf_gauss_newton.cpp 310-341 (prior term) |
| InitModel.v | PairWeights.cpp 26-44, WeightParameters.cpp 70-90, Matcher.cpp 28-33, Solver.cpp 28-34, Solver_Horn.cpp 33-39, Solver_OLAE.cpp 31-37, Matcher_Points_Base.cpp 132-181, Matcher_Adaptive.cpp 32-57, Matcher_Point2Line.cpp 35-44, Matcher_Points_InlierRatio.cpp 34-39, Matcher_Points_DistanceThreshold.cpp 39-46, QualityEvaluator_PairedRatio.cpp 27-43, QualityEvaluator_Voxels.cpp 33-38 |
| GenInitModel.v | Generator.cpp 47-160 and 515-561, Generator.h 106-157 |
| FInitModel.v | initialize() of the filters: FilterDecimateVoxels.cpp 36-105, FilterDeleteLayer.cpp 28-72, FilterByRing.cpp 29-62, FilterBoundingBox.cpp 30-72, FilterByRange.cpp 30-65, FilterMerge.cpp 32-59, FilterDeskew.cpp 41-67, FilterByIntensity.cpp 29-54, FilterAdjustTimestamps.cpp 30-53, FilterNormalizeIntensity.cpp 30-52, FilterCurvature.cpp 30-50, FilterVoxelSlice.cpp 30-54, FilterPoleDetector.cpp 108-139, FilterRemoveByVoxelOccupancy.cpp 32-56, FilterDecimateAdaptive.cpp 31-57, FilterDecimateVoxelsQuadratic.cpp 30-60, FilterEdgesPlanes.cpp 29-56 |
| LpmModel.v, LpmSpec.v | ICP_LibPointmatcher.cpp 51-225, metricmap.cpp 437, 534-555, 750-766 |
| SanityModel.v | pointcloud_sanity_check.cpp 27-76 |
| CliAppsModel.v | apps/icp-run/main.cpp 114-136, 226-334; apps/sm2mm/main.cpp 82-153; apps/mm-info/main.cpp 35-65 |
| VisModel.v, VisSpec.v | metricmap.cpp 180-434, render_params.h, Pairings.cpp 176-276 |
| EndToEndModel.v | ICP.cpp:36-382, Matcher_Points_DistanceThreshold.cpp, Solver_Horn.cpp:41-64, Solver_OLAE.cpp:46-67, QualityEvaluator_PairedRatio.cpp:45-73 composed |
| LogFileModel.v | ICP.cpp:64-77, 322-468; LogRecord.cpp:82-98 |
| SummaryModel.v | mp2p_icp/src/Pairings.cpp (149-173), mp2p_icp_map/src/metricmap.cpp (557-648), mp2p_icp/src/Results.cpp (57-70), IterTermReason.h |
| PlaneSolveModel.v | mp2p_icp/src/pt2ln_pl_to_pt2pt.cpp (46-118), Solver_Horn.cpp (41-64), Solver_OLAE.cpp (46-67) |
