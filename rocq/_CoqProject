-Q theories Verif
theories/AdMatchProofs.v
theories/AdMatchProps.v
theories/AdMatchSpec.v
theories/AdaptiveProps.v
theories/Base.v
theories/BitfieldModel.v
theories/BitfieldProofs.v
theories/BitfieldProps.v
theories/BitfieldSpec.v
theories/BruteNN.v
theories/ChannelProps.v
theories/CliAppsModel.v
theories/CliAppsProps.v
theories/CliCodesProps.v
theories/CodecModel.v
theories/CodecProofs.v
theories/ConfigModel.v
theories/ConfigProps.v
theories/ConfigSpec.v
theories/CovModel.v
theories/CovProps.v
theories/CurvModel.v
theories/CurvProofs.v
theories/CurvProps.v
theories/CurvSpec.v
theories/DecimateProps.v
theories/DescentProofs.v
theories/DeskewModel.v
theories/DeskewProps.v
theories/EdgeGenModel.v
theories/EdgeGenProofs.v
theories/EdgeGenProps.v
theories/EdgeGenSpec.v
theories/EdgesModel.v
theories/EdgesProofs.v
theories/EdgesProps.v
theories/EdgesSpec.v
theories/EigenProps.v
theories/EigenSpec.v
theories/EndToEndGnProps.v
theories/EndToEndModel.v
theories/EndToEndProps.v
theories/ErrorProps.v
theories/FInitModel.v
theories/FInitProofs.v
theories/FInitProps.v
theories/FInitSpec.v
theories/FMergeModel.v
theories/FMergeProps.v
theories/FeatModel.v
theories/FeatProofs.v
theories/FeatProps.v
theories/FeatSpec.v
theories/FeatWhereProps.v
theories/FilterModel.v
theories/FilterProofs.v
theories/FilterProofs2.v
theories/FilterProps.v
theories/FilterSpec.v
theories/FilterUnitsProps.v
theories/FilterWhereProps.v
theories/FixpointProofs.v
theories/FixpointProps.v
theories/FloatBase.v
theories/FloatHistoryProps.v
theories/FloatIntensityProps.v
theories/FloatKernelProps.v
theories/FloatModel.v
theories/FloatProps.v
theories/FloatStampProps.v
theories/FloatVoxelProps.v
theories/FrameCaseProps.v
theories/FrameProofs.v
theories/FrameProps.v
theories/FrameStep.v
theories/GenInitModel.v
theories/GenInitProofs.v
theories/GenInitProps.v
theories/GenInitSpec.v
theories/GeomModel.v
theories/GeomProps.v
theories/GeomWhereProps.v
theories/GnCasesProps.v
theories/GnErrorProps.v
theories/GnGradProps.v
theories/GnModel.v
theories/GnPriorModel.v
theories/GnPriorProps.v
theories/GnProps.v
theories/GnSpec.v
theories/GnTransProps.v
theories/GnWhereProps.v
theories/HornModel.v
theories/HornOutlierProps.v
theories/HornProofs.v
theories/HornProps.v
theories/HornUniqueProps.v
theories/HornWhereProps.v
theories/IcpModel.v
theories/IcpProofs.v
theories/IcpProofs2.v
theories/IcpProps.v
theories/IcpRunModel.v
theories/IcpRunProps.v
theories/IcpSpec.v
theories/InitModel.v
theories/InitProofs.v
theories/InitProps.v
theories/InitSpec.v
theories/KernelProps.v
theories/LatchProofs.v
theories/LatchProps.v
theories/LatchSpec.v
theories/LogFileModel.v
theories/LogFileProps.v
theories/LogNameProps.v
theories/LogRecordProps.v
theories/LooseEndsProps.v
theories/LpmModel.v
theories/LpmProps.v
theories/LpmSpec.v
theories/MapModel.v
theories/MapProps.v
theories/MapWhereProps.v
theories/MatcherModel.v
theories/MmToolsModel.v
theories/MmToolsProps.v
theories/MonotoneProps.v
theories/NoiselessProofs.v
theories/OlaeModel.v
theories/OlaeProofs.v
theories/OlaeProps.v
theories/OrderProofs.v
theories/OrderProps.v
theories/OrderWhereProps.v
theories/PairingsModel.v
theories/PairingsProofs.v
theories/PairingsProps.v
theories/PairingsSpec.v
theories/ParallelModel.v
theories/ParallelProps.v
theories/ParamModel.v
theories/ParamProps.v
theories/ParamReconfProps.v
theories/PipelineProofs.v
theories/PipelineProps.v
theories/PipelineSpec.v
theories/PlaneSolveModel.v
theories/PlaneSolveProps.v
theories/PointMatcherModel.v
theories/PointMatcherProofs.v
theories/PointMatcherProofs2.v
theories/PointMatcherProofs3.v
theories/PointMatcherProofs4.v
theories/PointMatcherProofs5.v
theories/PointMatcherProofs6.v
theories/PointMatcherProofs7.v
theories/PointMatcherProps.v
theories/PointMatcherSpec.v
theories/PointMatcherWhereProps.v
theories/PoleModel.v
theories/PoleProofs.v
theories/PoleProps.v
theories/PoleSpec.v
theories/QEvalModel.v
theories/QEvalProofs.v
theories/QEvalProps.v
theories/QEvalSpec.v
theories/QuadModel.v
theories/QuadProofs.v
theories/QuadProps.v
theories/QuadSpec.v
theories/QualityModel.v
theories/RealizedProps.v
theories/RobustSolveProps.v
theories/RotProofs.v
theories/SanityModel.v
theories/SanityProps.v
theories/SerialFitProps.v
theories/SerialModel.v
theories/SerialProofs.v
theories/SerialProps.v
theories/SerialWhereProps.v
theories/SmCliExportProps.v
theories/SmCliModel.v
theories/SmCliProps.v
theories/SmModel.v
theories/SmMoreProps.v
theories/SmProps.v
theories/SmWhereProps.v
theories/SolverModel.v
theories/SummaryModel.v
theories/SummaryProps.v
theories/TrimmedProps.v
theories/TxtToMapProps.v
theories/UnitsProps.v
theories/VelYamlModel.v
theories/VelYamlProps.v
theories/VelocityModel.v
theories/VelocityProofs.v
theories/VelocityProps.v
theories/VisModel.v
theories/VisProps.v
theories/VisSpec.v
theories/VisitModel.v
theories/VisitProps.v
theories/VisitSpec.v
theories/VoxQualProps.v
theories/VoxelModel.v
theories/VoxelOriginProps.v
theories/VoxelProofs.v
theories/VoxelProofs2.v
theories/VoxelProps.v
theories/VoxelSpec.v
theories/VoxelUnitsProps.v
theories/VoxelWhereProps.v
