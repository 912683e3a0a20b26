-Q theories Verif

theories/RealLib.v
theories/ListLib.v
theories/EvolveModel.v
theories/EvolveProofs.v
theories/EvolveProps.v
theories/NeighbourModel.v
theories/NeighbourProofs.v
theories/NeighbourProps.v
theories/MeshFactoryModel.v
theories/MeshFactoryProofs.v
theories/MeshFactoryProps.v
theories/GeometryModel.v
theories/GeometryProps.v
theories/ArrayLib.v
theories/FluxModel.v
theories/FluxFunctionProofs.v
theories/FluxFunctionProps.v
theories/FluxProofs.v
theories/FluxProps.v
theories/FluxTimestepProps.v
theories/FluxMeshProps.v
theories/ReconModel.v
theories/ReconProofs.v
theories/ReconProps.v
theories/CentroidModel.v
theories/CentroidProofs.v
theories/CentroidProps.v
theories/ExtremaModel.v
theories/ExtremaProofs.v
theories/ExtremaProps.v
theories/GradientModel.v
theories/GradientProps.v
theories/RKModel.v
theories/RKProofs.v
theories/RKProps.v
theories/InvertedModel.v
theories/InvertedProofs.v
theories/InvertedProps.v
theories/SparseModel.v
theories/SparseProofs.v
theories/SparseProps.v
theories/PolygonModel.v
theories/PolygonProofs.v
theories/PolygonProps.v
theories/SegmentProps.v
theories/AreaProps.v
theories/LineIntersectProps.v
theories/QuadModel.v
theories/QuadProps.v
theories/QuadTreeModel.v
theories/QuadTreeProps.v
theories/FitModel.v
theories/FitProps.v
theories/CGModel.v
theories/CGProofs.v
theories/CGProps.v
theories/GeoRefModel.v
theories/GeoRefProps.v
theories/HistogramModel.v
theories/HistogramProps.v
theories/Interp2dModel.v
theories/Interp2dProps.v
theories/InletModel.v
theories/InletProofs.v
theories/InletProps.v
theories/StructureProps.v
theories/RateProps.v
theories/BoundaryModel.v
theories/BoundaryProps.v
theories/SetBoundaryModel.v
theories/SetBoundaryProps.v
theories/CacheModel.v
theories/CacheProps.v
theories/KahnLib.v
theories/CheckpointModel.v
theories/CheckpointProofs.v
theories/CheckpointProps.v
theories/DivideModel.v
theories/DivideProofs.v
theories/DivideProps.v
theories/DistributeModel.v
theories/DistributeProofs.v
theories/DistributeProofs2.v
theories/DistributeProps.v
theories/GhostModel.v
theories/GhostProofs.v
theories/GhostProps.v
theories/MergeModel.v
theories/MergeProofs.v
theories/MergeProps.v
theories/ParLib.v
theories/OmpModel.v
theories/OmpProofs.v
theories/OmpFluxProps.v
theories/OmpCellProps.v
theories/OmpExtrapolateProps.v
theories/KinematicModel.v
theories/KinematicProofs.v
theories/KinematicProps.v
theories/KinematicStepProps.v
theories/CulvertModel.v
theories/CulvertProofs.v
theories/CulvertProps.v
theories/CulvertRoutineProps.v
theories/CulvertScaleProps.v
theories/TimeSeriesModel.v
theories/TimeSeriesProofs.v
theories/TimeSeriesProps.v
theories/FileFunctionProps.v
theories/SwwModel.v
theories/SwwProofs.v
theories/SwwProps.v
theories/StepModel.v
theories/StepProofs.v
theories/StepProps.v
theories/LakeProofs.v
theories/LakeProps.v
theories/PositivityProps.v
theories/ParallelStepModel.v
theories/ParallelStepProofs.v
theories/ParallelStepProps.v
theories/LocalMeshModel.v
theories/LocalMeshProofs.v
theories/LocalMeshProofs2.v
theories/LocalMeshProofs3.v
theories/LocalMeshProofs4.v
theories/LocalMeshProps.v
theories/DistributedRunModel.v
theories/DistributedRunProofs.v
theories/DistributedRunProofs2.v
theories/DistributedRunProps.v
theories/SettingsModel.v
theories/SettingsProofs.v
theories/SettingsProps.v
theories/QuantityLimiterModel.v
theories/QuantityLimiterProofs.v
theories/QuantityLimiterProps.v
theories/AdvectionModel.v
theories/AdvectionProofs.v
theories/AdvectionProps.v
theories/SyncLib.v
theories/ParallelInletModel.v
theories/ParallelInletProofs.v
theories/ParallelInletProps.v
theories/PhaseLib.v
theories/ParallelStructureModel.v
theories/ParallelStructureProofs.v
theories/ParallelStructureProps.v
theories/AllocationModel.v
theories/AllocationProofs.v
theories/AllocationProps.v
theories/ElevationModel.v
theories/ElevationProofs.v
theories/ElevationProps.v
theories/InsideTriangleProps.v
theories/CrossSectionModel.v
theories/CrossSectionProofs.v
theories/CrossSectionLineProofs.v
theories/CrossSectionProps.v
theories/GridModel.v
theories/GridProofs.v
theories/GridProps.v
theories/SetValuesModel.v
theories/SetValuesProofs.v
theories/SetValuesProps.v
theories/RiverwallModel.v
theories/RiverwallProofs.v
theories/RiverwallProps.v
theories/RegionModel.v
theories/RegionProofs.v
theories/RegionProps.v
theories/ForcingModel.v
theories/ForcingProps.v
theories/WindModel.v
theories/WindProps.v
theories/BoundaryPolygonModel.v
theories/BoundaryPolygonProofs.v
theories/BoundaryPolygonProps.v
theories/InternalBoundaryModel.v
theories/InternalBoundaryProps.v
theories/SwapLib.v
theories/ExchangeModel.v
theories/ExchangeProofs.v
theories/ExchangeProps.v
theories/PeriodicModel.v
theories/PeriodicProofs.v
theories/PeriodicProps.v
theories/MeshInputModel.v
theories/MeshInputProofs.v
theories/MeshInputProps.v
theories/OmpCGModel.v
theories/OmpCGProofs.v
theories/OmpCGProps.v
theories/GeospatialModel.v
theories/GeospatialProofs.v
theories/GeospatialProps.v
theories/TshModel.v
theories/TshProofs.v
theories/TshProps.v
theories/RasterModel.v
theories/RasterProofs.v
theories/RasterProps.v
theories/CompositeModel.v
theories/CompositeProofs.v
theories/CompositeProps.v
theories/PolygonFunctionModel.v
theories/PolygonFunctionProofs.v
theories/PolygonFunctionProps.v
theories/SetOperatorsModel.v
theories/SetOperatorsProofs.v
theories/SetOperatorsProps.v
theories/InundationModel.v
theories/InundationProofs.v
theories/InundationProps.v
theories/FlowReportModel.v
theories/FlowReportProofs.v
theories/FlowReportProps.v
theories/WaterVolumeModel.v
theories/WaterVolumeProofs.v
theories/WaterVolumeProps.v
theories/TagRegionModel.v
theories/TagRegionProofs.v
theories/TagRegionProps.v
theories/RedfearnModel.v
theories/RedfearnProofs.v
theories/RedfearnProps.v
theories/LatLongModel.v
theories/LatLongProofs.v
theories/LatLongProps.v
theories/StatisticsModel.v
theories/StatisticsProofs.v
theories/StatisticsProps.v
theories/ParseTimeModel.v
theories/ParseTimeProofs.v
theories/ParseTimeProps.v
theories/CsvMergeModel.v
theories/CsvMergeProofs.v
theories/CsvMergeProps.v
theories/FunctionTypeModel.v
theories/FunctionTypeProps.v
theories/NormsModel.v
theories/NormsProps.v
theories/ExtentIndexModel.v
theories/ExtentIndexProps.v
theories/SegmentDistanceModel.v
theories/SegmentDistanceProps.v
theories/DecimateModel.v
theories/DecimateProps.v
theories/SlipCentroidModel.v
theories/SlipCentroidProps.v
