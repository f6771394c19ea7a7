-Q theories Verif
theories/Base.v
theories/DistributeModel.v
theories/DistributeProofs.v
theories/DistributeProps.v
theories/CommModel.v
theories/CommProofs.v
theories/CommProps.v
theories/AlgorithmModel.v
theories/AlgorithmProofs.v
theories/AlgorithmProps.v
theories/CombinatoricsModel.v
theories/CombinatoricsProofs.v
theories/CombinatoricsProps.v
theories/MultiIndexModel.v
theories/MultiIndexProofs.v
theories/MultiIndexProps.v
theories/LehmerModel.v
theories/LehmerProofs.v
theories/LehmerProps.v
theories/AllocatorModel.v
theories/AllocatorProofs.v
theories/AllocatorProps.v
theories/TensorModel.v
theories/TensorProofs.v
theories/TensorProps.v
theories/MGConfigModel.v
theories/MGConfigProps.v
theories/MonitorModel.v
theories/MonitorProps.v
theories/SimplexModel.v
theories/SimplexProofs.v
theories/SimplexProps.v
theories/LocalMeshModel.v
theories/LocalMeshProofs.v
theories/LocalMeshProps.v
theories/CommBlocks.v
theories/PartitionModel.v
theories/PartitionProofs.v
theories/PartitionProps.v
theories/FacesModel.v
theories/FacesProofs.v
theories/FacesShared.v
theories/FacesProps.v
theories/ScatterModel.v
theories/ScatterProofs.v
theories/ScatterProps.v
theories/TopoModel.v
theories/TopoSpec.v
theories/TopoProofs.v
theories/TopoProps.v
theories/TopoCheck.v
theories/BoundaryMapModel.v
theories/BoundaryMapProps.v
theories/ApplyModel.v
theories/ApplyProps.v
theories/AssembleModel.v
theories/AssembleSpec.v
theories/AssembleProofs.v
theories/AssembleProps.v
theories/GhostModel.v
theories/GhostSpec.v
theories/GhostProofs.v
theories/GhostOrder.v
theories/GhostProps.v
theories/GenMeshModel.v
theories/GenMeshSpec.v
theories/GenMeshProofs.v
theories/GenMeshConf.v
theories/GenMeshProps.v
theories/GenMeshBoundary.v
theories/GenMeshCoord.v
theories/TsCheckpointModel.v
theories/TsCheckpointProps.v
theories/ZeroModel.v
theories/ZeroProps.v
theories/VecModel.v
theories/FrictionModel.v
theories/FrictionProps.v
theories/TableModel.v
theories/TableProps.v
theories/VtuModel.v
theories/VtuProps.v
theories/Hdf5Model.v
theories/Hdf5Props.v
theories/GmshModel.v
theories/GmshSpec.v
theories/GmshLexProofs.v
theories/GmshParseProofs.v
theories/GmshProps.v
theories/EquidistantModel.v
theories/EquidistantProofs.v
theories/EquidistantLattice.v
theories/EquidistantProps.v
theories/BuilderModel.v
theories/BuilderProofs.v
theories/BuilderRun.v
theories/BuilderProps.v
theories/BuilderFileProps.v
theories/H5MeshModel.v
theories/H5MeshProofs.v
theories/H5MeshProps.v
theories/H5MeshFileProps.v
theories/GreenModel.v
theories/GreenProofs.v
theories/GreenProps.v
theories/SchemaModel.v
theories/SchemaSpec.v
theories/SchemaProofs.v
theories/SchemaText.v
theories/SchemaProps.v
theories/SeasConfigModel.v
theories/SeasConfigSpec.v
theories/SeasConfigProps.v
theories/LinAlg.v
theories/PlexModel.v
theories/PlexSpec.v
theories/PlexProofs.v
theories/PlexProps.v
theories/LocatorModel.v
theories/LocatorProps.v
theories/LocateProps.v
theories/FacetLocateProps.v
theories/PoissonModel.v
theories/PoissonProofs.v
theories/MatFree.v
theories/PoissonProps.v
theories/PoissonExamples.v
theories/SipSpec.v
theories/SipProofs.v
theories/SipRank.v
theories/SipLoad.v
theories/SipProps.v
theories/SipExamples.v
theories/PenaltyModel.v
theories/CoerciveProps.v
theories/CoerciveExamples.v
theories/FaultModel.v
theories/FaultProps.v
theories/FaultSideProps.v
theories/FaultExamples.v
theories/ElasticityModel.v
theories/ElasticityProofs.v
theories/ElasticitySpec.v
theories/MatFreeRhs.v
theories/ElasticityProps.v
theories/WaveProps.v
theories/ElasticityExamples.v
theories/ElasticityFaultProps.v
theories/ElasticFormSpec.v
theories/ElasticFormProofs.v
theories/ElasticFormRank.v
theories/ElasticFormProps.v
theories/ElasticCoerciveProps.v
theories/ElasticFormExamples.v
theories/ElasticCflModel.v
theories/ElasticCflProps.v
theories/ElasticModeProps.v
theories/ElasticCflExamples.v
theories/PipelineModel.v
theories/PipelineProps.v
theories/PipelineAssembleProps.v
theories/PipelineExamples.v
theories/GeometryModel.v
theories/GeometryProofs.v
theories/GeometrySpec.v
theories/GeometryProps.v
theories/GeometryStraight.v
theories/GeometryExamples.v
theories/MeshSpec.v
theories/MeshProofs.v
theories/MeshPoissonProps.v
theories/MeshExamples.v
theories/MeshElasticSpec.v
theories/MeshElasticProps.v
theories/MeshWaveProps.v
theories/MeshWaveExamples.v
theories/BasisModel.v
theories/BasisSpec.v
theories/JacobiProofs.v
theories/BasisProps.v
theories/BasisExamples.v
theories/IntegralSpec.v
theories/IntegralProofs.v
theories/OrthogonalProofs.v
theories/QuadratureModel.v
theories/QuadratureSpec.v
theories/QuadratureProofs.v
theories/QuadratureProps.v
theories/RootsProofs.v
theories/RootsProps.v
theories/QuadratureExamples.v
theories/DubinerProofs.v
theories/RefElementSpec.v
theories/SpanProofs.v
theories/RefElementModel.v
theories/RefElementProofs.v
theories/RefElementProps.v
theories/UnisolventProps.v
theories/RefElementExamples.v
theories/InterpolationModel.v
theories/InterpolationSpec.v
theories/InterpolationProps.v
theories/InterpolationExamples.v
theories/ErrorModel.v
theories/ErrorSpec.v
theories/ErrorProofs.v
theories/ErrorProps.v
theories/ErrorNormProps.v
theories/ErrorExactProps.v
theories/ErrorExamples.v
theories/NodesSpec.v
theories/NodesModel.v
theories/NodesProofs.v
theories/NodesFacets.v
theories/NodesConform.v
theories/NodesProps.v
theories/NodesMeshProps.v
theories/NodesSymmetryProps.v
theories/NodesExamples.v
theories/LsPolyModel.v
theories/LsPolySpec.v
theories/LsPolyJacobi.v
theories/LsPolyProofs.v
theories/LsPolyOptimal.v
theories/LsPolyBest.v
theories/LsPolyProps.v
theories/EigDeflateSpec.v
theories/EigDeflateModel.v
theories/EigDeflateProofs.v
theories/EigDeflateRitz.v
theories/EigDeflateProps.v
theories/EigDeflateExamples.v
theories/FaultOdeModel.v
theories/FaultOdeSpec.v
theories/FaultOdeProofs.v
theories/FaultOdeProps.v
theories/FaultMomentProps.v
theories/FaultOdeExamples.v
theories/TraceProofs.v
theories/TraceProps.v
theories/DegreeSpec.v
theories/DegreeProofs.v
theories/DegreeProps.v
theories/OperatorRefModel.v
theories/OperatorRefProps.v
theories/OperatorRefExamples.v
theories/CheckpointPathModel.v
theories/CheckpointPathProps.v
theories/VtuFieldModel.v
theories/VtuFieldProps.v
theories/VtuFieldExamples.v
theories/DivergenceProofs.v
theories/ConsistencySpec.v
theories/ConsistencyProofs.v
theories/ConsistencyProps.v
theories/ConsistencyExamples.v
theories/ElasticConsistencySpec.v
theories/ElasticConsistencyProps.v
theories/ElasticConsistencyExamples.v
theories/DefiniteSpec.v
theories/DefiniteProofs.v
theories/DefiniteForm.v
theories/DefiniteMesh.v
theories/SolveProofs.v
theories/DefiniteProps.v
theories/DefiniteExamples.v
theories/RigidProofs.v
theories/ElasticDefiniteForm.v
theories/ElasticDefiniteMesh.v
theories/ElasticDefiniteProps.v
theories/ElasticDefiniteExamples.v
theories/SeasOpModel.v
theories/SeasOpSpec.v
theories/SeasOpProps.v
theories/SeasOpExamples.v
theories/ElasticEnergySpec.v
theories/ElasticEnergyProofs.v
theories/ElasticEnergyProps.v
theories/ElasticEnergyWave.v
theories/ElasticEnergyExamples.v
theories/ElasticEnergyMoving.v
theories/QuadTableModel.v
theories/QuadTableCheck.v
theories/QuadTableSpec.v
theories/QuadTableTri.v
theories/QuadTableTet.v
theories/QuadTableJS.v
theories/QuadTableProofs.v
theories/QuadTableSound.v
theories/QuadTableProps.v
theories/QuadTableExamples.v
theories/ScriptModel.v
theories/ScriptSpec.v
theories/ScriptProofs.v
theories/ScriptProps.v
theories/FaultFileModel.v
theories/FaultFileProofs.v
theories/FaultFileProps.v
theories/FaultFileExamples.v
theories/Br2Spec.v
theories/Br2Proofs.v
theories/Br2Rank.v
theories/Br2Positive.v
theories/Br2Props.v
theories/Br2Examples.v
theories/Br2Definite.v
theories/Br2SolveProps.v
theories/Br2SolveExamples.v
theories/ElasticBr2Spec.v
theories/ElasticBr2Proofs.v
theories/ElasticBr2Rank.v
theories/ElasticBr2Positive.v
theories/ElasticBr2Props.v
theories/ElasticBr2Examples.v
theories/SeasConfigDefaults.v
theories/GeometryArea.v
theories/NodesAlpha.v
theories/ElasticBr2Definite.v
theories/ElasticBr2SolveProps.v
theories/ElasticBr2SolveExamples.v
theories/AffinityModel.v
theories/AffinitySpec.v
theories/AffinityProofs.v
theories/AffinityProps.v
theories/AffinityExamples.v
theories/PoissonEnergySpec.v
theories/PoissonEnergyProps.v
theories/PoissonEnergyExamples.v
theories/WarpOptModel.v
theories/WarpOptSpec.v
theories/WarpOptProps.v
theories/WarpOptExamples.v
theories/ProfileModel.v
theories/ProfileSpec.v
theories/ProfileProps.v
theories/ProfileExamples.v
theories/ManagedModel.v
theories/ManagedSpec.v
theories/ManagedProps.v
theories/ManagedExamples.v
theories/PetscVecModel.v
theories/PetscVecSpec.v
theories/PetscVecProps.v
theories/PetscVecExamples.v
theories/GradTableProps.v
theories/CheckBcModel.v
theories/CheckBcSpec.v
theories/CheckBcProps.v
theories/VecCrossModel.v
theories/VecSpec.v
theories/VecProps.v
theories/RangeModel.v
theories/RangeProps.v
theories/HashSpec.v
theories/HashProps.v
