-Q theories Verif
theories/Base.v
theories/UnionFindModel.v
theories/UnionFindSpec.v
theories/UnionFindProofs.v
theories/UnionFindProps.v
theories/TracksModel.v
theories/TracksSpec.v
theories/TracksProofs.v
theories/TracksProps.v
theories/TrackingModel.v
theories/TrackingSpec.v
theories/TrackingProofs.v
theories/TrackingProps.v
theories/MergeModel.v
theories/MergeSpec.v
theories/MergeProofs.v
theories/MergeProps.v
theories/TextModel.v
theories/TextProofs.v
theories/TracksIOModel.v
theories/TracksIOSpec.v
theories/TracksIOProofs.v
theories/TracksIOProps.v
theories/MapModel.v
theories/MapSpec.v
theories/MapProofs.v
theories/MapProps.v
theories/MapCopyProofs.v
theories/MapCopyProps.v
theories/PairsModel.v
theories/PairsSpec.v
theories/PairsProofs.v
theories/PairsKnnProofs.v
theories/PairsProps.v
theories/FeatProcModel.v
theories/FeatProcSpec.v
theories/FeatProcProofs.v
theories/FeatProcProps.v
theories/MatchModel.v
theories/MatchSpec.v
theories/MatchProofs.v
theories/MatchProps.v
theories/RigModel.v
theories/RigSpec.v
theories/RigProofs.v
theories/RigProps.v
theories/JsonModel.v
theories/CamModel.v
theories/CamSpec.v
theories/CamProofs.v
theories/CamProps.v
theories/Lin.v
theories/RotModel.v
theories/RotProofs.v
theories/PoseModel.v
theories/PoseSpec.v
theories/PoseProofs.v
theories/PoseMapProofs.v
theories/PoseProps.v
theories/RecModel.v
theories/RecSpec.v
theories/RecProofs.v
theories/RecProps.v
theories/PixelModel.v
theories/PixelSpec.v
theories/PixelProps.v
theories/PyText.v
theories/GcpModel.v
theories/GcpSpec.v
theories/GcpProofs.v
theories/GcpProps.v
theories/PlyModel.v
theories/PlySpec.v
theories/PlyProps.v
theories/GeoModel.v
theories/GeoSpec.v
theories/GeoProofs.v
theories/GeoDeriv.v
theories/GeoProps.v
theories/FunctorModel.v
theories/ProjModel.v
theories/FunctorSpec.v
theories/ProjSpec.v
theories/FunctorProofs.v
theories/FunctorLeaves.v
theories/FunctorProj.v
theories/FunctorPose.v
theories/FunctorCameras.v
theories/FunctorProps.v
theories/CovProps.v
theories/CameraSpec.v
theories/CameraProofs.v
theories/CameraProps.v
theories/UndistortSpec.v
theories/UndistortProofs.v
theories/UndistortProps.v
theories/TriangModel.v
theories/TriangSpec.v
theories/TriangProofs.v
theories/TriangProps.v
theories/TrackTriModel.v
theories/TrackTriSpec.v
theories/TrackTriProofs.v
theories/TrackTriProps.v
theories/IncModel.v
theories/IncSpec.v
theories/IncProofs.v
theories/IncProps.v
theories/NeighModel.v
theories/NeighSpec.v
theories/NeighProofs.v
theories/NeighProps.v
theories/BundleModel.v
theories/BundleSpec.v
theories/BundleProofs.v
theories/BundleProps.v
theories/CullModel.v
theories/CullSpec.v
theories/CullProofs.v
theories/CullProps.v
theories/RealignModel.v
theories/RealignSpec.v
theories/RealignProofs.v
theories/RealignProps.v
theories/RobustModel.v
theories/RobustSpec.v
theories/RobustProofs.v
theories/RobustProps.v
theories/FilesModel.v
theories/FilesSpec.v
theories/FilesProofs.v
theories/FilesProps.v
theories/FilesMetaProps.v
theories/FilesStageProps.v
theories/SplitModel.v
theories/SplitSpec.v
theories/SplitProofs.v
theories/SplitProps.v
theories/SubAlignModel.v
theories/SubAlignSpec.v
theories/SubAlignProofs.v
theories/SubAlignProps.v
theories/UndistRecModel.v
theories/UndistRecSpec.v
theories/UndistRecProofs.v
theories/UndistRecProps.v
theories/UndistPanoProps.v
theories/AnglesModel.v
theories/AnglesSpec.v
theories/AnglesProofs.v
theories/AnglesProps.v
theories/PlaneSpec.v
theories/PlaneProofs.v
theories/PlaneProps.v
theories/TwoViewModel.v
theories/TwoViewSpec.v
theories/TwoViewProofs.v
theories/TwoViewProps.v
theories/ExifModel.v
theories/ExifSpec.v
theories/ExifProofs.v
theories/ExifProps.v
theories/CamIdProofs.v
theories/CamIdProps.v
theories/CaptureModel.v
theories/CaptureSpec.v
theories/CaptureProofs.v
theories/CaptureProps.v
theories/CalibModel.v
theories/CalibSpec.v
theories/CalibProofs.v
theories/CalibProps.v
theories/MetaModel.v
theories/MetaSpec.v
theories/MetaProofs.v
theories/MetaProps.v
theories/OpkModel.v
theories/OpkSpec.v
theories/OpkProofs.v
theories/OpkProps.v
theories/BundlerModel.v
theories/BundlerSpec.v
theories/BundlerProofs.v
theories/BundlerProps.v
theories/NvmModel.v
theories/NvmSpec.v
theories/NvmProofs.v
theories/NvmProps.v
theories/ColmapModel.v
theories/ColmapSpec.v
theories/ColmapProofs.v
theories/ColmapProps.v
theories/MvsModel.v
theories/MvsSpec.v
theories/MvsProofs.v
theories/MvsProps.v
theories/GeocoordsModel.v
theories/GeocoordsSpec.v
theories/GeocoordsProofs.v
theories/GeocoordsProps.v
theories/ResidualModel.v
theories/ResidualSpec.v
theories/ResidualProofs.v
theories/ResidualProps.v
theories/FitModel.v
theories/FitSpec.v
theories/FitProofs.v
theories/FitPlaneProofs.v
theories/FitProps.v
theories/AlignModel.v
theories/AlignSpec.v
theories/AlignProofs.v
theories/AlignProps.v
theories/AlignPriorProofs.v
theories/AlignPriorProps.v
theories/DenseModel.v
theories/DenseSpec.v
theories/DenseProofs.v
theories/DenseProps.v
theories/EstimateProofs.v
theories/EstimateProps.v
theories/CleanProofs.v
theories/CleanProps.v
theories/PipeModel.v
theories/PipeSpec.v
theories/PipeProofs.v
theories/PipeProps.v
theories/StageProps.v
theories/Cpx.v
theories/P3pModel.v
theories/P3pSpec.v
theories/QuarticProofs.v
theories/QuarticProps.v
theories/P3pProofs.v
theories/P3pProps.v
theories/NposeModel.v
theories/NposeSpec.v
theories/NposeProofs.v
theories/SvdProofs.v
theories/NposeProps.v
theories/EssModel.v
theories/EssSpec.v
theories/EssProofs.v
theories/EssProps.v
theories/FiveModel.v
theories/FiveSpec.v
theories/FiveProofs.v
theories/FiveProps.v
theories/FiveCase.v
theories/GpxModel.v
theories/GpxSpec.v
theories/GpxProofs.v
theories/GpxProps.v
theories/VladModel.v
theories/VladSpec.v
theories/VladProofs.v
theories/VladProps.v
theories/UprightModel.v
theories/UprightSpec.v
theories/UprightProps.v
theories/MeshModel.v
theories/MeshSpec.v
theories/MeshProofs.v
theories/MeshProps.v
theories/FeatFileModel.v
theories/FeatFileSpec.v
theories/FeatFileProofs.v
theories/FeatFileProps.v
theories/ExtractModel.v
theories/ExtractSpec.v
theories/ExtractProofs.v
theories/ExtractProps.v
theories/RigCalModel.v
theories/RigCalSpec.v
theories/RigCalProofs.v
theories/RigCalProps.v
theories/StatsModel.v
theories/StatsSpec.v
theories/StatsProofs.v
theories/StatsProps.v
theories/AnnotModel.v
theories/AnnotSpec.v
theories/AnnotProofs.v
theories/AnnotProps.v
theories/MultiviewModel.v
theories/MultiviewSpec.v
theories/MultiviewProofs.v
theories/MultiviewProps.v
theories/ViewerModel.v
theories/ViewerSpec.v
theories/ViewerProofs.v
theories/ViewerProps.v
