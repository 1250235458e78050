-Q theories Verif
theories/Counting.v
theories/RwLockModel.v
theories/RwLockSpec.v
theories/RwLockInv.v
theories/RwLockProofs.v
theories/RwLockProps.v
theories/ThreadPoolModel.v
theories/ThreadPoolSpec.v
theories/ThreadPoolProofs.v
theories/ThreadPoolTrace.v
theories/ThreadPoolLive.v
theories/ThreadPoolProps.v
theories/NPipelineModel.v
theories/NPipelineSpec.v
theories/NPipelineProofs.v
theories/NPipelineHist.v
theories/NPipelineDrop.v
theories/NPipelineProps.v
theories/NPipelineWaitModel.v
theories/NPipelineWaitSpec.v
theories/NPipelineWaitProofs.v
theories/NPipelineWaitProps.v
theories/SerializationModel.v
theories/SerializationSpec.v
theories/SerializationProofs.v
theories/SerializationScalar.v
theories/SerializationProps.v
theories/HashIdModel.v
theories/HashIdSpec.v
theories/HashIdProofs.v
theories/HashIdProps.v
theories/StlHelpersModel.v
theories/StlHelpersSpec.v
theories/StlHelpersProofs.v
theories/StlHelpersProps.v
theories/OccupancyGridModel.v
theories/OccupancyGridSpec.v
theories/OccupancyGridProofs.v
theories/OccupancyGridNear.v
theories/OccupancyGridRemove.v
theories/OccupancyGridProps.v
theories/StatisticsModel.v
theories/StatisticsSpec.v
theories/AccumulatorProofs.v
theories/StatisticsProofs.v
theories/StatisticsProps.v
theories/DescriptorModel.v
theories/DescriptorSpec.v
theories/HammingProofs.v
theories/DescriptorProofs.v
theories/DescriptorProps.v
theories/ChannelModel.v
theories/ChannelSpec.v
theories/ChannelProofs.v
theories/ChannelLockProofs.v
theories/ChannelProps.v
theories/FrameModel.v
theories/FrameSpec.v
theories/FrameProofs.v
theories/FrameProps.v
theories/RigModel.v
theories/RigSpec.v
theories/RigProofs.v
theories/RigProps.v
theories/TrackModel.v
theories/TrackSpec.v
theories/TrackProofs.v
theories/TrackHistory.v
theories/TrackProps.v
theories/GyroTrackerModel.v
theories/GyroTrackerSpec.v
theories/GyroTrackerProofs.v
theories/GyroTrackerProps.v
theories/GyroMatcherModel.v
theories/GyroMatcherSpec.v
theories/GyroMatcherProofs.v
theories/GyroMatcherAssign.v
theories/GyroMatcherProps.v
theories/FedModel.v
theories/FedSpec.v
theories/FedProofs.v
theories/FedProps.v
theories/TimeTextModel.v
theories/TimeTextSpec.v
theories/TimeTextProofs.v
theories/TimeTextProps.v
theories/OutlierModel.v
theories/OutlierSpec.v
theories/OutlierProps.v
theories/TrackBoxModel.v
theories/TrackBoxSpec.v
theories/TrackBoxProps.v
theories/CalculusSpec.v
theories/CalculusFacts.v
theories/DistortionModel.v
theories/DistortionSpec.v
theories/DistortionProofs.v
theories/DistortionProps.v
theories/CameraModel.v
theories/CameraSpec.v
theories/CameraProofs.v
theories/CameraProps.v
theories/LidarModel.v
theories/LidarProps.v
theories/CircleModel.v
theories/CircleSpec.v
theories/CircleProps.v
theories/AprilGridModel.v
theories/AprilGridSpec.v
theories/AprilGridProofs.v
theories/AprilGridProps.v
theories/TriangulationModel.v
theories/TriangulationQr.v
theories/TriangulationSpec.v
theories/TriangulationProofs.v
theories/TriangulationProps.v
theories/RansacModel.v
theories/RansacSpec.v
theories/RansacProps.v
theories/DescRefModel.v
theories/DescRefSpec.v
theories/DescRefProofs.v
theories/DescRefProps.v
theories/PredictModel.v
theories/PredictSpec.v
theories/PredictProps.v
theories/InsertModel.v
theories/InsertSpec.v
theories/InsertProps.v
theories/YamlMatrixModel.v
theories/YamlMatrixSpec.v
theories/YamlMatrixProps.v
theories/UndistortModel.v
theories/UndistortSpec.v
theories/UndistortProofs.v
theories/UndistortProps.v
theories/CovarianceModel.v
theories/CovarianceSpec.v
theories/CovarianceProps.v
theories/SensorYamlModel.v
theories/SensorYamlSpec.v
theories/SensorYamlProofs.v
theories/SensorYamlProps.v
theories/DiffusionModel.v
theories/DiffusionSpec.v
theories/DiffusionProps.v
theories/ContrastModel.v
theories/ContrastSpec.v
theories/ContrastProps.v
theories/FedTimeModel.v
theories/FedTimeSpec.v
theories/FedTimeProofs.v
theories/FedTimeProps.v
theories/AosModel.v
theories/AosSpec.v
theories/AosProps.v
theories/ExtremaModel.v
theories/ExtremaSpec.v
theories/ExtremaProps.v
theories/OrientModel.v
theories/OrientSpec.v
theories/OrientProps.v
theories/SurfModel.v
theories/SurfSpec.v
theories/SurfProps.v
theories/LsdOrderModel.v
theories/LsdOrderSpec.v
theories/LsdOrderProofs.v
theories/LsdOrderProps.v
theories/LsdRegionModel.v
theories/LsdRegionSpec.v
theories/LsdGrowProofs.v
theories/LsdGrowProps.v
theories/LsdRectSpec.v
theories/LsdRectProps.v
theories/LsdSegmentSpec.v
theories/LsdSegmentProofs.v
theories/LsdSegmentProps.v
theories/LsdEdgeSpec.v
theories/LsdEdgeProps.v
theories/LsdFilterModel.v
theories/LsdFilterSpec.v
theories/LsdFilterProps.v
theories/LsdNfaModel.v
theories/LsdNfaSpec.v
theories/LsdNfaProps.v
theories/LsdImproveModel.v
theories/LsdImproveSpec.v
theories/LsdImproveProps.v
theories/FocalModel.v
theories/FocalSpec.v
theories/FocalProps.v
theories/NumDiffModel.v
theories/NumDiffSpec.v
theories/NumDiffProps.v
theories/MaskModel.v
theories/MaskSpec.v
theories/MaskProps.v
theories/ShutterModel.v
theories/ShutterSpec.v
theories/ShutterProps.v
theories/EqualModel.v
theories/EqualSpec.v
theories/EqualProps.v
theories/VPipeModel.v
theories/VPipeSpec.v
theories/VPipeProps.v
theories/TestRigModel.v
theories/TestRigSpec.v
theories/TestRigProps.v
theories/VanishModel.v
theories/VanishSpec.v
theories/VanishProps.v
theories/ImageEqModel.v
theories/ImageEqSpec.v
theories/ImageEqProps.v
theories/KDerivModel.v
theories/KDerivSpec.v
theories/KDerivProps.v
theories/KUtilModel.v
theories/KUtilSpec.v
theories/KUtilProps.v
theories/KTrackModel.v
theories/KTrackSpec.v
theories/KTrackProps.v
theories/LCompareModel.v
theories/LCompareSpec.v
theories/LCompareProps.v
theories/EHashModel.v
theories/EHashSpec.v
theories/EHashProps.v
theories/PnpModel.v
theories/PnpSpec.v
theories/PnpProofs.v
theories/PnpProps.v
theories/RandPtModel.v
theories/RandPtSpec.v
theories/RandPtProps.v
theories/ClockTextModel.v
theories/ClockTextSpec.v
theories/ClockTextProofs.v
theories/ClockTextProps.v
theories/ScaleSpaceModel.v
theories/ScaleSpaceSpec.v
theories/ScaleSpaceProofs.v
theories/ScaleSpaceProps.v
theories/FedRangeProps.v
theories/RawCoordModel.v
theories/RawCoordSpec.v
theories/RawCoordProps.v
theories/DescTextModel.v
theories/DescTextSpec.v
theories/DescTextProps.v
theories/DrawModel.v
theories/DrawSpec.v
theories/DrawProps.v
theories/KDescModel.v
theories/KDescSpec.v
theories/KDescProps.v
theories/RadTanInvSpec.v
theories/RadTanInvProofs.v
theories/RadTanInvProps.v
theories/EquiInvSpec.v
theories/EquiInvProofs.v
theories/EquiInvProps.v
theories/LensInvProps.v
theories/KSmoothModel.v
theories/KSmoothSpec.v
theories/KSmoothProps.v
theories/GyroLenSpec.v
theories/GyroLenProps.v
theories/LensOwnModel.v
theories/LensOwnSpec.v
theories/LensOwnProps.v
theories/YamlFileModel.v
theories/YamlFileSpec.v
theories/YamlFileProps.v
theories/YamlCameraProps.v
theories/AlignedPtrModel.v
theories/AlignedPtrSpec.v
theories/AlignedPtrProps.v
theories/NFrameModel.v
theories/NFrameSpec.v
theories/NFrameProps.v
theories/KFileModel.v
theories/KFileSpec.v
theories/KFileProofs.v
theories/KFileProps.v
theories/TargetPdfTags.v
theories/TargetPdfModel.v
theories/TargetPdfSpec.v
theories/TargetPdfProofs.v
theories/TargetPdfProps.v
theories/SpreadModel.v
theories/SpreadSpec.v
theories/SpreadProofs.v
theories/SpreadProps.v
theories/RandomSensorModel.v
theories/RandomSensorSpec.v
theories/RandomSensorProps.v
theories/FrameSwapModel.v
theories/FrameSwapSpec.v
theories/FrameSwapProps.v
theories/LsdDetectModel.v
theories/LsdDetectSpec.v
theories/LsdDetectProps.v
theories/IdTextModel.v
theories/IdTextSpec.v
theories/IdTextProps.v
theories/MatEraseModel.v
theories/MatEraseSpec.v
theories/MatEraseProofs.v
theories/MatEraseProps.v
theories/KInlierModel.v
theories/KInlierSpec.v
theories/KInlierProps.v
theories/KSaveModel.v
theories/KSaveSpec.v
theories/KSaveProps.v
theories/ShuffleModel.v
theories/ShuffleSpec.v
theories/ShuffleProps.v
theories/TargetYamlModel.v
theories/TargetYamlSpec.v
theories/TargetYamlProps.v
theories/EmptyFrameModel.v
theories/EmptyFrameProps.v
theories/FrameElemModel.v
theories/FrameElemProps.v
theories/RigExtrModel.v
theories/RigExtrProps.v
theories/TrackTextModel.v
theories/TrackTextSpec.v
theories/TrackTextProps.v
