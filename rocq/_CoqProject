-Q theories Verif
theories/Outcome.v
theories/TimeModel.v
theories/TimeSpec.v
theories/TimeProofs.v
theories/TimeProps.v
theories/GpsModel.v
theories/GpsSpec.v
theories/GpsProofs.v
theories/Pose.v
theories/OdomProofs.v
theories/GpsProps.v
theories/AccumModel.v
theories/AccumSpec.v
theories/AccumProofs.v
theories/AccumProps.v
theories/PoolModel.v
theories/PoolSpec.v
theories/PoolProofs.v
theories/PoolProps.v
theories/PipeModel.v
theories/PipeSpec.v
theories/PipeProofs.v
theories/PipeProps.v
theories/OctreeModel.v
theories/OctreeSpec.v
theories/OctreeProofs.v
theories/OctreeProps.v
theories/RayModel.v
theories/RaySpec.v
theories/RayProofs.v
theories/RayProps.v
theories/CloudFileModel.v
theories/CloudFileSpec.v
theories/CloudFileProofs.v
theories/CloudFileProps.v
theories/CloudStoreModel.v
theories/CloudStoreSpec.v
theories/CloudStoreProofs.v
theories/CloudStoreProps.v
theories/NormalsModel.v
theories/NormalsSpec.v
theories/NormalsProofs.v
theories/NormalsProps.v
theories/IdsModel.v
theories/IdsProps.v
theories/SubmapModel.v
theories/SubmapSpec.v
theories/SubmapProofs.v
theories/SubmapProps.v
theories/MrvmModel.v
theories/MrvmSpec.v
theories/MrvmProofs.v
theories/MrvmProps.v
theories/MrvmRealProps.v
theories/ExtrapModel.v
theories/ExtrapSpec.v
theories/ExtrapProofs.v
theories/ExtrapProps.v
theories/BuilderModel.v
theories/BuilderSpec.v
theories/BuilderProofs.v
theories/BuilderLive.v
theories/BuilderProps.v
theories/FrontModel.v
theories/FrontSpec.v
theories/FrontProofs.v
theories/FrontProps.v
theories/ExportModel.v
theories/ExportSpec.v
theories/ExportProps.v
theories/MathModel.v
theories/MathProps.v
theories/LoopModel.v
theories/LoopSpec.v
theories/LoopProofs.v
theories/LoopProps.v
theories/ViewModel.v
theories/ViewSpec.v
theories/ViewProofs.v
theories/ViewProps.v
theories/BagModel.v
theories/BagProps.v
theories/PackModel.v
theories/PackProps.v
theories/FilesModel.v
theories/FilesProps.v
theories/FloatOrder.v
theories/FilterModel.v
theories/FilterSpec.v
theories/FilterProofs.v
theories/FilterVoxels.v
theories/FilterGround.v
theories/FilterProps.v
theories/FloatRound.v
theories/FloatOps.v
theories/RangeModel.v
theories/RangeSpec.v
theories/RangeProofs.v
theories/RangeVisible.v
theories/RangeCluster.v
theories/RangeMain.v
theories/RangeProps.v
theories/FloatTrunc.v
theories/IcpModel.v
theories/IcpSpec.v
theories/IcpProofs.v
theories/IcpAlign.v
theories/IcpProps.v
theories/IsamModel.v
theories/IsamSpec.v
theories/IsamProofs.v
theories/IsamProps.v
theories/EvictModel.v
theories/EvictSpec.v
theories/EvictProofs.v
theories/EvictData.v
theories/EvictProps.v
theories/ConfigModel.v
theories/ConfigSpec.v
theories/ConfigProofs.v
theories/ConfigProps.v
theories/MapFileModel.v
theories/MapFileProofs.v
theories/MapFileProps.v
theories/ApiModel.v
theories/ApiSpec.v
theories/ApiProofs.v
theories/ApiProps.v
theories/RigidModel.v
theories/RigidSpec.v
theories/RigidProofs.v
theories/RigidProps.v
theories/ImuModel.v
theories/ImuProofs.v
theories/ImuProps.v
theories/Ground2Model.v
theories/Ground2Spec.v
theories/Ground2Proofs.v
theories/Ground2Props.v
theories/PlaneIcpModel.v
theories/PlaneIcpSpec.v
theories/PlaneIcpProofs.v
theories/PlaneIcpProps.v
theories/M2dpModel.v
theories/M2dpSpec.v
theories/M2dpProofs.v
theories/M2dpProps.v
theories/KittiModel.v
theories/KittiProofs.v
theories/KittiProps.v
theories/MatcherModel.v
theories/MatcherSpec.v
theories/MatcherProofs.v
theories/MatcherProps.v
theories/ProfModel.v
theories/ProfSpec.v
theories/ProfProofs.v
theories/ProfProps.v
theories/OutputModel.v
theories/OutputSpec.v
theories/OutputProofs.v
theories/OutputProps.v
theories/EndSpec.v
theories/EndProofs.v
theories/EndProps.v
theories/TurnModel.v
theories/TurnProps.v
theories/DisplayModel.v
theories/DisplayProofs.v
theories/DisplayProps.v
theories/NodeModel.v
theories/NodeProofs.v
theories/NodeProps.v
theories/NdtDerivModel.v
theories/NdtDerivSpec.v
theories/NdtDerivProofs.v
theories/NdtDerivProps.v
theories/NdtStepModel.v
theories/NdtStepSpec.v
theories/NdtStepProofs.v
theories/NdtStepProps.v
theories/NdtLineSpec.v
theories/NdtLineProofs.v
theories/NdtLineProps.v
theories/FloatMono.v
theories/FloatDiv.v
theories/VoxelCovModel.v
theories/VoxelCovSpec.v
theories/VoxelCovProofs.v
theories/VoxelCovProps.v
theories/Ground2FloatProps.v
theories/NdtStartModel.v
theories/NdtStartProofs.v
theories/NdtStartProps.v
theories/PlaneModel.v
theories/PlaneSpec.v
theories/PlaneProofs.v
theories/PlaneProps.v
theories/ProcModel.v
theories/ProcSpec.v
theories/ProcProofs.v
theories/ProcProps.v
theories/FloatErr.v
theories/PointModel.v
theories/PointProofs.v
theories/PointProps.v
theories/ToolModel.v
theories/ToolProofs.v
theories/ToolProps.v
theories/OdomMsgModel.v
theories/OdomMsgProofs.v
theories/OdomMsgProps.v
theories/VoxelOutModel.v
theories/VoxelOutProofs.v
theories/VoxelOutProps.v
theories/NumTextModel.v
theories/NumTextSpec.v
theories/NumTextProofs.v
theories/NumTextProps.v
theories/KabschModel.v
theories/KabschSpec.v
theories/KabschProofs.v
theories/KabschProps.v
theories/ExtOdomModel.v
theories/ExtOdomSpec.v
theories/ExtOdomProofs.v
theories/ExtOdomProps.v
theories/JoinModel.v
theories/JoinSpec.v
theories/JoinProofs.v
theories/JoinProps.v
theories/GpsTrackModel.v
theories/GpsTrackSpec.v
theories/GpsTrackProofs.v
theories/GpsTrackProps.v
theories/HashModel.v
theories/HashProps.v
theories/CostModel.v
theories/CostProps.v
theories/LumModel.v
theories/LumProps.v
theories/GpsMatchModel.v
theories/GpsMatchProps.v
theories/CalibModel.v
theories/CalibProps.v
