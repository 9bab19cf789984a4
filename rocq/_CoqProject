-Q theories Verif
theories/Outcome.v
theories/Chain.v
theories/FreeListModel.v
theories/FreeListProofs.v
theories/FreeListHist.v
theories/FreeListProps.v
theories/GraphModel.v
theories/GraphSpec.v
theories/GraphProofs.v
theories/GraphProofs2.v
theories/GraphProofs3.v
theories/GraphProofs4.v
theories/GraphHist.v
theories/GraphWalk.v
theories/GraphComp.v
theories/GraphMain.v
theories/GraphProps.v
theories/TreeModel.v
theories/TreeProofs.v
theories/TreeProofs2.v
theories/TreeSpec.v
theories/TreeHist.v
theories/BoxModel.v
theories/BoxProofs.v
theories/TreeProps.v
theories/StaticModel.v
theories/StaticProofs.v
theories/StaticProps.v
theories/MapModel.v
theories/MapSpec.v
theories/MapProofs.v
theories/MapProps.v
theories/ExclModel.v
theories/ExclSpec.v
theories/ExclProofs.v
theories/ExclProps.v
theories/ChildModel.v
theories/ChildSpec.v
theories/ChildProofs.v
theories/ChildProps.v
theories/FlatModel.v
theories/FlatProps.v
theories/MixModel.v
theories/MixProps.v
theories/PointModel.v
theories/PointProofs.v
theories/PointSlot.v
theories/PointProcess.v
theories/PointFinish.v
theories/PointSpec.v
theories/PointUpdate.v
theories/PointReach.v
theories/PointExtra.v
theories/PointProps.v
theories/SwapModel.v
theories/SwapProofs.v
theories/SwapProps.v
theories/TaskModel.v
theories/TaskSpec.v
theories/TaskProofs.v
theories/TaskProps.v
theories/JobModel.v
theories/JobSpec.v
theories/JobProofs.v
theories/WorkerProofs.v
theories/MsgModel.v
theories/MsgSpec.v
theories/MsgProofs.v
theories/JobProps.v
theories/RegTypes.v
theories/RegModel.v
theories/RegSpec.v
theories/RegProofs.v
theories/RegMirror.v
theories/RegMore.v
theories/RegProps.v
theories/S11nTypes.v
theories/S11nModel.v
theories/S11nSpec.v
theories/S11nProofs.v
theories/S11nMore.v
theories/S11nProps.v
theories/ClockTypes.v
theories/ClockModel.v
theories/ClockSpec.v
theories/ClockProofs.v
theories/ClockQ.v
theories/ClockProps.v
theories/HistModel.v
theories/HistSpec.v
theories/HistProofs.v
theories/HistMore.v
theories/HistProps.v
theories/ModModel.v
theories/ModSpec.v
theories/ModProofs.v
theories/ModProps.v
theories/SnapModel.v
theories/SnapSpec.v
theories/SnapProofs.v
theories/SnapMore.v
theories/SnapProps.v
theories/AoiModel.v
theories/AoiSpec.v
theories/AoiProofs.v
theories/AoiProps.v
theories/DelayModel.v
theories/DelayProps.v
theories/OwnModel.v
theories/OwnSpec.v
theories/OwnProofs.v
theories/OwnSnap.v
theories/OwnMain.v
theories/OwnProps.v
theories/StepModel.v
theories/StepProofs.v
theories/StepProps.v
theories/PageModel.v
theories/PageProofs.v
theories/PageProps.v
theories/IslModel.v
theories/IslSpec.v
theories/IslBase.v
theories/IslInv.v
theories/IslData.v
theories/IslRel.v
theories/IslReach.v
theories/IslInit.v
theories/IslSplit.v
theories/IslOne.v
theories/IslUpd.v
theories/IslOps.v
theories/IslMake.v
theories/IslHist.v
theories/IslProps.v
theories/RowModel.v
theories/JointModel.v
theories/RowSpec.v
theories/JointLens.v
theories/RowSim.v
theories/PackProofs.v
theories/RowField.v
theories/RowBounds.v
theories/RowVel.v
theories/RowProps.v
theories/RowCases.v
theories/ExtrModel.v
theories/ExtrSpec.v
theories/ExtrProofs.v
theories/ExtrProps.v
theories/ExtrTime.v
theories/AskModel.v
theories/AskSpec.v
theories/AskProofs.v
theories/AskProps.v
theories/ParModel.v
theories/ParSpec.v
theories/ParProofs.v
theories/ParProps.v
theories/BroadModel.v
theories/BroadSpec.v
theories/BroadProofs.v
theories/BroadProofs2.v
theories/BroadProofs3.v
theories/BroadProps.v
theories/GeoModel.v
theories/RotSpec.v
theories/RotProofs.v
theories/RotProofs2.v
theories/RotProofs3.v
theories/RotProofs4.v
theories/RotProofs5.v
theories/RotProps.v
theories/MassModel.v
theories/MassSpec.v
theories/MassProofs.v
theories/MassProofs2.v
theories/MassProofs3.v
theories/MassProofs4.v
theories/MassProofs5.v
theories/MassProofs6.v
theories/MassProps.v
theories/NearModel.v
theories/NearSpec.v
theories/NearProofs.v
theories/NearProofs2.v
theories/NearProofs3.v
theories/NearProps.v
theories/RayModel.v
theories/RaySpec.v
theories/RayProofs.v
theories/RayProofs2.v
theories/RayProofs3.v
theories/RayProofs4.v
theories/RayProps.v
theories/SupModel.v
theories/SupSpec.v
theories/SupProofs.v
theories/SupProofs2.v
theories/SupProofs3.v
theories/SupProofs4.v
theories/SupProps.v
theories/ColModel.v
theories/ColSpec.v
theories/ColProofs.v
theories/ColProofs2.v
theories/ColProofs3.v
theories/ColProofs4.v
theories/ColProofs5.v
theories/ColProps.v
theories/JacModel.v
theories/JacSpec.v
theories/JacProofs.v
theories/JacProofs2.v
theories/JacProofs3.v
theories/JacProofs4.v
theories/JacProofs5.v
theories/JacProps.v
theories/JacProps2.v
theories/JacProps3.v
theories/CliModel.v
theories/CliSpec.v
theories/CliProofs.v
theories/CliProofs2.v
theories/CliProofs3.v
theories/CliProofs4.v
theories/CliProofs5.v
theories/CliProofs6.v
theories/CliProofs7.v
theories/CliProps.v
theories/PlaneModel.v
theories/PlaneSpec.v
theories/PlaneProofs.v
theories/PlaneProofs2.v
theories/PlaneProofs3.v
theories/PlaneProofs4.v
theories/PlaneProps.v
theories/PresModel.v
theories/PresSpec.v
theories/PresProofs.v
theories/PresProofs2.v
theories/PresProofs3.v
theories/PresProps.v
theories/TmeshModel.v
theories/TmeshSpec.v
theories/TmeshProofs.v
theories/TmeshProofs2.v
theories/TmeshProps.v
theories/CmeshModel.v
theories/CmeshSpec.v
theories/CmeshProofs.v
theories/CmeshProofs2.v
theories/CmeshProps.v
