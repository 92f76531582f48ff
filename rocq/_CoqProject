-Q theories Verif
theories/RBase.v
theories/Vec.v
theories/BoxModel.v
theories/BoxSpec.v
theories/BoxProofs.v
theories/BoxProofs2.v
theories/BoxPyModel.v
theories/BoxPyProofs.v
theories/BoxProps.v
theories/MArrayModel.v
theories/MArraySpec.v
theories/MArrayProofs.v
theories/ParModel.v
theories/ParProofs.v
theories/HistModel.v
theories/HistSpec.v
theories/HistProofs.v
theories/HistProofs2.v
theories/HistProps.v
theories/NListModel.v
theories/NListSpec.v
theories/NListProofs.v
theories/NListProofs2.v
theories/NListProps.v
theories/FilterModel.v
theories/FilterProofs.v
theories/FilterProps.v
theories/QuerySpec.v
theories/AABBModel.v
theories/AABBSpec.v
theories/AABBProofs.v
theories/AABBProofs2.v
theories/AABBProps.v
theories/LinkCellModel.v
theories/LinkCellSpec.v
theories/LinkCellProofs.v
theories/LinkCellProofs2.v
theories/LinkCellProofs3.v
theories/LinkCellProps.v
theories/CellQueryModel.v
theories/CellQueryProofs.v
theories/CellQueryProofs2.v
theories/CellQueryProofs3.v
theories/CellQueryProps.v
theories/KnnModel.v
theories/QueryArgSpec.v
theories/QueryModel.v
theories/QueryProofs.v
theories/QueryProps.v
theories/KnnSpec.v
theories/KnnProofs.v
theories/KnnProps.v
theories/KnnProofs2.v
theories/KnnProps2.v
theories/KnnProps3.v
theories/KnnProps4.v
theories/KnnProps5.v
theories/PBufferModel.v
theories/PBufferSpec.v
theories/PBufferProofs.v
theories/PBufferProps.v
theories/DsetModel.v
theories/DsetProofs.v
theories/ClusterModel.v
theories/ClusterSpec.v
theories/DsetSpec.v
theories/DsetProps.v
theories/ClusterProofs.v
theories/ClusterProps.v
theories/ClusterPropModel.v
theories/ClusterPropSpec.v
theories/ClusterPropProps.v
theories/MatchEnvModel.v
theories/MatchEnvSpec.v
theories/MatchEnvProofs.v
theories/MatchEnvProofs2.v
theories/MatchEnvProofs3.v
theories/MatchEnvProofs4.v
theories/MatchEnvProofs5.v
theories/MatchEnvProps.v
theories/QuatModel.v
theories/QuatSpec.v
theories/QuatProofs.v
theories/QuatProps.v
theories/AngSepModel.v
theories/AngSepSpec.v
theories/AngSepProofs.v
theories/AngSepProps.v
theories/SphModel.v
theories/SphSpec.v
theories/SphProofs.v
theories/BondOrderArea.v
theories/BondOrderProps.v
theories/LocalDescProps.v
theories/CountHist.v
theories/RdfShell.v
theories/RdfModel.v
theories/RdfSpec.v
theories/RdfProps.v
theories/CorrModel.v
theories/CorrSpec.v
theories/CorrProps.v
theories/LocalDensModel.v
theories/LocalDensSpec.v
theories/LocalDensProps.v
theories/GridModel.v
theories/GridSpec.v
theories/GridProofs.v
theories/VoxProps.v
theories/GaussProps.v
theories/PmftModel.v
theories/PmftSpec.v
theories/PmftProofs.v
theories/PmftProps.v
theories/MsdModel.v
theories/MsdSpec.v
theories/MsdProofs.v
theories/MsdProps.v
theories/HexModel.v
theories/HexSpec.v
theories/HexProps.v
theories/NemModel.v
theories/NemSpec.v
theories/NemProps.v
theories/CplxSum.v
theories/HarmSpec.v
theories/HarmProofs.v
theories/AccumProofs.v
theories/SteinModel.v
theories/SteinSpec.v
theories/SteinProofs.v
theories/SteinProofs2.v
theories/SteinProofs3.v
theories/SteinProofs4.v
theories/SteinProofs5.v
theories/SteinProps.v
theories/SolidModel.v
theories/SolidSpec.v
theories/SolidProps.v
theories/UnitCellModel.v
theories/UnitCellSpec.v
theories/UnitCellProps.v
theories/SfModel.v
theories/SfSpec.v
theories/SfProofs.v
theories/SfProofs2.v
theories/SfProps.v
theories/SfDebProps.v
theories/SfBesselProps.v
theories/ThreadsModel.v
theories/ThreadsSpec.v
theories/ThreadsProps.v
theories/ComputeModel.v
theories/ComputeSpec.v
theories/ComputeProps.v
theories/CubaticModel.v
theories/CubaticSpec.v
theories/CubaticProofs.v
theories/CubaticProofs2.v
theories/CubaticProofs3.v
theories/CubaticProofs4.v
theories/CubaticProps.v
theories/F32Model.v
theories/F32Spec.v
theories/F32Proofs.v
theories/F32Proofs2.v
theories/F32Proofs3.v
theories/F32Proofs4.v
theories/F32Props.v
theories/WignerTable.v
theories/WignerModel.v
theories/WignerSpec.v
theories/WignerProofs.v
theories/WignerProofs2.v
theories/WignerProps.v
theories/WignerRot.v
theories/WignerRot2.v
theories/WignerRot3.v
theories/WignerRot4.v
theories/WignerRotProps.v
theories/RotAutoModel.v
theories/RotAutoSpec.v
theories/RotAutoProofs.v
theories/RotAutoProofs2.v
theories/RotAutoProps.v
theories/VoronoiModel.v
theories/VoronoiSpec.v
theories/VoronoiProofs.v
theories/VoronoiProofs2.v
theories/VoronoiProps.v
theories/CoordModel.v
theories/CoordSpec.v
theories/CoordProofs.v
theories/CoordProps.v
theories/CubaticProps2.v
theories/IfaceModel.v
theories/IfaceSpec.v
theories/IfaceProps.v
theories/LbpModel.v
theories/LbpSpec.v
theories/LbpProofs.v
theories/LbpProps.v
theories/AliasModel.v
theories/AliasSpec.v
theories/AliasProofs.v
theories/AliasProofs2.v
theories/AliasProps.v
theories/RegModel.v
theories/RegSpec.v
theories/RegProofs.v
theories/RegProofs2.v
theories/RegProofs3.v
theories/RegProofs4.v
theories/RegProps.v
theories/DiffModel.v
theories/DiffSpec.v
theories/DiffProofs.v
theories/DiffProofs2.v
theories/DiffProofs3.v
theories/DiffProofs4.v
theories/DiffProps.v
theories/ReproModel.v
theories/ReproSpec.v
theories/ReproProofs.v
theories/ReproProps.v
theories/FaabbModel.v
theories/FaabbSpec.v
theories/FaabbProofs.v
theories/FaabbProofs2.v
theories/FaabbProps.v
theories/AliasProps2.v
theories/FcellModel.v
theories/FcellSpec.v
theories/FcellProofs.v
theories/FcellProofs2.v
theories/FcellProofs3.v
theories/FcellProofs4.v
theories/FcellProps.v
theories/BindModel.v
theories/BindSpec.v
theories/BindProofs.v
theories/BindProps.v
theories/FdistModel.v
theories/FdistSpec.v
theories/FdistProofs.v
theories/FdistProofs2.v
theories/FdistProps.v
theories/ReproProofs2.v
theories/ReproSpec2.v
theories/ReproProps2.v
theories/FnearModel.v
theories/FnearSpec.v
theories/FnearProofs.v
theories/FnearProofs2.v
theories/FnearProps.v
theories/SystemModel.v
theories/SystemSpec.v
theories/SystemProps.v
theories/FaabbProps2.v
theories/FcqModel.v
theories/FcqProofs.v
theories/FcqSpec.v
theories/FcqProofs2.v
theories/FcqProofs3.v
theories/FcqProofs4.v
theories/FcqProofs5.v
theories/FcqProps.v
theories/NList32Model.v
theories/NList32Props.v
theories/Fcq32Model.v
theories/FcqProps2.v
theories/FrdfModel.v
theories/FrdfSpec.v
theories/FrdfProofs.v
theories/FrdfProps.v
theories/FrdfProofs2.v
theories/FrdfProofs3.v
theories/FrdfProps2.v
theories/PresetModel.v
theories/PresetSpec.v
theories/PresetProofs.v
theories/PresetProofs2.v
theories/PresetProps.v
theories/LcAutoSpec.v
theories/LcAutoProofs.v
theories/LcAutoProps.v
theories/Flc32Model.v
theories/Flc32Spec.v
theories/Flc32Proofs.v
theories/Flc32Props.v
theories/SymmSpec.v
theories/SymmProofs.v
theories/SymmProps.v
theories/SymmProps2.v
theories/SuperSpec.v
theories/SuperProofs.v
theories/SuperProps.v
theories/SuperProps2.v
theories/FldModel.v
theories/FldSpec.v
theories/FldProofs.v
theories/FldProofs2.v
theories/FldProofs3.v
theories/FldProps.v
theories/ExchSpec.v
theories/ExchProofs.v
theories/ExchProps.v
theories/ExchProps2.v
theories/ExchProps3.v
theories/ExchProps4.v
theories/JoinSpec.v
theories/JoinProofs.v
theories/JoinProps.v
theories/JoinProps2.v
theories/JoinProps3.v
theories/JoinProps4.v
theories/CutSpec.v
theories/CutProps.v
theories/CutProps2.v
theories/CutProps3.v
theories/MoreSpec.v
theories/MoreProps.v
theories/MoreProps2.v
theories/MoreProps3.v
theories/MoreProps4.v
theories/DsetProofs2.v
theories/Dset64Model.v
theories/DsetProps2.v
theories/DsetProofs3.v
theories/DsetProps3.v
theories/ClusterProofs2.v
theories/ClusterProps2.v
theories/SolidProps2.v
theories/DsetProps4.v
theories/CoarseSpec.v
theories/CoarseProps.v
theories/CoarseProps2.v
theories/CoarseProps3.v
theories/CoarseProps4.v
theories/CoarseProps5.v
theories/CoarseProps6.v
