-Q theories Verif
theories/Base.v
theories/LayoutModel.v
theories/LayoutProofs.v
theories/PackedModel.v
theories/PackedProofs.v
theories/PackedSpec.v
theories/PackedSeq.v
theories/PackedThms.v
theories/StorageModel.v
theories/StorageSpec.v
theories/StorageProofs.v
theories/RangeModel.v
theories/RangeProofs.v
theories/AdaptorModel.v
theories/AdaptorProofs.v
theories/ProxyModel.v
theories/ProxySpec.v
theories/ProxyProofs.v
theories/LayoutProps.v
theories/ProxyProps.v
theories/PackedProps.v
theories/StorageProps.v
theories/SparseLib.v
theories/MapArrayModel.v
theories/MapArraySpec.v
theories/MapArrayProofs.v
theories/MappedModel.v
theories/MappedSpec.v
theories/MappedProofs.v
theories/SparseProps.v
theories/CVecModel.v
theories/CVecSpec.v
theories/CVecProofs.v
theories/CVecProps.v
theories/CoordModel.v
theories/CoordProofs.v
theories/CoVecModel.v
theories/CoVecSpec.v
theories/CoVecProofs.v
theories/CoVecProps.v
theories/CMatModel.v
theories/CMatSpec.v
theories/CMatProofs.v
theories/CMatProps.v
theories/FieldLib.v
theories/LinStore.v
theories/TriModel.v
theories/TriSpec.v
theories/TriProofs.v
theories/TriProps.v
theories/NormModel.v
theories/NormSpec.v
theories/NormProps.v
theories/LuModel.v
theories/LuSpec.v
theories/LuProofs.v
theories/LuProps.v
theories/AxpyLuModel.v
theories/AxpyLuProofs.v
theories/AxpyLuProps.v
theories/AssignModel.v
theories/AssignSpec.v
theories/AssignProofs.v
theories/AssignProps.v
theories/InnerModel.v
theories/InnerProps.v
theories/MAssignModel.v
theories/MAssignSpec.v
theories/MAssignProofs.v
theories/MAssignProofs2.v
theories/MAssignProofs3.v
theories/MAssignSwap.v
theories/MAssignProps.v
theories/TensorModel.v
theories/TensorSpec.v
theories/TensorProofs.v
theories/TensorNest.v
theories/TensorKernels.v
theories/TensorMult.v
theories/TensorApi.v
theories/TensorApiProofs.v
theories/TensorApiProofs2.v
theories/TensorApiProofs3.v
theories/TensorApiProofs4.v
theories/TensorEin.v
theories/TensorSafe.v
theories/TensorProps.v
theories/TensorMulProps.v
theories/TensorExprProps.v
theories/OperModel.v
theories/OperSpec.v
theories/OperProofs.v
theories/OperProofs2.v
theories/OperProofs3.v
theories/OperProofs4.v
theories/OperProofs5.v
theories/OperProps.v
theories/AliasModel.v
theories/AliasSpec.v
theories/AliasProofs.v
theories/AliasProps.v
theories/IoModel.v
theories/IoSpec.v
theories/IoProofs.v
theories/IoProofs2.v
theories/IoProps.v
theories/CommaModel.v
theories/CommaSpec.v
theories/CommaProofs.v
theories/CommaProofs2.v
theories/CommaProofs3.v
theories/CommaProps.v
theories/VexModel.v
theories/VexSpec.v
theories/VexProofs.v
theories/VexProps.v
theories/CMIterModel.v
theories/CMIterSpec.v
theories/CMIterProofs.v
theories/CMIterProps.v
theories/CoMatModel.v
theories/CoMatSpec.v
theories/CoMatProofs.v
theories/CoConvProofs.v
theories/CoMatProps.v
theories/DMIterModel.v
theories/DMIterSpec.v
theories/DMIterProofs.v
theories/DMIterProps.v
theories/MAdaptModel.v
theories/MAdaptSpec.v
theories/MAdaptProofs.v
theories/MAdaptProps.v
theories/SAdaptModel.v
theories/SAdaptSpec.v
theories/SAdaptProofs.v
theories/SAdaptProps.v
theories/BlasModel.v
theories/BlasSpec.v
theories/BlasProofs.v
theories/BlasProps.v
theories/MexModel.v
theories/MexSpec.v
theories/MexProofs.v
theories/MexProofs2.v
theories/MexProps.v
theories/ViewIterModel.v
theories/ViewIterSpec.v
theories/ViewIterProofs.v
theories/ViewIterProps.v
theories/MMIterModel.v
theories/MMIterSpec.v
theories/MMIterProofs.v
theories/MMIterProps.v
theories/SVIterModel.v
theories/SVIterSpec.v
theories/SVIterProofs.v
theories/SVIterProps.v
theories/VVModel.v
theories/VVSpec.v
theories/VVProofs.v
theories/VVProps.v
theories/VVIterModel.v
theories/VVIterSpec.v
theories/VVIterProofs.v
theories/VVIterProps.v
theories/SpecialModel.v
theories/SpecialSpec.v
theories/SpecialProofs.v
theories/SpecialProps.v
theories/CArrModel.v
theories/CArrSpec.v
theories/CArrProofs.v
theories/CArrProps.v
theories/CoIterModel.v
theories/CoIterProofs.v
theories/CoIterProps.v
theories/NMapModel.v
theories/NMapSpec.v
theories/NMapProofs.v
theories/NMIterModel.v
theories/NMIterProofs.v
theories/NMapProps.v
theories/PkIterModel.v
theories/PkIterSpec.v
theories/PkIterProofs.v
theories/PkIterProps.v
theories/SViewModel.v
theories/SViewSpec.v
theories/SViewProofs.v
theories/SViewProps.v
theories/MVecModel.v
theories/MVecSpec.v
theories/MVecProofs.v
theories/MVecProps.v
theories/VoVModel.v
theories/VoVSpec.v
theories/VoVProofs.v
theories/VoVProps.v
theories/VoVIterModel.v
theories/VoVIterSpec.v
theories/VoVIterProofs.v
theories/VoVIterProps.v
theories/TPrintModel.v
theories/TPrintSpec.v
theories/TPrintProofs.v
theories/TPrintProps.v
theories/TCtorModel.v
theories/TCtorProps.v
theories/DVecModel.v
theories/DVecSpec.v
theories/DVecProofs.v
theories/DVecProps.v
theories/DMatModel.v
theories/DMatSpec.v
theories/DMatProofs.v
theories/DMatProps.v
theories/PHistModel.v
theories/PHistSpec.v
theories/PHistProofs.v
theories/PHistProps.v
theories/SHistModel.v
theories/SHistSpec.v
theories/SHistProofs.v
theories/SHistProps.v
theories/SMHistModel.v
theories/SMHistSpec.v
theories/SMHistProofs.v
theories/SMHistComp.v
theories/SMHistCoord.v
theories/SMHistMap.v
theories/SMHistProps.v
theories/PkResizeModel.v
theories/PkResizeSpec.v
theories/PkResizeProofs.v
theories/PkResizeBand.v
theories/PkResizeProps.v
theories/TMkModel.v
theories/TMkProofs.v
theories/TMkProps.v
theories/ShallowModel.v
theories/ShallowProofs.v
theories/ShallowProps.v
theories/ElModel.v
theories/ElSpec.v
theories/ElProofs.v
theories/ElProps.v
theories/MElModel.v
theories/MElSpec.v
theories/MElProofs.v
theories/MElProps.v
theories/Assumptions.v
