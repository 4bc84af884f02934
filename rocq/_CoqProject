-Q theories Verif
theories/AddrModel.v
theories/AddrProps.v
theories/AfdoEffProofs.v
theories/AfdoFileProofs.v
theories/AfdoLayoutProps.v
theories/AfdoModel.v
theories/AfdoProofs.v
theories/AfdoProps.v
theories/AfdoReadProofs.v
theories/AfdoSpec.v
theories/AfdoWholeProofs.v
theories/AsmQueueModel.v
theories/AsmQueueProofs.v
theories/AsmQueueProps.v
theories/AsmQueueSpec.v
theories/AssocFold.v
theories/AttribProofs.v
theories/Base.v
theories/BinaryExample.v
theories/BinaryIdModel.v
theories/BinaryIdProps.v
theories/BinaryModel.v
theories/BinaryProps.v
theories/BinarySpec.v
theories/ByteModel.v
theories/ByteProofs.v
theories/ByteProps.v
theories/ByteSpec.v
theories/CfgBuildModel.v
theories/CfgBuildProofs.v
theories/CfgBuildProps.v
theories/CfgBuildSpec.v
theories/CfgBuildTotal.v
theories/CfgFreqModel.v
theories/CfgFreqProps.v
theories/CfgObjEdges.v
theories/CfgObjModel.v
theories/CfgObjObs.v
theories/CfgObjProofs.v
theories/CfgObjProps.v
theories/CfgObjQuery.v
theories/CfgObjRun.v
theories/CfgObjSpec.v
theories/ChainAsmProofs.v
theories/ChainBuildModel.v
theories/ChainBuildSpec.v
theories/ChainConsumeProofs.v
theories/ChainEdgeInitProofs.v
theories/ChainEdgeProofs.v
theories/ChainHistProofs.v
theories/ChainInitProofs.v
theories/ChainLoopProofs.v
theories/ChainMainProofs.v
theories/ChainMergeProofs.v
theories/ChainMergeWfProofs.v
theories/ChainModel.v
theories/ChainProps.v
theories/ChainQueueInvProofs.v
theories/ChainQueueProofs.v
theories/ChainScoreProofs.v
theories/ChainSpec.v
theories/ChainStepProofs.v
theories/ClusterModel.v
theories/ClusterProofs.v
theories/ClusterProps.v
theories/ClusterRunProofs.v
theories/ClusterSpec.v
theories/CmdModel.v
theories/CmdProps.v
theories/CmdSpec.v
theories/ColdListModel.v
theories/ColdListProps.v
theories/ColdListSpec.v
theories/CreateFitProofs.v
theories/CreateModel.v
theories/CreateProcProofs.v
theories/CreateProofs.v
theories/CreateProps.v
theories/CreateSame.v
theories/CreateSpec.v
theories/DieModel.v
theories/DieProofs.v
theories/DieProps.v
theories/DieSpec.v
theories/DieTerm.v
theories/DumpModel.v
theories/DumpProofs.v
theories/DumpProps.v
theories/DumpSpec.v
theories/DwLineLoop.v
theories/DwLineMap.v
theories/DwLineModel.v
theories/DwLineProofs.v
theories/DwLineProps.v
theories/DwLineSpec.v
theories/DwTreeBad.v
theories/DwTreeGood.v
theories/DwTreeMap.v
theories/DwTreeModel.v
theories/DwTreePop.v
theories/DwTreeProofs.v
theories/DwTreeProps.v
theories/DwTreeSpec.v
theories/DwTreeWalk.v
theories/DwarfRangesModel.v
theories/DwarfRangesProofs.v
theories/DwarfRangesProps.v
theories/DwarfRangesSpec.v
theories/ElfModel.v
theories/ElfProofs.v
theories/ElfProps.v
theories/ElfReadProofs.v
theories/ElfSpec.v
theories/ElideModel.v
theories/ElideProofs.v
theories/ElideProps.v
theories/EntryModel.v
theories/EntryProps.v
theories/EntrySpec.v
theories/FlatProfMoreProps.v
theories/FlatProfProofs.v
theories/FlatProfProps.v
theories/FlatProfSpec.v
theories/FlattenAllProofs.v
theories/FlattenHeadProps.v
theories/FlattenMapProofs.v
theories/FlattenModel.v
theories/FlattenNestProofs.v
theories/FlattenProps.v
theories/FlattenPureProofs.v
theories/FlattenSpec.v
theories/FlattenTopProofs.v
theories/ForcedModel.v
theories/ForcedProofs.v
theories/ForcedProps.v
theories/ForcedSpec.v
theories/GcovModel.v
theories/GcovProofs.v
theories/GcovProps.v
theories/GcovSpec.v
theories/GenModel.v
theories/GenProofs.v
theories/GenProps.v
theories/GenSpec.v
theories/HistModel.v
theories/HistProofs.v
theories/HistProps.v
theories/HistSpec.v
theories/HybridBodyProofs.v
theories/HybridModel.v
theories/HybridMoreProps.v
theories/HybridPopProofs.v
theories/HybridProps.v
theories/HybridSpec.v
theories/HybridViewProofs.v
theories/ISort.v
theories/InferModel.v
theories/InferProps.v
theories/InferSpec.v
theories/LayoutModel.v
theories/LayoutProofs.v
theories/LayoutProps.v
theories/LayoutRunProofs.v
theories/LayoutSpec.v
theories/LazyModel.v
theories/LazyProps.v
theories/LbrModel.v
theories/LbrProofs.v
theories/LbrProps.v
theories/LbrSpec.v
theories/LlvmMergeProofs.v
theories/LlvmReadModel.v
theories/LlvmReadProofs.v
theories/LlvmReadProps.v
theories/LlvmReadSpec.v
theories/LlvmRoundProofs.v
theories/LlvmRoundProps.v
theories/LlvmWriteModel.v
theories/LlvmWriteProofs.v
theories/LlvmWriteProps.v
theories/LlvmWriteRep.v
theories/LlvmWriteSpec.v
theories/MMapModel.v
theories/MMapProofs.v
theories/MMapProps.v
theories/MMapSpec.v
theories/MapperModel.v
theories/MapperProofs.v
theories/MapperProps.v
theories/MapperSpec.v
theories/OverlapModel.v
theories/OverlapProofs.v
theories/OverlapProps.v
theories/OverlapSpec.v
theories/PartsProps.v
theories/PrefetchModel.v
theories/PrefetchProofs.v
theories/PrefetchProps.v
theories/PrefetchReadProofs.v
theories/PrefetchSpec.v
theories/PrepModel.v
theories/PrepProofs.v
theories/PrepProps.v
theories/PrepSpec.v
theories/ProfileModel.v
theories/ProfileProofs.v
theories/ProfileProps.v
theories/ProfileSpec.v
theories/PropEndA.v
theories/PropEndB.v
theories/PropEndC.v
theories/PropEndD.v
theories/PropEndModel.v
theories/PropEndProofs.v
theories/PropEndProps.v
theories/PropEndSpec.v
theories/RangeMapModel.v
theories/RangeMapProofs.v
theories/RangeMapProps.v
theories/SampleMergeModel.v
theories/SampleMergeProofs.v
theories/SampleMergeProps.v
theories/SampleMergeSpec.v
theories/SampleModel.v
theories/SampleProofs.v
theories/SampleProps.v
theories/SampleSpec.v
theories/SampledModel.v
theories/SampledProps.v
theories/SampledSpec.v
theories/SccModel.v
theories/SccProofs.v
theories/SccProps.v
theories/SccSpec.v
theories/SccTopo.v
theories/SimpleSpeModel.v
theories/SimpleSpeProofs.v
theories/SimpleSpeProps.v
theories/SimpleSpeSpec.v
theories/SpeModel.v
theories/SpeProps.v
theories/SpeRangeModel.v
theories/SpeRangeProofs.v
theories/SpeRangeProps.v
theories/SpeRangeSpec.v
theories/SpeReadModel.v
theories/SpeReadProofs.v
theories/SpeReadProps.v
theories/SpeReadSpec.v
theories/SrcOffsetModel.v
theories/SrcOffsetProofs.v
theories/SrcOffsetProps.v
theories/StatusModel.v
theories/StatusProps.v
theories/StdSearch.v
theories/SymInfoModel.v
theories/SymInfoProps.v
theories/SymInfoSpec.v
theories/SymListModel.v
theories/SymListProps.v
theories/SymbolModel.v
theories/SymbolProofs.v
theories/SymbolProps.v
theories/SymbolSpec.v
theories/ThrottleProofs.v
theories/TrimModel.v
theories/TrimProofs.v
theories/TrimProps.v
theories/WriterModel.v
theories/WriterProofs.v
theories/WriterProps.v
theories/WriterReadProofs.v
theories/WriterSpec.v
theories/ZMap.v
