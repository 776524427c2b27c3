-Q theories Verif
theories/AdoptModel.v
theories/AdoptProofs.v
theories/AdoptProps.v
theories/AdoptSpec.v
theories/AllocSetModel.v
theories/AllocSetProofs.v
theories/AllocSetProps.v
theories/AllocSetSpec.v
theories/AsyncModel.v
theories/AsyncProofs.v
theories/AsyncProps.v
theories/AsyncSpec.v
theories/AutoVarModel.v
theories/AutoVarProofs.v
theories/AutoVarProps.v
theories/AutoVarSpec.v
theories/AutoVarTidyProofs.v
theories/AutoVarTopProofs.v
theories/BagCodecModel.v
theories/BagCodecProofs.v
theories/BagCodecProps.v
theories/BagCodecResults.v
theories/BagCodecSpec.v
theories/BagDecodeProofs.v
theories/BagDumpProofs.v
theories/BagFinalProofs.v
theories/BagKeysProofs.v
theories/BagLoadProofs.v
theories/BagModel.v
theories/BagOpsProofs.v
theories/BagProofs.v
theories/BagProps.v
theories/BagReads.v
theories/BagResultProofs.v
theories/BagRunProofs.v
theories/BagSpec.v
theories/BagStateProofs.v
theories/BagStepProofs.v
theories/BagViewProofs.v
theories/Base62Model.v
theories/Base62Proofs.v
theories/BindExprProofs.v
theories/BindModel.v
theories/BindProofs.v
theories/BindProps.v
theories/BindSpec.v
theories/BindTopProofs.v
theories/BindUseProofs.v
theories/ChainModel.v
theories/ChainProofs.v
theories/ChainProps.v
theories/ChainSpec.v
theories/CollProofs.v
theories/ContainerProofs.v
theories/DataListModel.v
theories/DataListOpsProofs.v
theories/DataListProofs.v
theories/DataListProps.v
theories/DataListRunProofs.v
theories/DataListSpec.v
theories/DeepCompareEndProofs.v
theories/DeepCompareFindProofs.v
theories/DeepCompareModel.v
theories/DeepCompareOrderProofs.v
theories/DeepCompareProofs.v
theories/DeepCompareProps.v
theories/DeepCompareRunProofs.v
theories/DeepCompareSpec.v
theories/DeepCompareStepProofs.v
theories/DeepCompareTopProofs.v
theories/DictModel.v
theories/DictProofs.v
theories/DictProps.v
theories/DictSpec.v
theories/ExtractCheck.v
theories/ExtractModel.v
theories/ExtractProofs.v
theories/ExtractProps.v
theories/ExtractSpec.v
theories/ExtractTermination.v
theories/ForModel.v
theories/ForProofs.v
theories/ForProps.v
theories/ForRunProofs.v
theories/ForSpec.v
theories/ForWorkProofs.v
theories/FullWriteProofs.v
theories/FunctorCallProofs.v
theories/FunctorModel.v
theories/FunctorProofs.v
theories/FunctorProps.v
theories/FunctorSpec.v
theories/FutureModel.v
theories/FutureProofs.v
theories/FutureProps.v
theories/FutureSpec.v
theories/GraphAnalysisProofs.v
theories/GraphClosureProofs.v
theories/GraphHelperProofs.v
theories/GraphModel.v
theories/GraphProofs.v
theories/GraphProps.v
theories/GraphSpec.v
theories/GroupAssignProofs.v
theories/GroupFinalProofs.v
theories/GroupKeysProofs.v
theories/GroupModel.v
theories/GroupProofs.v
theories/GroupProps.v
theories/GroupSortProofs.v
theories/GroupSpec.v
theories/GroupUniqueProofs.v
theories/InterleaveModel.v
theories/InterleaveProofs.v
theories/InterleaveSpec.v
theories/ItemIdProps.v
theories/ItemIdSpec.v
theories/ItemModel.v
theories/JsonChunkProofs.v
theories/JsonExtractProofs.v
theories/JsonLineProofs.v
theories/JsonModel.v
theories/JsonPrettyProofs.v
theories/JsonProofs.v
theories/JsonProps.v
theories/JsonSpec.v
theories/JsonStringProofs.v
theories/LayerProofs.v
theories/ListRunSpec.v
theories/LruModel.v
theories/LruProofs.v
theories/LruProps.v
theories/LruSpec.v
theories/MapModel.v
theories/MapProofs.v
theories/MapProps.v
theories/MapSpec.v
theories/MergeBigProofs.v
theories/MergeFold.v
theories/MergeImplProofs.v
theories/MergeLayerProofs.v
theories/MergeModel.v
theories/MergeSourceProofs.v
theories/ObjectIdModel.v
theories/ObjectIdProofs.v
theories/PathCodecModel.v
theories/PathCodecProofs.v
theories/PathGenProofs.v
theories/PathModel.v
theories/PathProofs.v
theories/PathProps.v
theories/PathSpec.v
theories/ReadProofs.v
theories/ReduceModel.v
theories/ReduceProofs.v
theories/ReduceProps.v
theories/ReduceSpec.v
theories/S11nModel.v
theories/S11nProofs.v
theories/S11nProps.v
theories/S11nSpec.v
theories/SalvageModel.v
theories/SalvageProofs.v
theories/SalvageProps.v
theories/SalvageRefutedProofs.v
theories/SalvageSpec.v
theories/SalvageValidProofs.v
theories/SchemaModel.v
theories/SchemaProofs.v
theories/SchemaProps.v
theories/SchemaSpec.v
theories/SignatureModel.v
theories/SignatureProofs.v
theories/SignatureProps.v
theories/SignatureSpec.v
theories/SliceBuildProofs.v
theories/SliceGatherProofs.v
theories/SliceManagerCombineProofs.v
theories/SliceManagerDataProofs.v
theories/SliceManagerEffectProofs.v
theories/SliceManagerExampleProofs.v
theories/SliceManagerHistoryProofs.v
theories/SliceManagerLoadProofs.v
theories/SliceManagerModel.v
theories/SliceManagerProcessProofs.v
theories/SliceManagerProofs.v
theories/SliceManagerProps.v
theories/SliceManagerSpec.v
theories/SliceManagerTotalProofs.v
theories/SliceManagerUpdateProofs.v
theories/SliceModel.v
theories/SliceOpsModel.v
theories/SliceOpsProofs.v
theories/SliceOpsProps.v
theories/SliceOpsSpec.v
theories/SliceOrProofs.v
theories/SliceProofs.v
theories/SliceProps.v
theories/SliceReadProofs.v
theories/SliceShapeProofs.v
theories/SliceSpec.v
theories/SourceModel.v
theories/SourceProofs.v
theories/SourceSpec.v
theories/StackModel.v
theories/StackProofs.v
theories/StackProps.v
theories/StackSpec.v
theories/StoreCallProofs.v
theories/StoreClosureProofs.v
theories/StoreFileProofs.v
theories/StoreHistoryProofs.v
theories/StoreInvProofs.v
theories/StoreModel.v
theories/StoreNameProofs.v
theories/StoreOutcomeProofs.v
theories/StoreProps.v
theories/StoreReopenProofs.v
theories/StoreRunProofs.v
theories/StoreSpec.v
theories/StoreStepProofs.v
theories/StreamModel.v
theories/StreamProofs.v
theories/StreamProps.v
theories/StreamSpec.v
theories/StreamTraceProofs.v
theories/SubsliceModel.v
theories/SubsliceOpsProofs.v
theories/SubsliceProofs.v
theories/SubsliceProps.v
theories/SubsliceRunProofs.v
theories/SubsliceSpec.v
theories/TrampolineModel.v
theories/TrampolineProofs.v
theories/TrampolineProps.v
theories/TrampolineSpec.v
theories/TranslateGroupModel.v
theories/TranslateGroupProofs.v
theories/TranslateGroupTopProofs.v
theories/TranslateModel.v
theories/TranslateProofs.v
theories/TranslateProps.v
theories/TranslateSpec.v
theories/TranslateTopProofs.v
theories/UnorderedModel.v
theories/UnorderedProofs.v
theories/UnorderedSpec.v
theories/UpdateProofs.v
theories/ViewFlattenProofs.v
theories/ViewGroupProofs.v
theories/ViewLawsProofs.v
theories/ViewMainProofs.v
theories/ViewModel.v
theories/ViewOpsProofs.v
theories/ViewProofs.v
theories/ViewProps.v
theories/ViewSpec.v
theories/VisitModel.v
theories/VisitProofs.v
theories/VisitProps.v
theories/VisitSpec.v
theories/WhileModel.v
theories/WhileProofs.v
theories/WhileProps.v
theories/WhileSpec.v
