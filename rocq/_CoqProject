-Q theories Verif
theories/Base.v
theories/TextSpec.v
theories/BaseLemmas.v
theories/IntModel.v
theories/IntSpec.v
theories/IntProofs.v
theories/IntProps.v
theories/DecimalModel.v
theories/DecimalSpec.v
theories/DecimalProofs.v
theories/Int128Model.v
theories/Int128Spec.v
theories/Int128Proofs.v
theories/DecimalProps.v
theories/Int128Props.v
theories/TimeModel.v
theories/TimeSpec.v
theories/TimeProofs.v
theories/TimeProps.v
theories/Effect.v
theories/CmpModel.v
theories/CmpSpec.v
theories/CmpProofs.v
theories/CmpProps.v
theories/OptionModel.v
theories/OptionSpec.v
theories/OptionProps.v
theories/StringModel.v
theories/StringSpec.v
theories/StringProofs.v
theories/StringProps.v
theories/VecModel.v
theories/VecSpec.v
theories/VecHistory.v
theories/VecProofs.v
theories/VecSortProofs.v
theories/VecProps.v
theories/HeapModel.v
theories/HeapSpec.v
theories/HeapProofs.v
theories/HeapProps.v
theories/DequeModel.v
theories/DequeSpec.v
theories/DequeHistory.v
theories/DequeProofs.v
theories/DequeRunProofs.v
theories/DequeProps.v
theories/ListModel.v
theories/ListSpec.v
theories/ListHistory.v
theories/ListProofs.v
theories/ListIterProofs.v
theories/ListRunProofs.v
theories/ListProps.v
theories/HashModel.v
theories/HashSpec.v
theories/HashHistory.v
theories/HashProofs.v
theories/HashSetProofs.v
theories/HashProps.v
theories/BTreeModel.v
theories/BTreeSpec.v
theories/BTreeHistory.v
theories/BTreeProofs.v
theories/BTreeMapProofs.v
theories/BTreeSafeProofs.v
theories/BTreeSplitProofs.v
theories/BTreeGrowProofs.v
theories/BTreeLowProofs.v
theories/BTreeGentleProofs.v
theories/BTreeTwelfthProofs.v
theories/BTreeSepProofs.v
theories/BTreeSetProofs.v
theories/BTreeRemoveProofs.v
theories/BTreeTwoProofs.v
theories/BTreeTopProofs.v
theories/BTreeProps.v
theories/BTreeTreeSpec.v
theories/BTreeTreeProofs.v
theories/BTreePruneProofs.v
theories/BTreeTreeRunProofs.v
theories/BTreeTreeProps.v
theories/SyncModel.v
theories/SyncSpec.v
theories/SyncProofs.v
theories/SyncJoinProofs.v
theories/SyncLockProofs.v
theories/SyncCountProofs.v
theories/SyncOnceProofs.v
theories/SyncWorkProofs.v
theories/SyncExitProofs.v
theories/SyncProps.v
theories/OsModel.v
theories/FsModel.v
theories/FsSpec.v
theories/FsProofs.v
theories/FsWriteProofs.v
theories/FsTreeProofs.v
theories/FsDirProofs.v
theories/FsPoolProofs.v
theories/FsPoolNewProofs.v
theories/FsProps.v
theories/BTreeIterModel.v
theories/BTreeIterSpec.v
theories/BTreeIterProofs.v
theories/BTreeIterProps.v
theories/BTreeShowSpec.v
theories/BTreeShowProofs.v
theories/BTreeSetRun.v
theories/BTreeSetRunProofs.v
theories/BTreeShowProps.v
theories/StringSearchModel.v
theories/StringSearchSpec.v
theories/StringSearchProofs.v
theories/StringSearchProps.v
theories/IllFormedSpec.v
theories/IllFormedProofs.v
theories/IllFormedProps.v
theories/FloatSpec.v
theories/FloatCoreProofs.v
theories/FloatRoundProofs.v
theories/FloatOpsProofs.v
theories/FloatSqrtProofs.v
theories/FloatModel.v
theories/FloatProofs.v
theories/FloatProps.v
theories/FloatUniqueProofs.v
theories/FloatTextModel.v
theories/FloatTextSpec.v
theories/FloatTextProofs.v
theories/FloatParseProofs.v
theories/FloatTextProps.v
theories/FloatHexSpec.v
theories/FloatHexProofs.v
theories/FloatHexProps.v
theories/ShowModel.v
theories/ShowSpec.v
theories/ShowProofs.v
theories/ShowProps.v
theories/IoModel.v
theories/IoSpec.v
theories/IoProofs.v
theories/IoProps.v
theories/ComplexModel.v
theories/ComplexSpec.v
theories/ComplexErrorProofs.v
theories/ComplexProofs.v
theories/ComplexSpecialProofs.v
theories/ComplexProps.v
theories/RepoTests.v
theories/RepoSetTests.v
theories/VarModel.v
theories/VarSpec.v
theories/VarProofs.v
theories/VarListProofs.v
theories/VarDequeProofs.v
theories/VarProps.v
theories/IterShareSpec.v
theories/IterShareModel.v
theories/IterShareProofs.v
theories/IterShareDequeProofs.v
theories/IterShareListProofs.v
theories/IterShareProps.v
theories/PanicSpec.v
theories/PanicModel.v
theories/PanicProofs.v
theories/PanicDequeProofs.v
theories/PanicProps.v
theories/MutexCopyModel.v
theories/MutexCopySpec.v
theories/MutexCopyProofs.v
theories/MutexCopyProps.v
theories/ZeroSpec.v
theories/ZeroModel.v
theories/ZeroProofs.v
theories/ZeroProps.v
theories/OptShareSpec.v
theories/OptShareModel.v
theories/OptShareProofs.v
theories/OptShareProps.v
theories/DequeShareSpec.v
theories/DequeShareModel.v
theories/DequeShareProofs.v
theories/DequeShareProps.v
theories/ReenterSpec.v
theories/ReenterModel.v
theories/ReenterProofs.v
theories/ReenterProps.v
theories/BTreeProgSpec.v
theories/BTreeProgModel.v
theories/BTreeProgProofs.v
theories/BTreeProgProps.v
theories/BTreeShareSpec.v
theories/BTreeShareProofs.v
theories/BTreeShareProps.v
theories/AnyCmpSpec.v
theories/AnyCmpModel.v
theories/AnyCmpProofs.v
theories/AnyCmpTreeSpec.v
theories/AnyCmpTreeProofs.v
theories/AnyCmpProps.v
theories/HeapSystemSpec.v
theories/HeapSystemModel.v
theories/HeapSystemProofs.v
theories/HeapSystemProps.v
theories/StableSortModel.v
theories/StableSortProofs.v
theories/PdqSortModel.v
theories/PdqSortProofs.v
theories/SortLibModel.v
theories/SortLibProps.v
theories/ListShareSpec.v
theories/ListShareModel.v
theories/ListShareProofs.v
theories/ListShareSafeProofs.v
theories/ListRingProofs.v
theories/ListMoveProofs.v
theories/ListShareProps.v
theories/CodeSpec.v
theories/CodeModel.v
theories/CodeProofs.v
theories/CodeProps.v
theories/CostSpec.v
theories/CostModel.v
theories/CostProofs.v
theories/CostProps.v
theories/GrowSpec.v
theories/GrowRun.v
theories/GrowProofs.v
theories/GrowProps.v
theories/AsyncSpec.v
theories/AsyncModel.v
theories/AsyncProofs.v
theories/AsyncProps.v
theories/HashVarSpec.v
theories/HashVarModel.v
theories/HashVarProofs.v
theories/HashVarProps.v
theories/SortProgSpec.v
theories/SortProgModel.v
theories/SortProgProofs.v
theories/SortProgProps.v
theories/PdqProgSpec.v
theories/PdqProgModel.v
theories/PdqProgProofs.v
theories/PdqProgProps.v
theories/UnhashSpec.v
theories/UnhashModel.v
theories/UnhashProofs.v
theories/UnhashProps.v
theories/DequeSortModel.v
theories/DequeSortProofs.v
theories/DequeSortProps.v
theories/CodeTreeSpec.v
theories/CodeTreeModel.v
theories/CodeTreeProofs.v
theories/CodeTreeProps.v
theories/IterReenterSpec.v
theories/IterReenterModel.v
theories/IterReenterProofs.v
theories/IterReenterProps.v
