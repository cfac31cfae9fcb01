-Q theories Verif
theories/AlgoModel.v
theories/AlgoProofs.v
theories/AlgoProps.v
theories/AlgoSpec.v
theories/AmortProofs.v
theories/AmortProps.v
theories/AmortSpec.v
theories/AnyHookModel.v
theories/AnyHookProofs.v
theories/AnyHookProps.v
theories/AnyHookSpec.v
theories/AnyModel.v
theories/AnyNestModel.v
theories/AnyNestProofs.v
theories/AnyNestProps.v
theories/AnyNestSpec.v
theories/AnyProofs.v
theories/AnyProps.v
theories/AnySpec.v
theories/AspsLiveProofs.v
theories/AspsModel.v
theories/AspsProofs.v
theories/AspsProps.v
theories/AspsSpec.v
theories/AspsWeakModel.v
theories/AspsWeakProofs.v
theories/AspsWeakProps.v
theories/AspsWeakSpec.v
theories/AtomicModel.v
theories/AtomicProofs.v
theories/AtomicProps.v
theories/AtomicSpec.v
theories/AtomicWeakModel.v
theories/AtomicWeakProofs.v
theories/AtomicWeakProps.v
theories/AtomicWeakSpec.v
theories/Base.v
theories/BitsetBufModel.v
theories/BitsetBufPodProofs.v
theories/BitsetBufProofs.v
theories/BitsetBufProps.v
theories/BitsetBufSmallProofs.v
theories/BitsetBufSpec.v
theories/BitsetExnModel.v
theories/BitsetExnProofs.v
theories/BitsetExnProps.v
theories/BitsetExnSpec.v
theories/BitsetModel.v
theories/BitsetMoveModel.v
theories/BitsetMoveProofs.v
theories/BitsetMoveProps.v
theories/BitsetMoveSpec.v
theories/BitsetProofs.v
theories/BitsetProps.v
theories/BitsetRefModel.v
theories/BitsetRefProofs.v
theories/BitsetRefProps.v
theories/BitsetRefSpec.v
theories/BitsetSelfModel.v
theories/BitsetSelfProofs.v
theories/BitsetSelfProps.v
theories/BitsetSelfSpec.v
theories/BitsetSpec.v
theories/CalendarModel.v
theories/CalendarProofs.v
theories/CalendarProps.v
theories/CalendarSpec.v
theories/ConcModel.v
theories/ConcProofs.v
theories/ConcSpec.v
theories/CtorModel.v
theories/CtorProofs.v
theories/CtorProps.v
theories/CtorSpec.v
theories/DmutexLiveProofs.v
theories/DmutexModel.v
theories/DmutexProofs.v
theories/DmutexProps.v
theories/DmutexSpec.v
theories/DmutexWeakModel.v
theories/DmutexWeakProofs.v
theories/DmutexWeakProps.v
theories/DmutexWeakSpec.v
theories/ExpListModel.v
theories/ExpListProofs.v
theories/ExpListProps.v
theories/ExpListSpec.v
theories/ExpectedModel.v
theories/ExpectedProofs.v
theories/ExpectedProps.v
theories/ExpectedSpec.v
theories/FlatCostProofs.v
theories/FlatCostProps.v
theories/FlatCostSpec.v
theories/FlatEditModel.v
theories/FlatEditProofs.v
theories/FlatEditProps.v
theories/FlatEditSpec.v
theories/FlatExnModel.v
theories/FlatExnProofs.v
theories/FlatExnProps.v
theories/FlatExnSpec.v
theories/FlatModel.v
theories/FlatOwnModel.v
theories/FlatOwnProofs.v
theories/FlatOwnProps.v
theories/FlatOwnSpec.v
theories/FlatProofs.v
theories/FlatProps.v
theories/FlatSpec.v
theories/GenNestModel.v
theories/GenNestProofs.v
theories/GenNestProps.v
theories/GenNestSpec.v
theories/GenReentModel.v
theories/GenReentProofs.v
theories/GenReentProps.v
theories/GenReentSpec.v
theories/GeneratorModel.v
theories/GeneratorProofs.v
theories/GeneratorProps.v
theories/GeneratorSpec.v
theories/LiveProofs.v
theories/LiveProps.v
theories/LiveSpec.v
theories/MutexLiveProofs.v
theories/MutexModel.v
theories/MutexProofs.v
theories/MutexProps.v
theories/MutexSpec.v
theories/MutexWeakModel.v
theories/MutexWeakProofs.v
theories/MutexWeakProps.v
theories/MutexWeakSpec.v
theories/PmrModel.v
theories/PmrProofs.v
theories/PmrProps.v
theories/PmrSpec.v
theories/PodAllocModel.v
theories/PodAllocProofs.v
theories/PodAllocProps.v
theories/PodAllocSpec.v
theories/PodAmortProofs.v
theories/PodBlockProofs.v
theories/PodMoreProofs.v
theories/PodMoreProps.v
theories/PodMoreSpec.v
theories/PodNarrowModel.v
theories/PodNarrowMore.v
theories/PodNarrowProofs.v
theories/PodNarrowProps.v
theories/PodNarrowSpec.v
theories/PodVectorModel.v
theories/PodVectorProofs.v
theories/PodVectorProps.v
theories/PodVectorSpec.v
theories/PtrModel.v
theories/PtrPodProofs.v
theories/PtrProofs.v
theories/PtrProps.v
theories/PtrSmallProofs.v
theories/PtrSpec.v
theories/PtrStrideProofs.v
theories/RefsPodProofs.v
theories/RefsProofs.v
theories/RefsProps.v
theories/RefsSmallProofs.v
theories/RefsSpec.v
theories/RefsStaticProofs.v
theories/SentryModel.v
theories/SentryProofs.v
theories/SentryProps.v
theories/SentrySpec.v
theories/SeqSpec.v
theories/SettingsModel.v
theories/SettingsProofs.v
theories/SettingsProps.v
theories/SettingsSpec.v
theories/SharedModel.v
theories/SharedProofs.v
theories/SharedProps.v
theories/SharedSpec.v
theories/SmallAllocModel.v
theories/SmallAllocProofs.v
theories/SmallAllocProps.v
theories/SmallAllocSpec.v
theories/SmallBufProofs.v
theories/SmallBufProps.v
theories/SmallBufSpec.v
theories/SmallExnProofs.v
theories/SmallExnProps.v
theories/SmallExnSpec.v
theories/SmallFlatModel.v
theories/SmallFlatProofs.v
theories/SmallFlatProps.v
theories/SmallFlatSpec.v
theories/SmallMoveAllProofs.v
theories/SmallMoveModel.v
theories/SmallMoveProofs.v
theories/SmallMoveProps.v
theories/SmallMoveSpec.v
theories/SmallVectorModel.v
theories/SmallVectorProofs.v
theories/SmallVectorProps.v
theories/SmallVectorSpec.v
theories/SpanModel.v
theories/SpanProofs.v
theories/SpanProps.v
theories/SpanSpec.v
theories/StaticMoveModel.v
theories/StaticMoveProofs.v
theories/StaticMoveProps.v
theories/StaticMoveSpec.v
theories/StaticVectorModel.v
theories/StaticVectorProofs.v
theories/StaticVectorProps.v
theories/StaticVectorSpec.v
theories/StreamAddrModel.v
theories/StreamAddrProps.v
theories/StreamBufInst.v
theories/StreamBufModel.v
theories/StreamBufProofs.v
theories/StreamBufProps.v
theories/StreamBufSpec.v
theories/StreamCopyModel.v
theories/StreamCopyProofs.v
theories/StreamCopyProps.v
theories/StreamCopySpec.v
theories/StreamModel.v
theories/StreamProofs.v
theories/StreamProps.v
theories/StreamSpec.v
theories/StrutilModel.v
theories/StrutilProofs.v
theories/StrutilProps.v
theories/StrutilSpec.v
theories/ThrowModel.v
theories/ThrowProofs.v
theories/ThrowProps.v
theories/ThrowSpec.v
theories/TimeModel.v
theories/TimeProps.v
theories/TraitsModel.v
theories/TraitsProofs.v
theories/TraitsProps.v
theories/TraitsSpec.v
theories/UfunModel.v
theories/UfunProofs.v
theories/UfunProps.v
theories/UfunSpec.v
theories/UmapModel.v
theories/UmapProofs.v
theories/UmapProps.v
theories/UmapSpec.v
theories/VecAlgoModel.v
theories/VecAlgoProofs.v
theories/VecAlgoProps.v
theories/VecAlgoSpec.v
theories/VecCommon.v
theories/VecViewModel.v
theories/VecViewProofs.v
theories/VecViewProps.v
theories/VecViewSmallProofs.v
theories/VecViewSpec.v
theories/VecViewStaticProofs.v
theories/WmModel.v
theories/WmProofs.v
