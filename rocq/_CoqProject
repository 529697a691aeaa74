-Q theories Verif
theories/AdapterModel.v
theories/AdapterProps.v
theories/AdapterSpec.v
theories/AlgoModel.v
theories/AlgoProofs.v
theories/AlgoProps.v
theories/AlgoSpec.v
theories/AnyCmpAlg.v
theories/AnyCmpExt.v
theories/AnyCmpHeap.v
theories/AnyCmpMap.v
theories/AnyCmpProofs.v
theories/AnyCmpProps.v
theories/AnyCmpRb.v
theories/AnyCmpRbProps.v
theories/AnyCmpSet.v
theories/AnyCmpSkip.v
theories/AnyCmpSkipExt.v
theories/AnyCmpSkipProps.v
theories/AnyCmpSpec.v
theories/ArrayModel.v
theories/ArrayProofs.v
theories/ArrayProps.v
theories/ArraySpec.v
theories/Base.v
theories/BidIterModel.v
theories/BidIterProps.v
theories/BidIterSpec.v
theories/BidlistCyc.v
theories/BidlistHist.v
theories/BidlistModel.v
theories/BidlistOps.v
theories/BidlistProofs.v
theories/BidlistProps.v
theories/BidlistSpec.v
theories/BitmapModel.v
theories/BitmapProofs.v
theories/BitmapProps.v
theories/BitmapShareModel.v
theories/BitmapShareProps.v
theories/BitmapShareSpec.v
theories/BitmapSpec.v
theories/BloomModel.v
theories/BloomProofs.v
theories/BloomProps.v
theories/BloomRateProps.v
theories/BloomRateSpec.v
theories/BloomShareModel.v
theories/BloomShareProps.v
theories/BloomShareSpec.v
theories/BloomSpec.v
theories/ComparatorModel.v
theories/ComparatorProofs.v
theories/ComparatorProps.v
theories/ComparatorSpec.v
theories/ConcCrashProps.v
theories/ConcCrashSpec.v
theories/ConcDemo.v
theories/ConcInst.v
theories/ConcIterModel.v
theories/ConcIterProps.v
theories/ConcKetama.v
theories/ConcKetamaModel.v
theories/ConcModel.v
theories/ConcPlay.v
theories/ConcProofs.v
theories/ConcProps.v
theories/ConcRo.v
theories/ConcSections.v
theories/ConcSet.v
theories/ConcSetModel.v
theories/ConcSpec.v
theories/ConcTables.v
theories/ConcVisit.v
theories/ConcVisitModel.v
theories/ConcVisitProps.v
theories/ConcVisitSim.v
theories/CountSpec.v
theories/CrashAlgModel.v
theories/CrashAlgProofs.v
theories/CrashAlgProps.v
theories/CrashAlgSame.v
theories/CrashModel.v
theories/CrashProofs.v
theories/CrashProps.v
theories/CrashShift.v
theories/CrashSkipModel.v
theories/CrashSkipProps.v
theories/CrashSpec.v
theories/CrashStep.v
theories/DequeCostModel.v
theories/DequeCostProofs.v
theories/DequeCostProps.v
theories/DequeFloat.v
theories/DequeHist.v
theories/DequeLists.v
theories/DequeModel.v
theories/DequeOps.v
theories/DequeOps2.v
theories/DequeOps3.v
theories/DequeOps4.v
theories/DequeProofs.v
theories/DequeProps.v
theories/DequeSideProofs.v
theories/DequeSideProps.v
theories/DequeSideSpec.v
theories/DequeSpec.v
theories/EraseIterModel.v
theories/EraseIterProps.v
theories/EraseIterSpec.v
theories/EstimateModel.v
theories/EstimateProofs.v
theories/EstimateProps.v
theories/EstimateSpec.v
theories/GoSliceModel.v
theories/GoSliceProofs.v
theories/HamtAliasModel.v
theories/HamtAliasProofs.v
theories/HamtAliasProps.v
theories/HamtAliasSpec.v
theories/HamtHeapErase.v
theories/HamtHeapErase2.v
theories/HamtHeapIns.v
theories/HamtHeapModel.v
theories/HamtHeapOver.v
theories/HamtHeapPlace.v
theories/HamtHeapProps.v
theories/HamtHeapRep.v
theories/HamtHeapSim.v
theories/HamtHeapVisit.v
theories/HamtHeapVisit2.v
theories/HamtHeldProps.v
theories/HamtModel.v
theories/HamtOrderProps.v
theories/HamtOrderSpec.v
theories/HamtProofs.v
theories/HamtProps.v
theories/HamtSpaceProps.v
theories/HamtSpec.v
theories/HamtVisitSpec.v
theories/HeapCostProps.v
theories/HeapGenModel.v
theories/HeapModel.v
theories/HeapProofs.v
theories/HeapProps.v
theories/HeapSpec.v
theories/HeldProps.v
theories/HeldProps2.v
theories/HeldProps3.v
theories/HeldSpec.v
theories/History.v
theories/IterModel.v
theories/IterProofs.v
theories/IterProps.v
theories/IterSpec.v
theories/KetamaModel.v
theories/KetamaProofs.v
theories/KetamaProps.v
theories/KetamaShareProofs.v
theories/KetamaShareProps.v
theories/KetamaShareSpec.v
theories/KetamaSpec.v
theories/ListLib.v
theories/MapModel.v
theories/MapProofs.v
theories/MapProps.v
theories/MapSpec.v
theories/NodeAlgoList.v
theories/NodeAlgoModel.v
theories/NodeAlgoProofs.v
theories/NodeAlgoProps.v
theories/NodeAlgoSlist.v
theories/NodeAlgoSpec.v
theories/NodeAlgoTree.v
theories/NthAvgProofs.v
theories/NthAvgProps.v
theories/NthAvgStep.v
theories/NthCostProps.v
theories/NthProofs.v
theories/OptionsModel.v
theories/OptionsProps.v
theories/OptionsSpec.v
theories/PairModel.v
theories/PairProps.v
theories/PermAllProps.v
theories/PermCostProofs.v
theories/PermCostProps.v
theories/PermProofs.v
theories/RaIterModel.v
theories/RaIterProps.v
theories/RaIterSpec.v
theories/RbApi.v
theories/RbCheckProps.v
theories/RbCostModel.v
theories/RbCostProofs.v
theories/RbCostProps.v
theories/RbDel.v
theories/RbDel2.v
theories/RbExactProps.v
theories/RbFind.v
theories/RbFrame.v
theories/RbIns.v
theories/RbIns2.v
theories/RbModel.v
theories/RbNav.v
theories/RbProps.v
theories/RbRot.v
theories/RbSpec.v
theories/RbTree.v
theories/SearchCostProps.v
theories/SearchProofs.v
theories/SegmentProofs.v
theories/SetModel.v
theories/SetProofs.v
theories/SetProps.v
theories/SetSpec.v
theories/SkipCostAvg.v
theories/SkipCostLevel.v
theories/SkipCostPath.v
theories/SkipCostProps.v
theories/SkipCostSpec.v
theories/SkipModel.v
theories/SkipOps.v
theories/SkipProofs.v
theories/SkipProps.v
theories/SkipSpaceProps.v
theories/SkipSpaceSpec.v
theories/SkipSpec.v
theories/SliceModel.v
theories/SlistModel.v
theories/SlistProofs.v
theories/SlistProps.v
theories/SlistSpec.v
theories/SortAvgCount.v
theories/SortAvgProofs.v
theories/SortAvgProps.v
theories/SortAvgStep.v
theories/SortCostProofs.v
theories/SortCostProps.v
theories/SortModel.v
theories/SortProofs.v
theories/SortProps.v
theories/SortSpec.v
theories/StableProofs.v
theories/TextModel.v
theories/TextProps.v
theories/TreeIterModel.v
theories/TreeIterProofs.v
theories/TreeIterProps.v
theories/TreeIterSpec.v
theories/TreeWalkCostModel.v
theories/TreeWalkCostProofs.v
theories/TreeWalkCostProps.v
theories/VectorDataModel.v
theories/VectorDataProps.v
theories/VectorModel.v
theories/VectorProofs.v
theories/VectorProps.v
theories/VectorSpec.v
theories/VisitEraseListProps.v
theories/VisitEraseLists.v
theories/VisitEraseModel.v
theories/VisitEraseProofs.v
theories/VisitEraseProps.v
theories/VisitEraseSlist.v
theories/VisitEraseSpec.v
theories/VisitEraseTree.v
theories/VisitEraseTreeProps.v
theories/VisitInsertModel.v
theories/VisitInsertProofs.v
theories/VisitInsertProps.v
theories/VisitInsertSpec.v
theories/Wp.v
