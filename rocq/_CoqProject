-Q theories Verif
theories/Base.v
theories/Spec.v
theories/Facts.v
theories/AlgoNonMod.v
theories/AlgoNonModProofs.v
theories/AlgoMod.v
theories/AlgoModProofs.v
theories/AlgoOrd.v
theories/AlgoOrdProofs.v
theories/AlgoSetProofs.v
theories/AlgoHeap.v
theories/AlgoHeapProofs.v
theories/AlgoSort.v
theories/AlgoSortProofs.v
theories/SpecSeq.v
theories/Buffer.v
theories/BufferProofs.v
theories/Vector.v
theories/VectorProofs.v
theories/Deque.v
theories/DequeProofs.v
theories/RandomIter.v
theories/RandomIterProofs.v
theories/PropertiesAlgo.v
theories/PropertiesVector.v
theories/PropertiesDeque.v
theories/SpecListOps.v
theories/MergeFacts.v
theories/SortFacts.v
theories/Path.v
theories/DList.v
theories/SpecList.v
theories/DListCore.v
theories/DListProofs.v
theories/DListAlgo.v
theories/DListSort.v
theories/DListRun.v
theories/DListRunProofs.v
theories/PropertiesList.v
theories/Tree.v
theories/SpecTree.v
theories/TreeRep.v
theories/TreeInsert.v
theories/TreeErase.v
theories/TreeIter.v
theories/TreeUnlink.v
theories/TreeApi.v
theories/TreeOps.v
theories/SpecTreeOps.v
theories/TreeLookup.v
theories/TreeMod.v
theories/TreeCheck.v
theories/TreeSteps.v
theories/TreeRun.v
theories/TreeRunProofs.v
theories/TreeVerify.v
theories/PropertiesTree.v
theories/Slist.v
theories/SpecSlist.v
theories/SlistCore.v
theories/SlistProofs.v
theories/SpecSlistOps.v
theories/SlistAlgo.v
theories/SlistSort.v
theories/DListCount.v
theories/SlistCount.v
theories/SlistRun.v
theories/SlistRunProofs.v
theories/PropertiesSlist.v
theories/SpecAdapters.v
theories/Adapters.v
theories/AdapterObs.v
theories/AdapterProofs.v
theories/AlgoHeapAny.v
theories/AdapterPQ.v
theories/PropertiesAdapters.v
theories/AlgoSortAny.v
theories/PropertiesRobust.v
theories/SpecDict.v
theories/Dict.v
theories/DictProofs.v
theories/SpecPair.v
theories/Pair.v
theories/PairProofs.v
theories/PropertiesDict.v
theories/Prime.v
theories/PropertiesPrime.v
theories/AlgoCost.v
theories/PropertiesCost.v
theories/SpecOom.v
theories/OomSeq.v
theories/OomSeqProofs.v
theories/DListOom.v
theories/DListOomProofs.v
theories/TreeOom.v
theories/TreeOomProofs.v
theories/SlistOom.v
theories/SlistOomProofs.v
theories/PropertiesOom.v
theories/PropertiesOomList.v
theories/PropertiesOomSlist.v
theories/PropertiesOomTree.v
theories/Iter.v
theories/IterFlat.v
theories/IterWp.v
theories/IterNonMod.v
theories/IterNonModProofs.v
theories/IterWorld.v
theories/SpecIter.v
theories/IterWorldProofs.v
theories/IterLift.v
theories/IterNonModLift.v
theories/PropertiesIter.v
theories/IterMod.v
theories/IterModProofs.v
theories/IterModProofs2.v
theories/IterModProofs3.v
theories/IterModLift.v
theories/PropertiesIterMod.v
theories/IterOrd.v
theories/IterOrdProofs.v
theories/IterOrdProofs2.v
theories/IterSetProofs.v
theories/IterLift3.v
theories/SpecIterOrd.v
theories/IterOrdLift.v
theories/PropertiesIterOrd.v
theories/IterStuck.v
theories/IterLocals.v
theories/IterHeap.v
theories/IterHeapProofs.v
theories/IterHeapLift.v
theories/SortLen.v
theories/IterSort.v
theories/IterSortProofs.v
theories/IterPscProofs.v
theories/IterSortLift.v
theories/PropertiesIterSort.v
theories/Growth.v
theories/PropertiesGrowth.v
theories/SizeT.v
theories/SizeTProofs.v
theories/PropertiesSizeT.v
theories/InsertRange.v
theories/InsertRangeProofs.v
theories/PropertiesInsertRange.v
theories/PropertiesSortAny.v
theories/TreeAny.v
theories/PropertiesTreeAny.v
theories/IterOom.v
theories/IterOomProofs.v
theories/PropertiesIterOom.v
theories/IterPost.v
theories/PropertiesIterPost.v
theories/PropertiesDequeRefs.v
theories/SpecAdapterOom.v
theories/AdapterOom.v
theories/AdapterOomProofs.v
theories/PropertiesAdapterOom.v
theories/SpecTreeRange.v
theories/TreeRange.v
theories/TreeRangeProofs.v
theories/PropertiesTreeRange.v
theories/ListSelfProofs.v
theories/SlistSelfProofs.v
theories/PropertiesSelfMerge.v
theories/IterTemp.v
theories/IterTempProofs.v
theories/IterTempSort.v
theories/SortCount.v
theories/IterTempCount.v
theories/PropertiesIterTemp.v
theories/ListInsideProofs.v
theories/SlistInsideProofs.v
theories/PropertiesInside.v
theories/PropertiesTreeSteps.v
theories/PropertiesSortCount.v
theories/HeapCount.v
theories/IntroCount.v
theories/PropertiesAlgoCount.v
theories/TreeCount.v
theories/PropertiesTreeCount.v
theories/TreeTime.v
theories/PropertiesTreeTime.v
theories/OrdCount.v
theories/PropertiesOrdCount.v
