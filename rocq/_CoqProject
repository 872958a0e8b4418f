-Q theories Verif
theories/Base.v
theories/Int64.v
theories/HeapModel.v
theories/HeapSpec.v
theories/HeapProofs.v
theories/PQueueModel.v
theories/PQueueSpec.v
theories/PQueueProofs.v
theories/HeapProperties.v
theories/HeapIface.v
theories/HeapIfaceSpec.v
theories/HeapIfaceProofs.v
theories/HeapIfaceProperties.v
theories/GoMap.v
theories/GoMapSpec.v
theories/GoMapProofs.v
theories/GenMapModel.v
theories/GenMapSpec.v
theories/GenMapProofs.v
theories/GenMapProperties.v
theories/SetModel.v
theories/SetSpec.v
theories/SetProofs.v
theories/SetProperties.v
theories/GoMapIter.v
theories/GoMapIterSpec.v
theories/GoMapIterProofs.v
theories/GoMapIterUse.v
theories/GoMapIterProperties.v
theories/Chain.v
theories/RingModel.v
theories/RingSpec.v
theories/RingProofs.v
theories/RingProperties.v
theories/RingIterSpec.v
theories/RingIter.v
theories/RingIterProperties.v
theories/DllistModel.v
theories/DllistSpec.v
theories/DllistProofs.v
theories/DllistSteps.v
theories/DllistSteps2.v
theories/DllistSteps3.v
theories/DllistSelf.v
theories/DllistSort.v
theories/DllistHistory.v
theories/DllistProperties.v
theories/DllistSortAnySpec.v
theories/DllistSortAny.v
theories/DllistSortAnyProperties.v
theories/VecCapSpec.v
theories/VecCap.v
theories/VecCapProperties.v
theories/TreeHasProperties.v
theories/GenMapRawProperties.v
theories/VecAnySpec.v
theories/VecAny.v
theories/VecAnyProperties.v
theories/RefreshCacheAgeSpec.v
theories/RefreshCacheAge.v
theories/RefreshCacheAgeProperties.v
theories/VecCostSpec.v
theories/VecCost.v
theories/VecCostProperties.v
theories/VecHeldSpec.v
theories/VecHeld.v
theories/VecHeldProperties.v
theories/HeapArray.v
theories/HeapArraySpec.v
theories/HeapArrayProofs.v
theories/HeapArrayProperties.v
theories/ReflectEqual.v
theories/ReflectEqualSpec.v
theories/ReflectEqualProofs.v
theories/ReflectEqualProperties.v
theories/SyncCacheRaceSpec.v
theories/SyncCacheRace.v
theories/SyncCacheRaceProperties.v
theories/RefreshCacheHbSpec.v
theories/RefreshCacheHb.v
theories/RefreshCacheHbProperties.v
theories/DllistSortPanicSpec.v
theories/DllistSortPanic.v
theories/DllistSortPanicProperties.v
theories/HeapPanicSpec.v
theories/HeapPanic.v
theories/HeapPanicProperties.v
theories/SyncCacheRetrySpec.v
theories/SyncCacheRetry.v
theories/SyncCacheRetryProperties.v
theories/RwMapMemSpec.v
theories/RwMapMem.v
theories/RwMapMemProperties.v
theories/HashRingCrcSpec.v
theories/HashRingCrc.v
theories/HashRingCrcProperties.v
theories/RwMapPanicSpec.v
theories/RwMapPanic.v
theories/RwMapPanicProperties.v
theories/DllistKeepSpec.v
theories/DllistUnused.v
theories/DllistKeep.v
theories/DllistKeepProperties.v
theories/RwMapLenGenSpec.v
theories/RwMapLenGen.v
theories/RwMapLenGenProperties.v
theories/RwMapLetGoSpec.v
theories/RwMapLetGo.v
theories/RwMapLeak.v
theories/RwMapLetGoProperties.v
theories/VecShare.v
theories/VecShareProperties.v
theories/VecPanicSpec.v
theories/VecPanic.v
theories/VecPanicProperties.v
theories/RwMapAnyModel.v
theories/RwMapAnySpec.v
theories/RwMapAnyTable.v
theories/RwMapAny.v
theories/RwMapAnyProperties.v
theories/RwMapAnyRangeSpec.v
theories/RwMapAnyRange.v
theories/RwMapAnyRangeProperties.v
theories/SyncCacheAnyModel.v
theories/SyncCacheAnySpec.v
theories/SyncCacheAny.v
theories/SyncCacheAnyProperties.v
theories/SyncCacheStoreModel.v
theories/SyncCacheStoreSpec.v
theories/SyncCacheStore.v
theories/SyncCacheStoreProperties.v
theories/GenMapPanicModel.v
theories/GenMapPanicSpec.v
theories/GenMapPanic.v
theories/GenMapPanicProperties.v
theories/SyncCachePanicModel.v
theories/SyncCachePanicSpec.v
theories/SyncCachePanic.v
theories/SyncCachePanicProperties.v
theories/DllistNilModel.v
theories/DllistNilSpec.v
theories/DllistNil.v
theories/DllistNilProperties.v
theories/GenMapOddModel.v
theories/GenMapOddSpec.v
theories/GenMapOdd.v
theories/GenMapOddProperties.v
theories/LHashMapZeroModel.v
theories/LHashMapZeroSpec.v
theories/LHashMapZeroProperties.v
theories/HeapOutProperties.v
theories/PQueueRecModel.v
theories/PQueueRecSpec.v
theories/PQueueRecProperties.v
theories/VecSortModel.v
theories/VecSortProperties.v
theories/SetOddModel.v
theories/SetOdd.v
theories/SetOddProperties.v
theories/RwMapHashModel.v
theories/RwMapHashSpec.v
theories/RwMapHash.v
theories/RwMapHashProperties.v
theories/RwMapHashLen.v
theories/RwMapHashLenProperties.v
theories/DllistIterSpec.v
theories/DllistIter.v
theories/DllistIterProperties.v
theories/LHashMapModel.v
theories/LHashMapSpec.v
theories/LHashMapProofs.v
theories/LHashMapProperties.v
theories/LHashMapIterSpec.v
theories/LHashMapIter.v
theories/LHashMapIterProperties.v
theories/TreeModel.v
theories/TreeSpec.v
theories/TreeProofs.v
theories/TreeBuild.v
theories/TreeHeap.v
theories/TreeProperties.v
theories/VecModel.v
theories/VecSpec.v
theories/VecProofs.v
theories/VecSteps.v
theories/VecHistory.v
theories/VecQuery.v
theories/VecExample.v
theories/VecProperties.v
theories/VecIterSpec.v
theories/VecIter.v
theories/VecIterProperties.v
theories/VecAuto.v
theories/VecAutoSpec.v
theories/VecAutoProperties.v
theories/HeapAnySpec.v
theories/HeapAny.v
theories/HeapAnyProperties.v
theories/HashRingModel.v
theories/HashRingSpec.v
theories/HashRingProofs.v
theories/HashRingProperties.v
theories/RefreshCacheModel.v
theories/RefreshCacheSpec.v
theories/RefreshCacheProofs.v
theories/RefreshCacheFresh.v
theories/RefreshCacheSolo.v
theories/RefreshCacheWait.v
theories/RefreshCacheProperties.v
theories/RefreshCache64Spec.v
theories/RefreshCache64.v
theories/RefreshCache64Properties.v
theories/RefreshCacheSeqSpec.v
theories/RefreshCacheSeq.v
theories/RefreshCacheSeqProperties.v
theories/RwMapModel.v
theories/RwMapSpec.v
theories/RwMapInv.v
theories/RwMapFrame.v
theories/RwMapMoves.v
theories/RwMapMoves2.v
theories/RwMapStep.v
theories/RwMapStep2.v
theories/RwMapStep3.v
theories/RwMapLin.v
theories/RwMapRange.v
theories/RwMapProgress.v
theories/RwMapLen.v
theories/RwMapSeq.v
theories/RwMapProperties.v
theories/RwMapRaceSpec.v
theories/RwMapRace.v
theories/RwMapRaceProperties.v
theories/RwMapTermSpec.v
theories/RwMapTerm.v
theories/RwMapTermProperties.v
theories/RwMapCostSpec.v
theories/RwMapCost.v
theories/RwMapCostProperties.v
theories/RwMapHbSpec.v
theories/RwMapHb.v
theories/RwMapHbProperties.v
theories/RefreshCacheRaceSpec.v
theories/RefreshCacheRaceProperties.v
theories/RefreshCacheTermSpec.v
theories/RefreshCacheTerm.v
theories/RefreshCacheTermProperties.v
theories/RefreshCacheCallSpec.v
theories/RefreshCacheCalls.v
theories/RefreshCacheCallProperties.v
theories/SyncCacheModel.v
theories/SyncCacheSpec.v
theories/SyncCacheHist.v
theories/SyncCacheLink.v
theories/SyncCacheDel.v
theories/SyncCacheCalls.v
theories/SyncCacheRange.v
theories/SyncCacheExp.v
theories/SyncCacheSeq.v
theories/SyncCacheRegistry.v
theories/SyncCacheFacts.v
theories/SyncCacheWorld.v
theories/SyncCacheProperties.v
theories/SyncCacheTrimModel.v
theories/SyncCacheTrimSpec.v
theories/SyncCacheTrim.v
theories/SyncCacheTrimProperties.v
theories/SyncCache64Spec.v
theories/SyncCache64.v
theories/SyncCache64Properties.v
theories/SyncCacheTermSpec.v
theories/SyncCacheTerm.v
theories/SyncCacheTermProperties.v
theories/SyncCacheExactSpec.v
theories/SyncCacheExact.v
theories/SyncCacheExactCalls.v
theories/SyncCacheExactProperties.v
