-Q theories Verif
theories/Base.v
theories/SipHash.v
theories/Hashing.v
theories/Fs.v
theories/Shard.v
theories/Router.v
theories/Store.v
theories/Kv.v
theories/Lists.v
theories/Queues.v
theories/Bits.v
theories/HashingProofs.v
theories/RouterPure.v
theories/Wpc.v
theories/Spec.v
theories/FileRep.v
theories/RowOps.v
theories/Compact.v
theories/Inv.v
theories/ShardOps.v
theories/Split.v
theories/Insert.v
theories/Open.v
theories/Merge.v
theories/Create.v
theories/Limits.v
theories/StoreRefine.v
theories/Api.v
theories/Hist.v
theories/KvSpec.v
theories/HistInv.v
theories/KeySpace.v
theories/PlainSpec.v
theories/Plain.v
theories/Check.v
theories/ThmStore.v
theories/ExStore.v
theories/OpenAny.v
theories/Names.v
theories/StatsRing.v
theories/ThmRouter.v
theories/ListSpec.v
theories/ListRep.v
theories/ListProg.v
theories/ListHist.v
theories/ThmList.v
theories/Script.v
theories/ExList.v
theories/QueueSpec.v
theories/QueueRep.v
theories/QueueProg.v
theories/QueueHist.v
theories/ThmQueue.v
theories/ExQueue.v
theories/TypedApi.v
theories/TypedSpec.v
theories/Typed.v
theories/ThmTyped.v
theories/ThmSpace.v
theories/Iter.v
theories/ThmIter.v
theories/Refine.v
theories/IterMod.v
theories/ExIter.v
theories/FlushAgg.v
theories/Durable.v
theories/Conc.v
theories/ConcSpec.v
theories/ConcLocal.v
theories/ConcFile.v
theories/ConcTree.v
theories/ConcInv.v
theories/ConcStep.v
theories/ConcRow.v
theories/ConcStruct.v
theories/ConcMain.v
theories/ConcLin.v
theories/ThmConc.v
theories/ThmAtomic.v
theories/ExConc.v
theories/ConcSeq.v
theories/ConcLock.v
theories/ConcList.v
theories/ThmConcList.v
theories/ConcSeen.v
theories/ExConcList.v
theories/ConcSess.v
theories/ConcListAll.v
theories/ThmConcListAll.v
theories/ExConcListAll.v
theories/ConcListAdd.v
theories/ThmConcListAdd.v
theories/ExConcListAdd.v
theories/ConcQueue.v
theories/ThmConcQueue.v
theories/ConcReads.v
theories/ConcQueueAdd.v
theories/ThmConcQueueAdd.v
theories/ExConcQueue.v
theories/Locking.v
theories/LockSpec.v
theories/LockInv.v
theories/LockLive.v
theories/LockFree.v
theories/ThmLocking.v
theories/ExLocking.v
theories/Races.v
theories/ThmRaces.v
theories/ExRaces.v
theories/Faults.v
theories/FaultInv.v
theories/ThmFaults.v
theories/ExFaults.v
theories/ThmInterrupt.v
theories/ExInterrupt.v
theories/MergeShape.v
theories/ThmMerge.v
theories/CollIter.v
theories/IterQueue.v
theories/IterList.v
theories/ExCollIter.v
theories/BigCrash.v
theories/ExBigCrash.v
theories/ConcBig.v
theories/ThmConcBig.v
theories/ExConcBig.v
theories/ThmStats.v
theories/ThmDurable.v
theories/ExListHash.v
theories/ConcIter.v
theories/ConcWalk.v
theories/ConcSlots.v
theories/ThmConcIter.v
theories/ExConcIter.v
theories/ThmConcIterEnd.v
theories/ThmConcLive.v
theories/FloatStep.v
theories/Foreign.v
theories/ThmForeign.v
theories/OneOpen.v
theories/ThmStatus.v
theories/ConcBigGet.v
theories/ThmConcBigGet.v
theories/ExConcBigGet.v
theories/ExTypedBig.v
theories/ThmLive.v
theories/ExLive.v
theories/ThmReads.v
theories/ConcEnd.v
theories/ThmConcEnd.v
theories/ExConcEnd.v
theories/Mini.v
theories/MiniShard.v
theories/ThmMini.v
theories/ExMini.v
