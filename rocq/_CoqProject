-Q theories Verif

theories/Base.v
theories/Slab.v
theories/SlabProofs.v
theories/Table.v
theories/Shard.v
theories/Options.v
theories/OptionsProofs.v
theories/OptionsProofs2.v
theories/Rings.v
theories/Spec.v
theories/ShardInv.v
theories/SpecProofs.v
theories/ShardEvict.v
theories/ShardLookup.v
theories/ShardOps.v
theories/ShardState.v
theories/ShardEnter.v
theories/ShardSpecs.v
theories/ShardInsert.v
theories/ShardPlace.v
theories/Unsync.v
theories/ApiSpec.v
theories/PropSpec.v
theories/UnsyncProofs.v
theories/Reach.v
theories/SeqProofs.v
theories/SeqProofs2.v
theories/SeqProofs3.v
theories/SeqProofs4.v
theories/SeqProofs5.v
theories/SeqProofs6.v
theories/Sync.v
theories/SyncSpec.v
theories/SyncShard.v
theories/SyncSeq.v
theories/Conc.v
theories/ConcSpec.v
theories/Proto.v
theories/ConcInv.v
theories/ConcStep.v
theories/ConcStep2.v
theories/ConcStep3.v
theories/ConcStep4.v
theories/ConcMove.v
theories/ConcHist.v
theories/ConcNote.v
theories/ConcLegal.v
theories/ConcLog.v
theories/ConcProper.v
theories/Demo.v
theories/DemoSync.v
theories/PropsSeqA.v
theories/PropsSeqB.v
theories/PropsOptions.v
theories/PropsSync.v
theories/ConcFacts.v
theories/ConcFacts2.v
theories/ConcPlog.v
theories/ConcExact.v
theories/ConcPropSpec.v
theories/ConcFill.v
theories/ConcLive.v
theories/ConcWild.v
theories/ConcSafe.v
theories/ConcStory.v
theories/ConcLast.v
theories/DemoConc.v
theories/ConcEnd.v
theories/PropsConcA.v
theories/ConcTime.v
theories/PropsConcB.v
theories/Builds.v
theories/PropsBuild.v
theories/Crash.v
theories/CrashErase.v
theories/CrashSpec.v
theories/CrashProofs.v
theories/CrashWit.v
theories/PropsCrash.v
theories/Watch.v
theories/WatchSpec.v
theories/ConcStats.v
theories/WatchProofs.v
theories/DemoWatch.v
theories/PropsWatch.v
theories/Validate.v
theories/ValidateProofs.v
theories/PropsValidate.v
theories/Mention.v
theories/MentionProofs.v
theories/PropsMention.v
theories/Anew.v
theories/AnewProofs.v
theories/AnewSync.v
theories/PropsAnew.v
theories/Scan.v
theories/ScanProofs.v
theories/DemoScan.v
theories/PropsScan.v
theories/Policy.v
theories/PolicyProofs.v
theories/PolicyOps.v
theories/PolicyStep.v
theories/PolicyKeys.v
theories/PolicyDet.v
theories/PropsPolicy.v
theories/PolicyShared.v
theories/PolicyConc.v
theories/PropsShared.v
theories/BuildsConc.v
theories/PropsBuildConc.v
theories/LoadSpec.v
theories/ConcLoad.v
theories/PropsLoad.v
theories/DefaultLife.v
theories/DefaultProofs.v
theories/PropsDefault.v
theories/Clone.v
theories/CloneProofs.v
theories/PropsClone.v
theories/SyncCrash.v
theories/SyncCrashSpec.v
theories/SyncCrashProofs.v
theories/SyncCrashCalls.v
theories/SyncCrashCache.v
theories/SyncCrashWit.v
theories/PropsSyncCrash.v
theories/Borrow.v
theories/BorrowSpec.v
theories/BorrowProofs.v
theories/PropsBorrow.v
theories/Leak.v
theories/LeakSpec.v
theories/LeakProofs.v
theories/PropsLeak.v
theories/ConcPanic.v
theories/ConcPanicSpec.v
theories/ConcPanicProofs.v
theories/DemoConcPanic.v
theories/PropsConcPanic.v
theories/Work.v
theories/WorkProofs.v
theories/WorkLow.v
theories/WorkPins.v
theories/PropsWork.v
theories/ConcWork.v
theories/ConcWorkProofs.v
theories/PropsConcWork.v
theories/MapSpec.v
theories/MapProofs.v
theories/PropsMap.v
theories/Rehash.v
theories/RehashProofs.v
theories/DemoHash.v
theories/PropsHash.v
theories/Listen.v
theories/ListenProofs.v
theories/ListenState.v
theories/PropsListen.v
theories/ListenConcSpec.v
theories/ListenConc.v
theories/PropsListenConc.v
theories/SyncCount.v
theories/SyncStats.v
theories/PropsSyncStats.v
