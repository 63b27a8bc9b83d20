-Q theories Verif

theories/Prelude.v
theories/ListFacts.v
theories/QueueModel.v
theories/QueueSpec.v
theories/QueueProofs.v
theories/PropQueues.v
theories/Traits.v
theories/Contracts.v
theories/ContractFacts.v
theories/PipeSpec.v
theories/PipeProofs.v
theories/BasicModel.v
theories/BasicSpec.v
theories/BasicProofs.v
theories/Reference.v
theories/PropPipes.v
theories/PropBasic.v
theories/AdaptorModel.v
theories/AdaptorSpec.v
theories/AdaptorProofs.v
theories/PropAdaptors.v
theories/BufferedSpec.v
theories/BufferedFacts.v
theories/ScramblerModel.v
theories/ScramblerProofs.v
theories/PropScramblers.v
theories/MergeModel.v
theories/MergeSpec.v
theories/MergeProofs.v
theories/PropMerge.v
theories/IoModel.v
theories/IoSpec.v
theories/IoProofs.v
theories/PropIo.v
theories/CodecModel.v
theories/CodecSpec.v
theories/CodecProofs.v
theories/EndianModel.v
theories/EndianSpec.v
theories/EndianProofs.v
theories/PropEndian.v
theories/CodecExamples.v
theories/PropCodec.v
theories/ProptestModel.v
theories/ProptestProofs.v
theories/PropProptest.v
theories/TowerModel.v
theories/TowerSpec.v
theories/TowerProofs.v
theories/PropTower.v
theories/SharedModel.v
theories/SharedSpec.v
theories/SharedProofs.v
theories/SharedExamples.v
theories/PropShared.v
theories/FuzzModel.v
theories/FuzzSpec.v
theories/FuzzProofs.v
theories/FuzzScramblerProofs.v
theories/FuzzMergeProofs.v
theories/PropFuzz.v
theories/FuzzMeansProofs.v
theories/FuzzIoModel.v
theories/FuzzIoSpec.v
theories/FuzzIoProofs.v
theories/PropFuzzIo.v
theories/CodecFuzzModel.v
theories/CodecFuzzProofs.v
theories/CodecFuzzSpec.v
theories/ErrorModel.v
theories/ErrorProofs.v
theories/ErrorSpec.v
theories/ExactProofs.v
theories/ExactSpec.v
theories/ProjectTests.v
theories/PropCodecFuzz.v
theories/PropErrors.v
theories/PropExact.v
theories/PropSlice.v
theories/PropVectors.v
theories/SliceModel.v
theories/SliceProofs.v
theories/SliceSpec.v
theories/VectorModel.v
theories/VectorProofs.v
theories/VectorSpec.v
theories/PropPublic.v
theories/PropWords.v
theories/PublicModel.v
theories/PublicProofs.v
theories/PublicSpec.v
theories/WordModel.v
theories/WordProofs.v
theories/PropWordBasic.v
theories/WordBasicModel.v
theories/WordBasicProofs.v
theories/WordBasicSpec.v
theories/AsyncAdaptorModel.v
theories/AsyncAdaptorProofs.v
theories/AsyncCountProofs.v
theories/AsyncModel.v
theories/AsyncProofs.v
theories/AsyncSpec.v
theories/AsyncSuspendProofs.v
theories/AsyncYieldProofs.v
theories/PropAsync.v
theories/PropWordTest.v
theories/WordTestModel.v
theories/WordTestProofs.v
theories/AsyncIoModel.v
theories/AsyncIoSpec.v
theories/AsyncIoProofs.v
theories/AsyncIoSuspendProofs.v
theories/PropAsyncIo.v
theories/AsyncMergeModel.v
theories/AsyncMergeProofs.v
theories/AsyncMergeSpec.v
theories/PropAsyncMerge.v
theories/AsyncSharedModel.v
theories/AsyncSharedProofs.v
theories/PropAsyncShared.v
theories/ArbitraryModel.v
theories/ArbitraryProofs.v
theories/ArbitrarySpec.v
theories/PropArbitrary.v
theories/EqualityModel.v
theories/EqualityProofs.v
theories/EqualitySpec.v
theories/PropEquality.v
theories/CorrProofs.v
theories/JoinModel.v
theories/JoinProofs.v
theories/JoinRunProofs.v
theories/JoinSpec.v
theories/JoinTaskProofs.v
theories/PropJoin.v
theories/AsyncCancelProofs.v
theories/AsyncCancelSpec.v
theories/AsyncDropProofs.v
theories/PropCancel.v
theories/PropRules.v
theories/RulesAdaptorProofs.v
theories/RulesProofs.v
theories/RulesSpec.v
theories/PropSafe.v
theories/SafeProofs.v
theories/SafeSpec.v
theories/AlikeLaws.v
theories/AlikeProofs.v
theories/AlikeSpec.v
theories/PropAlike.v
theories/PropSettle.v
theories/SettleProofs.v
theories/SettleSpec.v
theories/CallsProofs.v
theories/CallsSpec.v
theories/PropCalls.v
theories/PropSchedule.v
theories/ScheduleProofs.v
theories/ScheduleSpec.v
theories/LinkCorrProofs.v
theories/LinkModel.v
theories/LinkProofs.v
theories/LinkSpec.v
theories/PropLink.v
theories/AbideProofs.v
theories/AbideSpec.v
theories/PropAbide.v
theories/AsyncTowerModel.v
theories/HardyProofs.v
theories/HardySpec.v
theories/PropHardy.v
theories/HardyIoProofs.v
theories/HardyIoSpec.v
theories/PropHardyIo.v
theories/CloneModel.v
theories/CloneProofs.v
theories/CloneSpec.v
theories/PropClone.v
theories/ApartModel.v
theories/ApartProofs.v
theories/ApartSpec.v
theories/PropApart.v
theories/PropVectorIo.v
theories/VectorIoModel.v
theories/VectorIoProofs.v
theories/VectorIoSpec.v
theories/ClosureModel.v
theories/ClosureProofs.v
theories/ClosureSpec.v
theories/PropClosure.v
theories/JoinDebugProofs.v
theories/CallsWriterProofs.v
theories/PropReach.v
theories/ReachModel.v
theories/ReachProofs.v
theories/ReachSpec.v
theories/MemoryModel.v
theories/MemoryProofs.v
theories/MemorySpec.v
theories/PropMemory.v
theories/DebugModel.v
theories/DebugProofs.v
theories/DebugSpec.v
theories/DebugTypesProofs.v
theories/PropDebug.v
theories/OrderModel.v
theories/OrderProofs.v
theories/OrderSpec.v
theories/PropOrder.v
theories/FairMergeProofs.v
theories/FairMergeSpec.v
theories/FairProofs.v
theories/FairSpec.v
theories/PropFair.v
theories/PropFairMerge.v
theories/EndlessIoProofs.v
theories/EndlessProofs.v
theories/EndlessSpec.v
theories/PropEndless.v
theories/CloneScramblerModel.v
theories/CloneScramblerProofs.v
theories/CloneScramblerSpec.v
theories/PropCloneScrambler.v
theories/CloneSinkModel.v
theories/CloneSinkProofs.v
theories/CloneSinkSpec.v
theories/PropCloneSink.v
theories/CloneSourceModel.v
theories/CloneSourceProofs.v
theories/CloneSourceSpec.v
theories/PropCloneSource.v
theories/DefaultModel.v
theories/DefaultProofs.v
theories/DefaultSpec.v
theories/PropDefault.v
theories/PanicModel.v
theories/PanicProofs.v
theories/PanicSpec.v
theories/PropPanic.v
theories/PanicScramblerModel.v
theories/PanicScramblerProofs.v
theories/PanicScramblerSpec.v
theories/PropPanicScrambler.v
