-Q theories Verif
theories/model/PyBase.v
theories/model/Core.v
theories/proof/CoreLib.v
theories/proof/CoreTrans.v
theories/proof/CoreEval.v
theories/proof/CoreInv.v
theories/spec/CoreSpec.v
theories/proof/CoreWith.v
theories/proof/CoreBlock.v
theories/proof/CoreBlock2.v
theories/proof/CoreStatus.v
theories/proof/CoreHist.v
theories/proof/CoreData.v
theories/proof/CoreStat2.v
theories/proof/CoreDispatch.v
theories/proof/CoreAsync.v
theories/proof/CoreLeak.v
theories/proof/CoreFinal.v
theories/spec/CoreExamples.v
theories/props/PBlock.v
theories/props/PHist.v
theories/props/PDispatch.v
theories/model/Levels.v
theories/spec/LevelSpec.v
theories/proof/LevelProofs.v
theories/props/PLevels.v
theories/model/Bisect.v
theories/model/Accumulators.v
theories/spec/AccSpec.v
theories/proof/AccProofs.v
theories/props/PAcc.v
theories/model/Moments.v
theories/spec/MomentSpec.v
theories/proof/MomentProofs.v
theories/props/PMoments.v
theories/model/Quantile.v
theories/spec/QuantileSpec.v
theories/proof/QuantileProofs.v
theories/proof/QuantileProofs2.v
theories/proof/P2Proofs.v
theories/proof/P2Track.v
theories/proof/P2AccProofs.v
theories/proof/QuantileProofs3.v
theories/props/PQuantile.v
theories/model/Ewma.v
theories/spec/EwmaSpec.v
theories/proof/EwmaProofs.v
theories/props/PEwma.v
theories/model/Sinks.v
theories/spec/SinkSpec.v
theories/proof/DictLemmas.v
theories/proof/SinkProofs.v
theories/proof/SinkProofs2.v
theories/proof/SinkProofs3.v
theories/proof/SinkProofs4.v
theories/proof/SinkProofs5.v
theories/proof/CounterProofs.v
theories/props/PSinks.v
theories/model/Actor.v
theories/spec/ActorSpec.v
theories/proof/ActorProofs.v
theories/proof/ActorLife.v
theories/props/PActor.v
theories/model/Emitters.v
theories/spec/EmitterSpec.v
theories/proof/EmitterProofs.v
theories/props/PEmit.v
theories/model/Sensible.v
theories/spec/SensibleSpec.v
theories/props/PSensible.v
theories/model/Json.v
theories/spec/JsonSpec.v
theories/proof/JsonProofs.v
theories/model/Template.v
theories/model/Format.v
theories/spec/TemplateSpec.v
theories/spec/FormatSpec.v
theories/proof/TemplateProofs.v
theories/proof/FormatProofs.v
theories/props/PFormat.v
theories/model/Guid.v
theories/model/GuidThreads.v
theories/spec/GuidSpec.v
theories/props/PGuid.v
theories/props/PGuidThreads.v
theories/model/Context.v
theories/spec/ContextSpec.v
theories/proof/ContextProofs.v
theories/props/PContext.v
theories/model/Concurrent.v
theories/spec/ConcurrentSpec.v
theories/proof/ConcurrentProofs.v
theories/proof/ConcurrentCalls.v
theories/props/PConcurrent.v
theories/model/Pipeline.v
theories/model/Fields.v
theories/model/Frames.v
theories/model/MessageCache.v
theories/spec/FloatSpec.v
theories/model/FloatStats.v
theories/model/FloatMoments.v
theories/spec/FloatEwmaSpec.v
theories/proof/FloatProofs.v
theories/proof/FloatP2.v
theories/proof/FloatReservoir.v
theories/proof/FloatEwma.v
theories/proof/FloatMean.v
theories/proof/FloatExact.v
theories/props/PFloat.v
theories/props/PFloatMoments.v
theories/model/Wrap.v
theories/spec/PipelineSpec.v
theories/spec/FieldSpec.v
theories/spec/FrameSpec.v
theories/spec/NumberSpec.v
theories/spec/WrapSpec.v
theories/proof/WrapProofs.v
theories/props/PPipeline.v
theories/props/PWrap.v
theories/model/WrapAll.v
theories/spec/WrapAllSpec.v
theories/proof/PipelineProofs.v
theories/proof/FieldProofs.v
theories/proof/NumberProofs.v
theories/proof/CacheProofs.v
theories/proof/FieldLines.v
theories/props/PFields.v
theories/props/PCache.v
theories/props/PNumbers.v
theories/props/PMessages.v
theories/props/PFrames.v
theories/proof/WrapAllProofs.v
theories/proof/WrapAllNames.v
theories/props/PWrapAll.v
theories/spec/CallSpec.v
theories/spec/ProgramSpec.v
theories/model/StatFeed.v
theories/spec/StatSpec.v
theories/proof/ProgramProofs.v
theories/proof/StatFeedProofs.v
theories/props/PProgram.v
theories/spec/ProgramFileSpec.v
theories/props/PProgramFile.v
theories/proof/CallProofs.v
theories/proof/CallProofs2.v
theories/props/PCalls.v
theories/model/ParentThreads.v
theories/spec/ParentSpec.v
theories/proof/ParentProofs.v
theories/props/PParents.v
theories/model/SinkThreads.v
theories/spec/SinkThreadsSpec.v
theories/proof/SinkThreadsProofs.v
theories/props/PSinkThreads.v
theories/model/Encoding.v
theories/spec/EncodingSpec.v
theories/proof/EncodingProofs.v
theories/props/PEncoding.v
theories/model/Timestamps.v
theories/spec/TimestampSpec.v
theories/proof/TimestampProofs.v
theories/props/PTimestamps.v
theories/model/DevDebug.v
theories/spec/DevDebugSpec.v
theories/proof/SinkLocal.v
theories/proof/DevDebugProofs.v
theories/props/PDevDebug.v
theories/model/HookThreads.v
theories/spec/HookThreadsSpec.v
theories/proof/HookThreadsProofs.v
theories/props/PHookThreads.v
theories/model/SharedAction.v
theories/spec/SharedActionSpec.v
theories/proof/SharedActionProofs.v
theories/props/PSharedAction.v
theories/model/Reentrant.v
theories/model/StatReads.v
theories/model/EmitThreads.v
theories/model/Formatter.v
theories/model/ActorThreads.v
theories/model/ThreadPrograms.v
theories/model/EmitterInit.v
theories/model/EwmaThreads.v
theories/model/ReservoirThreads.v
theories/model/MomentThreads.v
theories/model/GuidHash.v
theories/model/RateThreads.v
theories/model/Notes.v
theories/model/Reprs.v
theories/spec/ReentrantSpec.v
theories/spec/StatReadsSpec.v
theories/spec/EmitThreadsSpec.v
theories/spec/FormatterSpec.v
theories/spec/ActorThreadsSpec.v
theories/spec/ThreadProgramSpec.v
theories/spec/EwmaThreadSpec.v
theories/spec/ReservoirThreadSpec.v
theories/spec/MomentThreadSpec.v
theories/spec/GuidHashSpec.v
theories/spec/RateThreadSpec.v
theories/spec/NoteSpec.v
theories/spec/ReprSpec.v
theories/proof/ReentrantProofs.v
theories/proof/ReentrantCounts.v
theories/proof/ReentrantOrder.v
theories/proof/ReentrantRuns.v
theories/proof/ReentrantEnds.v
theories/proof/StatReadsProofs.v
theories/proof/StatReadsReader.v
theories/proof/StatReadsCounts.v
theories/proof/EmitThreadsProofs.v
theories/proof/EmitThreadsIncident.v
theories/proof/ActorThreadsProofs.v
theories/proof/ActorThreadsStop.v
theories/proof/ActorThreadsContext.v
theories/proof/ActorThreadsSwitch.v
theories/proof/ActorThreadsLive.v
theories/proof/ThreadProgramAlone.v
theories/proof/ThreadProgramSim.v
theories/proof/ThreadProgramLogger.v
theories/proof/ThreadProgramAsync.v
theories/proof/ThreadProgramValid.v
theories/proof/ThreadProgramRun.v
theories/proof/ThreadProgramLog.v
theories/proof/EwmaThreadProofs.v
theories/proof/EwmaOneReader.v
theories/proof/ReservoirTrace.v
theories/proof/ReservoirThreadProofs.v
theories/proof/ReservoirApart.v
theories/proof/MomentThreadProofs.v
theories/proof/RateThreadProofs.v
theories/proof/ReprProofs.v
theories/props/PReentrant.v
theories/props/PStatReads.v
theories/props/PEmitThreads.v
theories/props/PFormatter.v
theories/props/PActorThreads.v
theories/props/PThreadPrograms.v
theories/props/PEmitterInit.v
theories/props/PEwmaThreads.v
theories/props/PReservoirThreads.v
theories/props/PMomentThreads.v
theories/props/PGuidHash.v
theories/props/PRateThreads.v
theories/props/PNotes.v
theories/props/PMomentBlowup.v
theories/props/PReprs.v
theories/props/PQuantileRepr.v
