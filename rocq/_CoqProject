-Q theories Verif
theories/Base.v
theories/ModelVarint.v
theories/ModelData.v
theories/ModelSecondary.v
theories/ModelObject.v
theories/ModelParse.v
theories/ModelWrapper.v
theories/Spec.v
theories/BaseLemmas.v
theories/VarintProofs.v
theories/Wire.v
theories/NumProofs.v
theories/ObjInd.v
theories/SeriProofs.v
theories/SeriProofs2.v
theories/DocProofs.v
theories/ParseLemmas.v
theories/NormalProofs.v
theories/SecondaryProofs.v
theories/ValueProofs.v
theories/Order.v
theories/ParaProofs.v
theories/RoundTrip.v
theories/GeneralProofs.v
theories/Samples.v
theories/SpecApi.v
theories/ApiProofs.v
theories/EndianProofs.v
theories/PropRoundTrip.v
theories/PropVarint.v
theories/PropDocument.v
theories/PropTables.v
theories/ModelDataLife.v
theories/PropData.v
theories/PropContainers.v
theories/TermProofs.v
theories/PropHostile.v
theories/PropSize.v
theories/ModelPattern.v
theories/PropPattern.v
theories/ModelDump.v
theories/PropDump.v
theories/ModelAdaptor.v
theories/PropAdaptor.v
theories/ModelPool.v
theories/PropPool.v
theories/ModelStorage.v
theories/PropStorage.v
theories/ModelThreadPool.v
theories/PropThreadPool.v
theories/ModelConcurrent.v
theories/PropConcurrent.v
theories/Assumptions.v
theories/PropCanonical.v
theories/ModelLinked.v
theories/PropLinked.v
theories/ModelFrames.v
theories/PropFrames.v
theories/ModelTypes.v
theories/PropTypes.v
theories/PropTamper.v
theories/ModelExec.v
theories/PropExec.v
theories/PropExec2.v
theories/FrameProofs.v
theories/PropTail.v
theories/Lenient.v
theories/LenientPara.v
theories/LenientProofs.v
theories/LenientTables.v
theories/PropLenient.v
theories/LenientRef.v
theories/PropInsitu.v
theories/PropAmplify.v
theories/PropBlowup.v
theories/PropDepth.v
theories/LenientParaProofs.v
theories/PropPara.v
theories/PropEdit.v
theories/PropBuffer.v
theories/InsituSim.v
theories/InsituBack.v
theories/PropInsituPara.v
theories/PropOverload.v
theories/PropCast.v
theories/ModelPatternLife.v
theories/PropPatternLife.v
theories/ModelCopy.v
theories/PropCopy.v
theories/Overrun.v
theories/OverrunProofs.v
theories/PropOverrun.v
theories/ModelPoolParse.v
theories/PoolParseProofs.v
theories/PoolInvProofs.v
theories/PropPoolParse.v
theories/PropAssert.v
theories/Format.v
theories/PropFormat.v
theories/PropPoolGrowth.v
theories/OverrunPara.v
theories/OverrunParaProofs.v
theories/PropOverrunPara.v
theories/PropRace.v
theories/ModelAlloc.v
theories/PropAlloc.v
theories/ModelParaAlloc.v
theories/ParaAllocProofs.v
theories/PropParaAlloc.v
theories/GrammarUnique.v
theories/PlatformSim.v
theories/PropPlatform.v
theories/SeriPlatform.v
theories/PropReproduce.v
theories/PropInsituAny.v
theories/ModelClient.v
theories/SpecClient.v
theories/ClientProofs.v
theories/PropClient.v
theories/ModelSession.v
theories/SessionProofs.v
theories/PropSession.v
theories/PropStable.v
theories/PropProgramMemory.v
theories/PropReads.v
theories/ParaSessionProofs.v
theories/ParaSessionProofs2.v
theories/PropParaSession.v
theories/PropLifetime.v
theories/ModelOom.v
theories/OomProofs.v
theories/PropOom.v
theories/ParaFrameProofs.v
theories/PropParaFrames.v
theories/PropParaObjects.v
theories/PropOrder.v
theories/ModelOomPool.v
theories/PropOomPool.v
theories/ModelOomClient.v
theories/PropOomClient.v
