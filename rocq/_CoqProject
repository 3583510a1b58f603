-Q theories Verif
theories/Base.v
theories/Value.v
theories/Packed.v
theories/Parser.v
theories/Dump.v
theories/Spec.v
theories/BaseProofs.v
theories/PackedProofs.v
theories/LexProofs.v
theories/StringProofs.v
theories/ParserProofs.v
theories/ParserComplete.v
theories/BlockProofs.v
theories/GrammarProofs.v
theories/StrictProofs.v
theories/Utf8Proofs.v
theories/PropsParse.v
theories/Builds.v
theories/GrammarDet.v
theories/DumpProofs.v
theories/Samples.v
theories/Properties_Parse.v
theories/Source.v
theories/SpecSource.v
theories/SourceProofs.v
theories/Properties_Source.v
theories/Properties_Dump.v
theories/Containers.v
theories/Api.v
theories/SpecApi.v
theories/ContainerProofs.v
theories/ApiProofs.v
theories/SamplesApi.v
theories/Properties_Containers.v
theories/Num.v
theories/Enum.v
theories/Conv.v
theories/SpecConv.v
theories/NumProofs.v
theories/EnumProofs.v
theories/ConvProofs.v
theories/FaithfulProofs.v
theories/ConvTheorems.v
theories/SetProofs.v
theories/CollProofs.v
theories/SamplesConv.v
theories/ConvCounterexamples.v
theories/AgreeProofs.v
theories/SpecBlank.v
theories/BlankProofs.v
theories/NulloptProofs.v
theories/SamplesBlank.v
theories/Properties_Conv.v
theories/Macro.v
theories/SpecMacro.v
theories/MacroProofs.v
theories/SamplesMacro.v
theories/Properties_Macro.v
theories/Float.v
theories/SpecFloat.v
theories/FloatProofs.v
theories/FloatTheorems.v
theories/FloatReading.v
theories/SamplesFloat.v
theories/Properties_Float.v
theories/Heap.v
theories/SpecHeap.v
theories/StoreProofs.v
theories/HeapBase.v
theories/HeapSteps.v
theories/HeapOps.v
theories/HeapMoves.v
theories/HeapNodes.v
theories/HeapCalls.v
theories/HeapMerge.v
theories/HeapJoin.v
theories/HeapEval.v
theories/HeapProofs.v
theories/HeapTheorems.v
theories/HeapSafety.v
theories/SamplesHeap.v
theories/Properties_Heap.v
theories/SpecLayout.v
theories/LayoutProofs.v
theories/SpecEffects.v
theories/EffectProofs.v
theories/StatementProofs.v
theories/PartProofs.v
theories/SamplesEffects.v
theories/Properties_Layout.v
theories/Properties_Effects.v
theories/Info.v
theories/SpecInfo.v
theories/InfoProofs.v
theories/InfoExact.v
theories/SamplesInfo.v
theories/Properties_Info.v
theories/Traits.v
theories/SpecTraits.v
theories/TraitsProofs.v
theories/TraitsHanding.v
theories/TraitsTheorems.v
theories/Properties_Traits.v
theories/Conformance.v
theories/ConformanceApi.v
theories/Cost.v
theories/SpecCost.v
theories/CostProofs.v
theories/CostTheorems.v
theories/DumpCost.v
theories/DumpCostProofs.v
theories/Properties_Cost.v
theories/Left.v
theories/SpecLeft.v
theories/LeftProofs.v
theories/LeftTheorems.v
theories/SamplesLeft.v
theories/Properties_Left.v
theories/DequeProofs.v
theories/HeapParse.v
theories/HeapParseProofs.v
theories/HeapParseTheorems.v
theories/SamplesHeapParse.v
theories/Properties_HeapParse.v
theories/Stream.v
theories/SpecStream.v
theories/WordsProofs.v
theories/StreamProofs.v
theories/StreamTheorems.v
theories/StreamExc.v
theories/StreamExcProofs.v
theories/Properties_Stream.v
theories/Depth.v
theories/SpecDepth.v
theories/DepthProofs.v
theories/DepthTheorems.v
theories/OpenersProofs.v
theories/Properties_Depth.v
theories/HeapConv.v
theories/SpecHeapConv.v
theories/HeapConvProofs.v
theories/HeapConvTheorems.v
theories/SamplesHeapConv.v
theories/Properties_HeapConv.v
theories/SpecMoves.v
theories/MovesProofs.v
theories/MovesTheorems.v
theories/SamplesMoves.v
theories/UndefinedProofs.v
theories/UndefinedCalls.v
theories/Properties_Moves.v
theories/SpecRefs.v
theories/RefsTheorems.v
theories/SamplesRefs.v
theories/Properties_Refs.v
theories/SpecThreads.v
theories/ThreadsProofs.v
theories/ThreadsTheorems.v
theories/SamplesThreads.v
theories/Properties_Threads.v
theories/Faults.v
theories/SpecFaults.v
theories/FaultsProofs.v
theories/FaultsTheorems.v
theories/SamplesFaults.v
theories/Properties_Faults.v
theories/FaultsMove.v
theories/FaultsNoticed.v
theories/SpecFaultsMove.v
theories/FaultsMoveProofs.v
theories/FaultsMoveTheorems.v
theories/SamplesFaultsMove.v
theories/Properties_FaultsMove.v
theories/Properties_Noticed.v
theories/Messages.v
theories/SpecMessages.v
theories/MessagesProofs.v
theories/MessagesTheorems.v
theories/MovedMessagesProofs.v
theories/SamplesMessages.v
theories/Properties_Messages.v
theories/Iter.v
theories/SpecIter.v
theories/IterProofs.v
theories/SamplesIter.v
theories/Properties_Iter.v
theories/Swap.v
theories/SpecSwap.v
theories/SwapProofs.v
theories/SamplesSwap.v
theories/Properties_Swap.v
theories/SpecGiven.v
theories/GivenProofs.v
theories/SamplesGiven.v
theories/Properties_Given.v
