-Q theories Verif
theories/Base.v
theories/Syntax.v
theories/Nesting.v
theories/NestingSpec.v
theories/NestingProofs.v
theories/PropNesting.v
theories/Hooks.v
theories/BrTable.v
theories/Passes.v
theories/WeaveSpec.v
theories/WeaveProofs.v
theories/WeavePropSpec.v
theories/WeavePropProofs.v
theories/PropWeave.v
theories/Bytes.v
theories/Semantics.v
theories/Names.v
theories/Instrument.v
theories/InstrumentProofs.v
theories/Advice.v
theories/RunLemmas.v
theories/AdviceRel.v
theories/AdviceProofs.v
theories/SpecProofs.v
theories/Instantiate.v
theories/InstantiateProofs.v
theories/ExModule.v
theories/PropInstrument.v
theories/PropSpec.v
theories/Interface.v
theories/PropInterface.v
theories/Pipeline.v
theories/PropPipeline.v
theories/Alphabetic.v
theories/PropAlphabetic.v
theories/Wasp.v
theories/PropWasp.v
theories/RsStdlib.v
theories/PropStdlib.v
theories/ImportProofs.v
theories/StackLib.v
theories/StackNames.v
theories/StackAsm.v
theories/StackRun.v
theories/StackOps.v
theories/StackSpec.v
theories/StackHist.v
theories/PropStack.v
theories/Purity.v
theories/PuritySpec.v
theories/PurityProofs.v
theories/PropPurity.v
theories/System.v
theories/SystemProofs.v
theories/AccessProofs.v
theories/PropSystem.v
theories/PropMemory.v
theories/Typing.v
theories/TypingProofs.v
theories/AdvisedTyping.v
theories/ModuleTyping.v
theories/InstantiateTyping.v
theories/Checker.v
theories/PropTyping.v
theories/WeaveTyping.v
theories/ValidOutput.v
theories/PropValid.v
theories/PropTotal.v
theories/Trace.v
theories/TraceProofs.v
theories/ForwardRel.v
theories/ForwardBody.v
theories/OwnProofs.v
theories/ForwardProofs.v
theories/SessionProofs.v
theories/Recorder.v
theories/PropTransparent.v
theories/TraceBalance.v
theories/Analyses.v
theories/AnalysesProofs.v
theories/PropAnalyses.v
theories/PropCallStack.v
theories/Handles.v
theories/PropOrder.v
theories/Fuel.v
theories/Memo.v
theories/MemoProofs.v
theories/MemoSession.v
theories/PropMemo.v
theories/RustLib.v
theories/RustNames.v
theories/RustRun.v
theories/RustProofs.v
theories/RustTypes.v
theories/RustHeap.v
theories/PropRust.v
theories/Guards.v
theories/PropGuards.v
theories/AsLib.v
theories/AsNames.v
theories/AsRun.v
theories/AsTypes.v
theories/AsProofs.v
theories/PropAs.v
theories/WaspAs.v
theories/WaspAsProofs.v
theories/WaspAsSessions.v
theories/WaspAsAccess.v
theories/PropWaspProgram.v
theories/PropWaspAs.v
theories/WaspText.v
theories/WaspGrammar.v
theories/WaspTextProofs.v
theories/WaspParseProofs.v
theories/PropWaspText.v
theories/Denan.v
theories/PropDenan.v
theories/TraceLocs.v
theories/Tracing.v
theories/PropTracing.v
theories/Taint.v
theories/PropTaint.v
theories/Merge.v
theories/PropMerge.v
theories/StaticTool.v
theories/PropStaticTool.v
theories/Link.v
theories/PropLink.v
theories/SigCheck.v
theories/PropSigCheck.v
theories/Logging.v
theories/PropLogging.v
theories/Edit.v
theories/AlterProofs.v
theories/PropAlter.v
theories/PropCounters.v
theories/PropErrors.v
theories/PropZero.v
theories/PropSilent.v
theories/PropExpect.v
