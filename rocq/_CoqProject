-Q theories Verif

theories/Base.v
theories/BaseFacts.v
theories/F32.v
theories/F32Facts.v
theories/Instr.v
theories/Program.v
theories/InstrSpec.v
theories/InstrProofs.v
theories/ProgramSpec.v
theories/ProgramProofs.v
theories/Source.v
theories/SourceProofs.v
theories/PropertiesImage.v
theories/VM.v
theories/Gc.v
theories/AbsHeap.v
theories/GcProofs.v
theories/GcSpec.v
theories/GcFacts.v
theories/Refine.v
theories/Host.v
theories/Demo.v
theories/HostProofs.v
theories/PropertiesGc.v
theories/VmSpec.v
theories/VmFacts.v
theories/PropertiesOps.v
theories/PropertiesFloat.v
theories/PropertiesRound.v
theories/PropertiesNumText.v
theories/PropertiesLiteral.v
theories/PropertiesSqrt.v
theories/PropertiesMem.v
theories/RunFacts.v
theories/PropertiesRun.v
theories/PropertiesPressure.v
theories/PropertiesSched.v
theories/PropertiesBuiltins.v
theories/Lexer.v
theories/LexSpec.v
theories/LexFacts.v
theories/PropertiesLexer.v
theories/Ast.v
theories/Parser.v
theories/ParseSpec.v
theories/ParseFacts.v
theories/ParseSafe.v
theories/ParseRound.v
theories/ParseChain.v
theories/PrintFacts.v
theories/PropertiesParser.v
theories/Sema.v
theories/Optimize.v
theories/Codegen.v
theories/Build.v
theories/SemaSpec.v
theories/SemaFacts.v
theories/ConstFacts.v
theories/PropertiesSema.v
theories/SrcSem.v
theories/SrcFacts.v
theories/OptSpec.v
theories/OptFacts.v
theories/PropertiesOpt.v
theories/CgCode.v
theories/CgLayout.v
theories/CgSlots.v
theories/CgStep.v
theories/CgSys.v
theories/CgSim.v
theories/FloatBits.v
theories/CgSpec.v
theories/CgOps.v
theories/CgLink.v
theories/CgRun.v
theories/CgFlow.v
theories/BuildSpec.v
theories/CgWell.v
theories/FloatValid.v
theories/FloatRound.v
theories/ParseFine.v
theories/PropertiesCodegen.v
theories/SrcKeys.v
theories/RunSpec.v
theories/SemaIds.v
theories/OptRun.v
theories/HostRun.v
theories/PropertiesBuild.v
theories/CompileSpec.v
theories/CompileFacts.v
theories/CompileSafe.v
theories/PropertiesCompile.v
theories/ParseTail.v
theories/ImportFacts.v
theories/PropertiesImport.v
theories/Events.v
theories/PropertiesVm.v
theories/ShareSpec.v
theories/SemaShare.v
theories/PropertiesShare.v
theories/LineSpec.v
theories/LineFacts.v
theories/LineOrigin.v
theories/TextSpec.v
theories/SrcLines.v
theories/SrcNames.v
theories/PropertiesLine.v
theories/SafeSpec.v
theories/CgHeight.v
theories/SafeBuild.v
theories/PropertiesSafe.v
theories/SafeVmSpec.v
theories/SafeStep.v
theories/SafeRun.v
theories/PropertiesSafeRun.v
theories/Tools.v
theories/ToolSpec.v
theories/ListFacts.v
theories/TreeFacts.v
theories/PropertiesTools.v
theories/VmBlind.v
theories/ImageBuild.v
theories/PropertiesText.v
theories/DriverMain.v
theories/DriverSpec.v
theories/PropertiesDriver.v
theories/Sdl.v
theories/SdlSpec.v
theories/SdlFacts.v
theories/PropertiesSdl.v
theories/PropertiesIo.v
theories/PropertiesStep.v
theories/PropertiesHostile.v
theories/Rounds.v
theories/PropertiesRounds.v
theories/PropertiesHostFn.v
theories/SdlMain.v
theories/PropertiesSdlMain.v
theories/PropertiesExamples.v
theories/PropertiesGuards.v
theories/SrcErrors.v
theories/ErrorText.v
theories/PropertiesErrors.v
theories/PropertiesBreak.v
