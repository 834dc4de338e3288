-Q theories Verif
theories/Base.v
theories/ParserModel.v
theories/Ast.v
theories/Grammar.v
theories/RefParser.v
theories/RefLemmas.v
theories/RefGrammar.v
theories/ParserSafe.v
theories/ParserMono.v
theories/SimBase.v
theories/SimLex.v
theories/SimStr.v
theories/SimVal.v
theories/SimSel.v
theories/SimDoc.v
theories/Printer.v
theories/PrinterProof.v
theories/TextPos.v
theories/ParserPos.v
theories/ParserFacts.v
theories/PropParser.v
theories/GapSpec.v
theories/GapProof.v
theories/GapSim.v
theories/PropGap.v
theories/CacheModel.v
theories/CacheProof.v
theories/PropCache.v
theories/Json.v
theories/JsonModel.v
theories/JsonProof.v
theories/JsonUnique.v
theories/PropJson.v
theories/NameModel.v
theories/PropNames.v
theories/RegModel.v
theories/PropReg.v
theories/ReqModel.v
theories/PropReq.v
theories/Schema.v
theories/ResModel.v
theories/EnvModel.v
theories/Samples.v
theories/Interp.v
theories/ResFrame.v
theories/ResSim.v
theories/RunSim.v
theories/OpSim.v
theories/DocRun.v
theories/Indep.v
theories/Grow.v
theories/HistModel.v
theories/PropEnv.v
theories/Facts.v
theories/Valid.v
theories/PropValid.v
theories/PathLog.v
theories/PropCalls.v
theories/Spec.v
theories/SpecLit.v
theories/SpecJson.v
theories/SpecVal.v
theories/SpecArgs.v
theories/SpecRun.v
theories/SpecDoc.v
theories/Regular.v
theories/PropExec.v
theories/Rewrite.v
theories/FuelMono.v
theories/PropSel.v
theories/Term.v
theories/PropTerm.v
theories/RewriteErr.v
theories/PropSelErr.v
theories/ArgRun.v
theories/PropArgs.v
theories/PropVars.v
theories/PropOut.v
theories/PropStr.v
theories/PropLit.v
theories/PropUnknown.v
theories/PropDepth.v
theories/MemModel.v
theories/PropMem.v
theories/GoTypes.v
theories/ParseModel.v
theories/ParseFacts.v
theories/ParseTerm.v
theories/SchemaSpec.v
theories/ParseSound.v
theories/InputSound.v
theories/ParseWhole.v
theories/SchemaCheck.v
theories/SampleProg.v
theories/PropSchema.v
theories/TypeSpec.v
theories/TypeArgs.v
theories/TypeSafe.v
theories/TypeCheck.v
theories/PropPanic.v
theories/Same.v
theories/IntroModel.v
theories/IntroProof.v
theories/IntroTables.v
theories/SampleIntro.v
theories/PropIntro.v
theories/IntroSpec.v
theories/IntroFacts.v
theories/PropDescribe.v
theories/FloatSpec.v
theories/FloatModel.v
theories/FloatProof.v
theories/FloatText.v
theories/FloatRead.v
theories/FloatLit.v
theories/FloatShort.v
theories/PropFloat.v
theories/TraceModel.v
theories/TraceSpec.v
theories/TraceProof.v
theories/TraceTime.v
theories/PropTrace.v
theories/TesterModel.v
theories/TesterSpec.v
theories/TesterSchema.v
theories/TesterProof.v
theories/TesterGot.v
theories/PropTester.v
theories/DiffModel.v
theories/DiffSpec.v
theories/DiffProof.v
theories/DiffBlocks.v
theories/DiffText.v
theories/DiffSame.v
theories/PropDiff.v
theories/PropKinds.v
theories/AnswerSpec.v
theories/AnswerProof.v
theories/AnswerTold.v
theories/PropAnswer.v
theories/IntroTyped.v
theories/PropIntroSafe.v
theories/PropIntroTold.v
theories/PropDirs.v
theories/LinkModel.v
theories/PropLink.v
theories/CodeUnique.v
theories/PropCode.v
theories/TestModel.v
theories/TestProof.v
theories/PropTest.v
theories/PropMembers.v
theories/AssertModel.v
theories/AssertSpec.v
theories/AssertProof.v
theories/PropAssert.v
theories/CopyModel.v
theories/CopySpec.v
theories/CopyProof.v
theories/PropCopy.v
theories/EqModel.v
theories/EqSpec.v
theories/EqProof.v
theories/PropEq.v
theories/ErrModel.v
theories/ErrSpec.v
theories/ErrProof.v
theories/PropErr.v
theories/MsgModel.v
theories/PropMsg.v
