-Q theories Verif
theories/Str.v
theories/Unicode.v
theories/Utils.v
theories/Span.v
theories/Tokenizer.v
theories/Ast.v
theories/Parser.v
theories/Semantics.v
theories/Syntax.v
theories/Hir.v
theories/HirTranslator.v
theories/SpecLex.v
theories/StrLemmas.v
theories/LexProofs.v
theories/LexEquiv.v
theories/LexProps.v
theories/SpecChar.v
theories/CharProofs.v
theories/PropChar.v
theories/SpecName.v
theories/NameProofs.v
theories/PropName.v
theories/SpecBlock.v
theories/BlockProofs.v
theories/PropBlock.v
theories/PropLex.v
theories/SpecGrammar.v
theories/ParserProofs.v
theories/SpecTree.v
theories/ParserProps.v
theories/ParserErase.v
theories/SpecDraw.v
theories/SpecEnd.v
theories/EndProofs.v
theories/EndMain.v
theories/PropEnd.v
theories/TestSyntax.v
theories/TestFoundry.v
theories/TestCli.v
theories/DrawProofs.v
theories/PropParser.v
theories/SpecSem.v
theories/SemProofs.v
theories/SemProps.v
theories/PropSem.v
theories/SpecSplit.v
theories/SplitProofs.v
theories/SplitProps.v
theories/PropSplit.v
theories/SpecHir.v
theories/UtilsProofs.v
theories/HirProofs.v
theories/HirProps.v
theories/HirContract.v
theories/HirNames.v
theories/HirUnique.v
theories/HirMain.v
theories/PropHir.v
theories/SpecComb.v
theories/CombProofs.v
theories/CombMain.v
theories/PropComb.v
theories/ErrorFmt.v
theories/SpecErr.v
theories/ErrProofs.v
theories/ErrMain.v
theories/PropErr.v
theories/SolPt.v
theories/SolTranslator.v
theories/SolFmt.v
theories/Emitter.v
theories/SpecSol.v
theories/SolProofs.v
theories/Scaffold.v
theories/SolEmit.v
theories/SolMain.v
theories/SolChars.v
theories/SpecLayout.v
theories/LayoutProofs.v
theories/PropLayout.v
theories/SolOpts.v
theories/PropSol.v
theories/SolTree.v
theories/Check.v
theories/SpecCheck.v
theories/CheckProofs.v
theories/CheckMain.v
theories/CheckScaffold.v
theories/MiniSol.v
theories/PropCheck.v
theories/Fix.v
theories/SpecFix.v
theories/SpecOrder.v
theories/OrderMoves.v
theories/OrderText.v
theories/OrderMain.v
theories/OrderInsert.v
theories/OrderFix.v
theories/FixProofs.v
theories/FixLoop.v
theories/FixMain.v
theories/SpecMini.v
theories/MiniProofs.v
theories/MiniEmit.v
theories/MiniMain.v
theories/FixMini.v
theories/SpecAny.v
theories/FixAny.v
theories/FixWhole.v
theories/OrderSort.v
theories/PropFix.v
theories/PropAny.v
theories/PropOrder.v
theories/Fs.v
theories/Violation.v
theories/Cli.v
theories/SpecCli.v
theories/CliProofs.v
theories/CliMain.v
theories/CliFix.v
theories/SpecSharp.v
theories/SharpCheck.v
theories/SpecReport.v
theories/ReportProofs.v
theories/EndCli.v
theories/PropCli.v
theories/PropReport.v
theories/SpecRun.v
theories/RunProofs.v
theories/RunExact.v
theories/PropRun.v
theories/Args.v
theories/SpecArgs.v
theories/ArgsProofs.v
theories/ArgsMain.v
theories/ArgsStop.v
theories/PropArgs.v
theories/SpecMistake.v
theories/MistakeProofs.v
theories/MistakeExact.v
theories/PropMistake.v
theories/SpecGrow.v
theories/GrowProofs.v
theories/PropGrow.v
theories/SpecExact.v
theories/ExactProofs.v
theories/FaultProofs.v
theories/PropExact.v
theories/SolLoc.v
theories/SpecLoc.v
theories/LocProofs.v
theories/PropLoc.v
theories/SharpProofs.v
theories/OrderConverse.v
theories/OrderIff.v
theories/SpreadMoves.v
theories/SpecSpread.v
theories/SpreadFix.v
theories/SpreadMain.v
theories/SpreadRuns.v
theories/PropSharp.v
theories/SpecWhole.v
theories/WholeProofs.v
theories/PropWhole.v
theories/SpecMark.v
theories/MarkProofs.v
theories/PropMark.v
theories/SpecSame.v
theories/SameProofs.v
theories/PropSame.v
theories/SpecThen.v
theories/ThenProofs.v
theories/PropThen.v
theories/SpecMend.v
theories/MendProofs.v
theories/MendThen.v
theories/MendText.v
theories/MendKeeps.v
theories/PropMend.v
theories/SpecPath.v
theories/PathProofs.v
theories/PropPath.v
theories/SpanOrd.v
theories/SpecOrd.v
theories/OrdProofs.v
theories/PropOrd.v
theories/SpecAgain.v
theories/AgainProofs.v
theories/AgainNever.v
theories/PropAgain.v
theories/SpreadRest.v
theories/PropSpread.v
theories/KeepProofs.v
theories/PropKeep.v
theories/SpecRest.v
theories/RestMoves.v
theories/RestText.v
theories/RestMain.v
theories/PropRest.v
theories/SpecQuiet.v
theories/RestRuns.v
theories/PropQuiet.v
theories/SpecDepth.v
theories/ParserStack.v
theories/DepthProofs.v
theories/PropDepth.v
theories/SpecWord.v
theories/WordProofs.v
theories/PropWord.v
theories/TokenizerCount.v
theories/CountProofs.v
theories/PropCount.v
theories/SpecSwap.v
theories/SwapProofs.v
theories/PropSwap.v
theories/SpecReorder.v
theories/ReorderProofs.v
theories/PropReorder.v
theories/SpecShuffle.v
theories/ShuffleProofs.v
theories/PropShuffle.v
theories/SpecRename.v
theories/RenameProofs.v
theories/PropRename.v
theories/SpecReword.v
theories/RewordProofs.v
theories/PropReword.v
theories/SpecNest.v
theories/NestProofs.v
theories/PropNest.v
theories/SpecRetitle.v
theories/RetitleProofs.v
theories/PropRetitle.v
