-Q theories Verif
theories/Base.v
theories/Regex.v
theories/Token.v
theories/Lexer.v
theories/Num.v
theories/Ast.v
theories/Quote.v
theories/AstConstructors.v
theories/Parser.v
theories/Info.v
theories/TypeChecker.v
theories/ConstraintInfo.v
theories/Interpreter.v
theories/Z3.v
theories/Symbolic.v
theories/Cli.v
theories/TestsE2E.v
theories/StrFacts.v
theories/SpecLexer.v
theories/LexerFacts.v
theories/LexerFacts2.v
theories/LexerFacts3.v
theories/LexerFacts4.v
theories/LexerFacts5.v
theories/LexerFacts6.v
theories/LexerFacts7.v
theories/SpecLocations.v
theories/LexerFacts8.v
theories/PropertiesLexer.v
theories/SpecGrammar.v
theories/SpecParser.v
theories/NumFacts.v
theories/LiteralFacts.v
theories/ParserFacts.v
theories/ParserFacts2.v
theories/ParserFacts3.v
theories/ParserFacts4.v
theories/ParserFacts5.v
theories/ParserFacts6.v
theories/SpecQuote.v
theories/QuoteFacts.v
theories/ParserFacts7.v
theories/QuoteFacts2.v
theories/PropertiesParser.v
theories/SpecTyping.v
theories/TypeFacts.v
theories/PropertiesTypes.v
theories/EvalFacts.v
theories/SpecSemantics.v
theories/SemFacts.v
theories/SemFacts2.v
theories/EntryFacts.v
theories/ExplainFacts.v
theories/VerdictFacts.v
theories/SpecInfo.v
theories/InfoFacts.v
theories/InfoFacts2.v
theories/PropertiesInfo.v
theories/InterpFacts.v
theories/PropertiesInterpreter.v
theories/InterpFacts2.v
theories/PropertiesVerdict.v
theories/SpecExplain.v
theories/QuoteFacts3.v
theories/ExplainFacts2.v
theories/PropertiesExplain.v
theories/EntryFacts2.v
theories/EntryFacts3.v
theories/PropertiesEntries.v
theories/SpecSymbolic.v
theories/SymFacts.v
theories/SymFacts2.v
theories/SymBytes.v
theories/SymKeys.v
theories/SpecSolver.v
theories/SymState.v
theories/SymMeaning.v
theories/SymComplete.v
theories/SymDemo.v
theories/PropertiesSymbolic.v
theories/SpecMisc.v
theories/PropertiesMisc.v
theories/PropertiesCli.v
theories/SpecLaws.v
theories/LawFacts.v
theories/RetoldFacts.v
theories/CombineFacts.v
theories/PropertiesLaws.v
theories/SpecReading.v
theories/ReadingFacts.v
theories/ReadingFacts2.v
theories/ReadingFacts3.v
theories/LoadFacts.v
theories/PropertiesReading.v
theories/SpecSession.v
theories/PropertiesSession.v
theories/SpecRobust.v
theories/RenameFacts.v
theories/NotationFacts.v
theories/PropertiesRobust.v
theories/SpecPackets.v
theories/PacketFacts.v
theories/PropertiesPackets.v
theories/SpecIdioms.v
theories/IdiomFacts.v
theories/PropertiesIdioms.v
theories/SolverLawFacts.v
theories/PropertiesRewrite.v
theories/SpecResolver.v
theories/PropertiesResolver.v
theories/IntervalFacts.v
theories/MessageFacts.v
theories/MessageFacts2.v
theories/PropertiesMessage.v
theories/SpecCrash.v
theories/CrashFacts.v
theories/PropertiesCrash.v
theories/TestsUnit.v
theories/TestsSymbolic.v
theories/SpecFault.v
theories/SpecReport.v
theories/FaultFacts.v
theories/ReportFacts.v
theories/PropertiesFault.v
theories/SolverFacts.v
theories/PropertiesSolver.v
theories/SpecBlame.v
theories/SpecNext.v
theories/SpecAddress.v
theories/ShapeFacts.v
theories/ShapeFacts2.v
theories/BlameFacts.v
theories/BlameFacts2.v
theories/AddressFacts.v
theories/NextFacts.v
theories/NextFacts2.v
theories/PropertiesBlame.v
theories/PropertiesNext.v
theories/SpecCite.v
theories/PropertiesCite.v
theories/SpecBounds.v
theories/PropertiesBounds.v
theories/DebugBuild.v
theories/SpecDebug.v
theories/DebugFacts.v
theories/DebugFacts2.v
theories/DebugFacts3.v
theories/PropertiesDebug.v
theories/StatusBuilder.v
theories/SpecStatus.v
theories/PropertiesStatus.v
theories/SpecOutcome.v
theories/OutcomeFacts.v
theories/OutcomeFacts2.v
theories/OutcomeFacts3.v
theories/OutcomeFacts4.v
theories/OutcomeFacts5.v
theories/PropertiesOutcome.v
theories/Traced.v
theories/SpecWork.v
theories/WorkFacts.v
theories/WorkFacts2.v
theories/WorkFacts3.v
theories/PropertiesWork.v
theories/SpecRewritten.v
theories/RewrittenFacts.v
theories/PropertiesRewritten.v
theories/SpecForce.v
theories/ForceFacts.v
theories/PropertiesForce.v
theories/SpecSorts.v
theories/SortsFacts.v
theories/PropertiesSorts.v
theories/SpecYields.v
theories/YieldsFacts.v
theories/PropertiesYields.v
theories/SpecShared.v
theories/SharedFacts.v
theories/SharedFacts2.v
theories/PropertiesShared.v
theories/SpecSingle.v
theories/SingleFacts.v
theories/SingleFacts2.v
theories/PropertiesSingle.v
theories/WhitelistFacts.v
theories/PropertiesWhitelist.v
theories/SpecGrow.v
theories/GrowFacts.v
theories/GrowFacts2.v
theories/PropertiesGrow.v
theories/SpecQueries.v
theories/PropertiesQueries.v
theories/InPlace.v
theories/SpecInPlace.v
theories/PropertiesInPlace.v
theories/SpecRecast.v
theories/SpecResize.v
theories/RecastFacts.v
theories/RecastFacts2.v
theories/RecastFacts3.v
theories/ResizeFacts.v
theories/PropertiesRecast.v
theories/PropertiesResize.v
theories/PropertiesCombine.v
theories/SpecMissed.v
theories/SpecSeparate.v
theories/SeparateFacts.v
theories/PropertiesSeparate.v
theories/SpecWeaker.v
theories/WeakerFacts.v
theories/PropertiesWeaker.v
theories/ParserWork.v
theories/SpecReadCost.v
theories/ReadCostFacts.v
theories/PropertiesReadCost.v
theories/SpecSkip.v
theories/SkipFacts.v
theories/PropertiesSkip.v
theories/SpecTrial.v
theories/TrialFacts.v
theories/PropertiesTrial.v
theories/SpecFilled.v
theories/FilledFacts.v
theories/PropertiesFilled.v
theories/CamelCase.v
theories/SpecCamelCase.v
theories/PropertiesCamelCase.v
theories/SpecCut.v
theories/CutFacts.v
theories/PropertiesCut.v
theories/SkipCalls.v
theories/SpecCalls.v
theories/CallFacts.v
theories/PropertiesCalls.v
theories/SpecAppend.v
theories/AppendFacts.v
theories/PropertiesAppend.v
theories/PropertiesRepair.v
theories/SpecClauses.v
theories/PropertiesClauses.v
theories/SpecOrder.v
theories/PropertiesOrder.v
theories/SpecLoadError.v
theories/PropertiesLoadError.v
theories/SpecObjection.v
theories/PropertiesObjection.v
theories/SpecStuck.v
theories/StuckFacts.v
theories/PropertiesStuck.v
theories/SpecRefuse.v
theories/RefuseFacts.v
theories/PropertiesRefuse.v
theories/SpecUncited.v
theories/PropertiesUncited.v
theories/SpecPrinted.v
theories/PropertiesPrinted.v
theories/PropertiesFieldOrder.v
theories/SpecWords.v
theories/PropertiesWords.v
theories/SpecGmp.v
theories/PropertiesGmp.v
theories/PropertiesTaken.v
theories/SpecRenumber.v
theories/PropertiesRenumber.v
theories/SpecReach.v
theories/WorkFacts4.v
theories/PropertiesReach.v
theories/PropertiesRenumberSolver.v
theories/SpecRenamedSolver.v
theories/PropertiesRenamedSolver.v
theories/SpecShuffled.v
theories/PropertiesShuffled.v
theories/SpecSameReport.v
theories/PropertiesRenumberAll.v
theories/SpecRestatedSolver.v
theories/PropertiesRestatedSolver.v
theories/SpecNames.v
theories/NameFacts.v
theories/NameFacts2.v
theories/PropertiesNames.v
theories/PropertiesNumbered.v
theories/SpecPlaces.v
theories/PropertiesPlaces.v
theories/PropertiesLocalSolver.v
theories/PropertiesPlacesSolver.v
theories/SpecPlacesTool.v
theories/PropertiesPlacesTool.v
theories/PropertiesOverflow.v
theories/PropertiesLinked.v
theories/Printers.v
theories/PropertiesPrinters.v
