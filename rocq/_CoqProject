-Q theories Verif
theories/Py.v
theories/PyFacts.v
theories/ReprProofs.v
theories/Effects.v
theories/EffectsFacts.v
theories/Solver.v
theories/SolverSpec.v
theories/SolverProofs.v
theories/SolverProofs2.v
theories/SolverProofs3.v
theories/MatchProofs.v
theories/MatchProofs2.v
theories/Atoms.v
theories/AtomsFacts.v
theories/CoreModule.v
theories/InferenceModule.v
theories/TableModule.v
theories/DatalogSpec.v
theories/DatalogProofs.v
theories/DatalogProofs2.v
theories/DatalogThms.v
theories/RecursionSpec.v
theories/DatalogProofs3.v
theories/DatalogProofs4.v
theories/ExampleWorld.v
theories/PropSolver.v
theories/PropDatalog.v
theories/PropRecursion.v
theories/CoreSpec.v
theories/CoreProofs.v
theories/CoreProofs2.v
theories/OrderSpec.v
theories/OrderProofs.v
theories/CoreProofs3.v
theories/PropCore.v
theories/FuelProofs.v
theories/ReadOnlyProofs.v
theories/ResultIterator.v
theories/PropFrame.v
theories/SimpleDataSource.v
theories/DataSpec.v
theories/SimpleDataProofs.v
theories/OrderedSetProofs.v
theories/Sql.v
theories/SqliteDataSource.v
theories/SqliteProofs.v
theories/SqliteProofs2.v
theories/Sparql.v
theories/SparqlProofs.v
theories/PropData.v
theories/Memory.v
theories/Grammar.v
theories/Pipeline.v
theories/Generator.v
theories/PipelineSpec.v
theories/PipelineProofs.v
theories/PropPipeline.v
theories/MemoryProofs.v
theories/PropOutput.v
theories/PropTypes.v
theories/Earley.v
theories/ParserSpec.v
theories/GrammarProofs.v
theories/Lexer.v
theories/InferenceRuleParser.v
theories/Regex.v
theories/RegexProofs.v
theories/RegexSpec.v
theories/RegexProofs2.v
theories/RegexProofs3.v
theories/RegexSyntax.v
theories/RegexProofs4.v
theories/EarleyProofs.v
theories/EarleyProofs2.v
theories/EarleyProofs3.v
theories/EarleyProofs4.v
theories/EarleyProofs5.v
theories/EarleyProofs6.v
theories/EarleyProofs7.v
theories/ParserFacts.v
theories/PropParser.v
theories/PropParserExamples.v
theories/PropRegex.v
theories/GrammarParser.v
theories/LexerProofs.v
theories/PropGrammarParser.v
theories/PropGrammarParser2.v
theories/RuleParserProofs.v
theories/RuleParserProofs2.v
theories/RuleParserProofs3.v
theories/RuleSyntax.v
theories/RuleParserProofs4.v
theories/PropRuleParser.v
theories/PropRuleParser2.v
theories/Composer.v
theories/ComposerSpec.v
theories/ComposerProofs.v
theories/ComposerProofs2.v
theories/ComposerProofs3.v
theories/ComposerProofs4.v
theories/TermProofs.v
theories/PropComposer.v
theories/Optimizer.v
theories/OptimizerSpec.v
theories/OptimizerProofs.v
theories/OptimizerProofs2.v
theories/OptimizerProofs3.v
theories/OptimizerProofs4.v
theories/OptimizerProofs5.v
theories/OptimizerProofs6.v
theories/QuestionSystem.v
theories/QuestionProofs.v
theories/QuestionProofs2.v
theories/PropSystem.v
theories/WriterSpec.v
theories/WriterProofs.v
theories/PropWriter.v
theories/OptimizerProofs7.v
theories/PropOptimizer.v
theories/PropOptimizer2.v
theories/FolSpec.v
theories/FolProofs.v
theories/FolProofs2.v
theories/FolProofs3.v
theories/FolProofs4.v
theories/FolProofs5.v
theories/PropFol.v
theories/ComposerScope.v
theories/PropSystem2.v
theories/FragmentSpec.v
theories/FragmentModel.v
theories/FragmentProofs.v
theories/FragmentProofs2.v
theories/FragmentProofs3.v
theories/PropFragment.v
theories/LearnProofs.v
theories/PropLearn.v
theories/SimProofs.v
theories/PropCarry.v
theories/TalkSpec.v
theories/TalkModel.v
theories/ReplyModel.v
theories/ReplyProofs.v
theories/PropReply.v
theories/TalkProofs.v
theories/TalkProofs2.v
theories/TalkProofs3.v
theories/TalkProofs4.v
theories/TalkProofs5.v
theories/OptFolSpec.v
theories/OptFolProofs.v
theories/OptFolProofs2.v
theories/OptFolProofs3.v
theories/OptFolProofs4.v
theories/OptFolProofs5.v
theories/OptFolProofs6.v
theories/PropOptFol.v
theories/FragmentTidy.v
theories/PropSystem3.v
theories/PropFragment2.v
theories/TalkOpt.v
theories/PropTalk.v
theories/Logger.v
theories/LoggerProofs.v
theories/PropLogger.v
theories/PropLogger2.v
theories/DialogTester.v
theories/PropDialog.v
theories/PropDialog2.v
theories/ServerDataSource.v
theories/PropServers.v
theories/SparqlEngine.v
theories/SparqlEngineProofs.v
theories/PropSparql.v
theories/SirModel.v
theories/SirSpec.v
theories/SirProofs.v
theories/SirProofs2.v
theories/SirProofs3.v
theories/SirProofs4.v
theories/SirProofs5.v
theories/SirProofs6.v
theories/SirProofs7.v
theories/PropSir.v
theories/Csv.v
theories/CsvSpec.v
theories/CsvProofs.v
theories/CsvProofs2.v
theories/PropCsv.v
theories/TreeText.v
theories/TreeTextSpec.v
theories/TreeTextProofs.v
theories/PropTree.v
theories/CooperModel.v
theories/CooperSpec.v
theories/CooperProofs.v
theories/CooperProofs2.v
theories/CooperProofs3.v
theories/CooperProofs4.v
theories/PropCooper.v
theories/CooperSpec2.v
theories/CooperProofs5.v
theories/CooperProofs6.v
theories/CooperProofs7.v
theories/CooperProofs8.v
theories/PropCooper2.v
theories/WikidataModel.v
theories/WikidataSpec.v
theories/WikidataProofs.v
theories/WikidataProofs2.v
theories/WikidataProofs3.v
theories/PropWikidata.v
theories/WordReading.v
theories/WordReading2.v
theories/WordReading3.v
theories/WordReading4.v
theories/Stats.v
theories/StatsProofs.v
theories/PropStats.v
