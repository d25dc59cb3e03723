-Q theories Verif
theories/Base.v
theories/Domain.v
theories/Lexer.v
theories/Parser.v
theories/Validate.v
theories/Store.v
theories/Search.v
theories/SearchRun.v
theories/Explain.v
theories/Yaml.v
theories/Service.v
theories/Dump.v
theories/MapGraph.v
theories/Chan.v
theories/Api.v
theories/Fault.v
theories/YamlDoc.v
theories/BaseFacts.v
theories/SpecGrammar.v
theories/LexerFacts.v
theories/ParserFacts.v
theories/ExprFacts.v
theories/ChanFacts.v
theories/Fixtures.v
theories/PropsExpr.v
theories/SpecPolicy.v
theories/SpecStore.v
theories/ValidateFacts.v
theories/StoreFacts.v
theories/PolicyFacts.v
theories/PropsPolicy.v
theories/RelFacts.v
theories/PropsStore.v
theories/SpecSearch.v
theories/SpecDot.v
theories/SpecAccount.v
theories/SearchFacts.v
theories/SearchSem.v
theories/SearchTerm.v
theories/SearchExplain.v
theories/AccountFacts.v
theories/ReadFacts.v
theories/GraphFacts.v
theories/NameFacts.v
theories/DotFacts.v
theories/PropsSearch.v
theories/PropsExplain.v
theories/PropsAccount.v
theories/SpecWork.v
theories/WorkFacts.v
theories/PropsWork.v
theories/SpecAlike.v
theories/PropsAlike.v
theories/SpecRetry.v
theories/RetryFacts.v
theories/PropsRetry.v
theories/SpecTouch.v
theories/TouchFacts.v
theories/PropsTouch.v
theories/SpecMisc.v
theories/MiscFacts.v
theories/PropsMisc.v
theories/SpecDump.v
theories/DumpFacts.v
theories/PropsDump.v
theories/PropsDot.v
theories/SpecCrash.v
theories/CrashFacts.v
theories/PropsCrash.v
theories/SpecConc.v
theories/ConcFacts.v
theories/ConcSearch.v
theories/PropsConc.v
theories/PropsConcSearch.v
theories/SpecAck.v
theories/AckFacts.v
theories/PropsAck.v
theories/SpecStale.v
theories/PropsStale.v
theories/PropsUndo.v
theories/PropsReads.v
theories/SpecSize.v
theories/PropsDumpSize.v
theories/PropsFault.v
theories/SpecAccountConc.v
theories/ConcAccount.v
theories/PropsAccountConc.v
theories/SpecYaml.v
theories/YamlFacts.v
theories/YamlDocFacts.v
theories/PropsYamlDoc.v
theories/SpecExtend.v
theories/PropsExtend.v
theories/SpecExpand.v
theories/ExpandFacts.v
theories/PropsExpand.v
theories/SpecWays.v
theories/WayFacts.v
theories/PropsWays.v
theories/Config.v
theories/SpecConfig.v
theories/ConfigFacts.v
theories/PropsConfig.v
theories/SpecRules.v
theories/RulesFacts.v
theories/PropsRules.v
theories/Client.v
theories/SpecClient.v
theories/ClientFacts.v
theories/PropsClient.v
theories/SpecRename.v
theories/RenameFacts.v
theories/PropsRename.v
theories/SpecSafe.v
theories/SafeFacts.v
theories/PropsSafe.v
theories/DiGraph.v
theories/SpecDiGraph.v
theories/DiGraphFacts.v
theories/PropsDiGraph.v
theories/Layout.v
theories/SpecLayout.v
theories/LayoutFacts.v
theories/PropsLayout.v
theories/SpecOptions.v
theories/PropsOptions.v
theories/SpecBound.v
theories/BoundFacts.v
theories/PropsBound.v
theories/SpecErrors.v
theories/ErrorFacts.v
theories/PropsErrors.v
theories/SpecRefine.v
theories/RefineFacts.v
theories/IdealFacts.v
theories/PropsRefine.v
theories/SpecSessions.v
theories/SessionFacts.v
theories/PropsSessions.v
theories/Daemon.v
theories/DaemonFacts.v
theories/PropsDaemon.v
theories/SpecTrace.v
theories/PropsTrace.v
theories/PropsBulk.v
theories/ParserWork.v
theories/PropsParserWork.v
theories/PropsCases.v
theories/Wire.v
theories/SpecWire.v
theories/WireFacts.v
theories/WireServe.v
theories/PropsWire.v
theories/Rpc.v
theories/SpecRpc.v
theories/RpcFacts.v
theories/RpcServe.v
theories/PropsRpc.v
theories/CasesBytes.v
theories/CasesRepo.v
theories/Limits.v
theories/SpecLimits.v
theories/PropsLimits.v
theories/Net.v
theories/SpecNet.v
theories/NetFacts.v
theories/PropsNet.v
theories/SpecApart.v
theories/ApartFacts.v
theories/PropsApart.v
theories/SpecOneWay.v
theories/OneWayFacts.v
theories/PropsOneWay.v
theories/LexPos.v
theories/ParserText.v
theories/SpecSpan.v
theories/SpanFacts.v
theories/TextFacts.v
theories/PropsSpan.v
theories/Book.v
theories/SpecBook.v
theories/BookFacts.v
theories/SpecNewer.v
theories/NewerFacts.v
theories/PropsNewer.v
theories/PropsBook.v
theories/SpecExact.v
theories/ExactFacts.v
theories/PropsExact.v
theories/BornFacts.v
theories/PropsBorn.v
theories/Blame.v
theories/SpecBlame.v
theories/BlameFacts.v
theories/PropsBlame.v
theories/Cli.v
theories/SpecCli.v
theories/CliFacts.v
theories/MergeFacts.v
theories/PropsCli.v
theories/Json.v
theories/SpecJson.v
theories/JsonFacts.v
theories/JsonReads.v
theories/JsonRecv.v
theories/JsonReply.v
theories/SpecReply.v
theories/ReplyFacts.v
theories/ReplyRound.v
theories/PropsJson.v
theories/PropsReply.v
theories/CliRun.v
theories/SpecCliRun.v
theories/PropsCliRun.v
theories/Zanzid.v
theories/SpecZanzid.v
theories/PropsZanzid.v
