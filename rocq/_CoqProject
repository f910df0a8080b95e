-Q theories Verif
theories/Bytes.v
theories/Utf8.v
theories/Utf8Proofs.v
theories/GoStrconv.v
theories/GoTime.v
theories/GoNet.v
theories/GoFloat.v
theories/Oracles.v
theories/Ast.v
theories/AstSpec.v
theories/PegSyntax.v
theories/Grammar.v
theories/Actions.v
theories/Engine.v
theories/Validators.v
theories/Visitors.v
theories/ParseQuery.v
theories/ValidatorProofs.v
theories/VisitorProofs.v
theories/TestOracle.v
theories/Prop_Validators.v
theories/Prop_Visitors.v
theories/EngineBasics.v
theories/EnginePositions.v
theories/CleanEval.v
theories/Bridge.v
theories/Lexer.v
theories/GrammarSpec.v
theories/Prop_Parser.v
theories/TokenProofs.v
theories/TokenProofs2.v
theories/ValueProofs.v
theories/FieldProofs.v
theories/ListProofs.v
theories/ClauseProofs.v
theories/ParserTop.v
theories/GrammarFacts.v
theories/Layout.v
theories/LayoutProofs.v
theories/Prop_Grammar.v
theories/Prop_Layout.v
theories/LiteralSpec.v
theories/StringProofs.v
theories/LiteralProofs.v
theories/SimpleQuery.v
theories/RegexLitProofs.v
theories/Prop_Literals.v
theories/PathProofs.v
theories/Prop_Paths.v
theories/CostProofs.v
theories/CostUpper.v
theories/Prop_Cost.v
theories/Json.v
theories/JsonSpec.v
theories/JsonProofs.v
theories/Values.v
theories/StrMatch.v
theories/Matcher.v
theories/QueryMessages.v
theories/MatchSpec.v
theories/StrProofs.v
theories/NetProofs.v
theories/MatchProofs.v
theories/MatchApi.v
theories/MatcherTop.v
theories/Prop_Match.v
theories/MessageSpec.v
theories/MessageProofs.v
theories/Prop_Messages.v
theories/NumSpec.v
theories/FloatProofs.v
theories/NumProofs.v
theories/NumLitProofs.v
theories/Prop_Numbers.v
theories/DateSpec.v
theories/DateProofs.v
theories/Prop_Dates.v
theories/NetSpec.v
theories/NetLitProofs.v
theories/Prop_Nets.v
theories/DecodeSpec.v
theories/Prop_Decode.v
theories/StrLitProofs.v
theories/Prop_Strings.v
theories/Stats.v
theories/StatsSpec.v
theories/StatsProofs.v
theories/CountProofs.v
theories/Prop_Stats.v
theories/JsonParser.v
theories/MatchBytes.v
theories/JsonParserProofs.v
theories/MatchBytesProofs.v
theories/Prop_MatchBytes.v
theories/Sampler.v
theories/SamplerSpec.v
theories/SamplerProofs.v
theories/Prop_Sampler.v
theories/ThresholdProofs.v
theories/Prop_Threshold.v
theories/Prop_SampledKeys.v
theories/Fmtmsg.v
theories/FmtProofs.v
theories/Prop_Fmt.v
theories/FieldStats.v
theories/Prop_FieldStats.v
theories/GoItoa.v
theories/ItoaProofs.v
theories/Graph.v
theories/GraphSpec.v
theories/GraphProofs.v
theories/Prop_Graph.v
theories/QuoteProofs.v
theories/FormatFloat.v
theories/FormatFloatProofs.v
theories/PrintedProofs.v
theories/Prop_Printed.v
theories/Prop_Distinct.v
theories/Marshal.v
theories/MarshalSpec.v
theories/MarshalProofs.v
theories/Wasm.v
theories/WasmSpec.v
theories/WasmProofs.v
theories/Prop_Wasm.v
theories/Prop_Marshal.v
theories/CmdTest.v
theories/CmdProofs.v
theories/Prop_Cmd.v
theories/CmdGraph.v
theories/Prop_CmdGraph.v
theories/ShapeSpec.v
theories/Viable.v
theories/ViableStart.v
theories/ViableForm.v
theories/Listed.v
theories/Prop_Viable.v
theories/Expected.v
theories/ExpectedSpec.v
theories/Prop_Expected.v
theories/Complete.v
theories/Prop_Complete.v
theories/TreeTextSpec.v
theories/Prop_TreeText.v
theories/OrderSpec.v
theories/Prop_Order.v
theories/BlameSpec.v
theories/Prop_Blame.v
theories/FriendlyProofs.v
theories/Prop_Friendly.v
theories/Conformance.v
theories/FaultSpec.v
theories/Faults.v
theories/Prop_Fault.v
theories/AlikeSpec.v
theories/AlikeProofs.v
theories/Prop_Alike.v
theories/RegexSpec.v
theories/RegexProofs.v
theories/HintSpec.v
theories/Prop_Hint.v
theories/Prop_Alternation.v
theories/Prop_Repair.v
theories/Reasons.v
theories/Texts.v
theories/ReasonSpec.v
theories/ReasonProofs.v
theories/Prop_Texts.v
theories/Prop_Advice.v
theories/MessageJson.v
theories/Prop_MessageJson.v
theories/Server.v
theories/Prop_Server.v
theories/PathSpec.v
theories/Prop_Hops.v
theories/Memo.v
theories/MemoProofs.v
theories/Prop_Memo.v
theories/Reader.v
theories/Prop_Reader.v
theories/Truthy.v
theories/Prop_Truthy.v
theories/Prop_Docs.v
theories/Prop_Shown.v
theories/Page.v
theories/PageSpec.v
theories/PageProofs.v
theories/Prop_Page.v
theories/NestSpec.v
theories/NestCost.v
theories/Prop_Nest.v
theories/Limit.v
theories/LimitProofs.v
theories/Prop_Limit.v
theories/Allow.v
theories/AllowProofs.v
theories/Prop_Allow.v
theories/DecimalSpec.v
theories/ShortestProofs.v
theories/DecimalProofs.v
theories/GoFloatRead.v
theories/NumberTextSpec.v
theories/NumberTextProofs.v
theories/NumberValueProofs.v
theories/Prop_NumberText.v
theories/Prop_Decimal.v
theories/Prop_FieldExamples.v
theories/FieldStatsConc.v
theories/Prop_FieldConc.v
theories/Prop_SampleText.v
theories/Prop_Readme.v
theories/Options.v
theories/Prop_Options.v
theories/Prop_Reading.v
theories/MatchRecover.v
theories/Prop_Recover.v
theories/ErrorList.v
theories/Prop_ErrorList.v
theories/Prop_MemoErrors.v
theories/MatchCost.v
theories/Prop_MatchCost.v
theories/FieldJson.v
theories/Prop_FieldJson.v
theories/GraphTitle.v
theories/Prop_GraphTitle.v
theories/Tape.v
theories/Prop_Tape.v
theories/SampleErr.v
theories/Prop_SampleErr.v
theories/NoStats.v
theories/Prop_NoStats.v
