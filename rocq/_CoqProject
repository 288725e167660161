-Q theories Verif
theories/Base.v
theories/Tokens.v
theories/Graphemes.v
theories/UAX29.v
theories/Tokenizer.v
theories/TokenizerRun.v
theories/Overflow.v
theories/OverflowProofs.v
theories/SpecTok.v
theories/TokenizerProofs.v
theories/TokenizerProofs2.v
theories/TokenizerWitness.v
theories/PositionProofs.v
theories/PropsTokenizer.v
theories/CST.v
theories/Parser.v
theories/SpecCST.v
theories/ParserProofs.v
theories/ParserTotal.v
theories/ParserAccepts.v
theories/ParserProofs2.v
theories/ParserLocations.v
theories/DocEnd.v
theories/SpecGrow.v
theories/GrowProofs.v
theories/SpecTree.v
theories/ParserTree.v
theories/ParserWitness.v
theories/SpecNesting.v
theories/ParserDepth.v
theories/PropsParser.v
theories/AST.v
theories/TransformError.v
theories/Transform.v
theories/SpecTransform.v
theories/TransformProofs.v
theories/TransformErrors.v
theories/TransformKinds.v
theories/TransformMeans.v
theories/TransformGrammar.v
theories/TransformIds.v
theories/TransformPanic.v
theories/TransformShape.v
theories/SpecStrip.v
theories/TransformWitness.v
theories/SpecReads.v
theories/TransformReads.v
theories/ReadsProofs.v
theories/ReadsProofs2.v
theories/Relocate.v
theories/StripProofs.v
theories/SpecClose.v
theories/CloseProofs.v
theories/PropsTransformer.v
theories/Plugin.v
theories/Expander.v
theories/Codegen.v
theories/SpecGen.v
theories/PluginProofs.v
theories/ExpanderProofs.v
theories/GenProofs.v
theories/GenPanic.v
theories/PluginSets.v
theories/Compile.v
theories/SpecCompile.v
theories/CompileProofs.v
theories/GenWitness.v
theories/PropsExpander.v
theories/SpecJoin.v
theories/Join.v
theories/Lower.v
theories/JoinProofs.v
theories/JoinOutput.v
theories/SpecRefuse.v
theories/RefuseProofs.v
theories/RefuseCompile.v
theories/PropsCodegen.v
theories/Utf8.v
theories/Framing.v
theories/SpecFraming.v
theories/FramingProofs.v
theories/FramingProofs2.v
theories/FramingWitness.v
theories/SemTok.v
theories/SpecServer.v
theories/SemTokProofs.v
theories/Json.v
theories/SpecJson.v
theories/JsonProofs.v
theories/PropsServer.v
theories/Server.v
theories/SpecLsp.v
theories/Boundaries.v
theories/LspProofs.v
theories/PathProofs.v
theories/LspProofs2.v
theories/LspProofs3.v
theories/LspHistory.v
theories/JsonTotal.v
theories/LspReadable.v
theories/LspWitness.v
theories/LspProofs4.v
theories/LspProofs5.v
theories/PropsLsp.v
theories/Serde.v
theories/SpecSerde.v
theories/SerdeProofs.v
theories/HeightProofs.v
theories/ExchangeProofs.v
theories/PropsSerde.v
theories/Sha256.v
theories/Project.v
theories/SpecProject.v
theories/ProjectProofs.v
theories/CacheProofs.v
theories/DownloadProofs.v
theories/DownloadProofs2.v
theories/AddProofs.v
theories/AddProofs2.v
theories/Utf8Proofs.v
theories/BuildProofs.v
theories/Cli.v
theories/CliProofs.v
theories/CliProofs2.v
theories/ProjectMore.v
theories/CliMore.v
theories/Toml.v
theories/TomlProofs.v
theories/TomlNew.v
theories/TomlWf.v
theories/SpecCli.v
theories/RegexProofs.v
theories/WitnessProject.v
theories/PropsProject.v
theories/Show.v
theories/ShowProofs.v
theories/ShowProofs2.v
theories/PropsCli.v
theories/Args.v
theories/SpecArgs.v
theories/ArgsProofs.v
theories/ArgsMore.v
theories/ArgsHelp.v
theories/PropsArgs.v
theories/Kinds.v
theories/RepoTests.v
theories/SpecShow.v
theories/Display.v
theories/DisplayProofs.v
theories/PropsShow.v
theories/ParserReach.v
theories/PropsNesting.v
theories/SpecBuild.v
theories/BuildSays.v
theories/PropsBuild.v
