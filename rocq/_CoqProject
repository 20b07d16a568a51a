-Q theories Verif

theories/Base.v
theories/Json.v
theories/Schema.v
theories/Serialize.v
theories/Registry.v
theories/Import.v
theories/BaseProofs.v
theories/SpecAvro.v
theories/SpecMeaning.v
theories/SpecOrder.v
theories/SerializeProofs.v
theories/MeaningProofs.v
theories/SimProofs.v
theories/SpecDoc.v
theories/DocProofs.v
theories/ProtocolProofs.v
theories/OrderProofs.v
theories/Samples.v
theories/PropSerialize.v
theories/Suggest.v
theories/Refs.v
theories/SpecNames.v
theories/SpecRefs.v
theories/RegistryProofs.v
theories/RefsProofs.v
theories/NameProofs.v
theories/PropRegistry.v
theories/SpecEdit.v
theories/EditProofs.v
theories/SpecSuggest.v
theories/SuggestProofs.v
theories/PropSuggest.v
theories/SpecImport.v
theories/ImportProofs.v
theories/ImportDocProofs.v
theories/RoundTripProofs.v
theories/PropImport.v
theories/Defaults.v
theories/SpecDefaults.v
theories/DefaultsProofs.v
theories/ResolveProofs.v
theories/FixedProofs.v
theories/PropDefaults.v
theories/Literals.v
theories/SpecLiterals.v
theories/LiteralsProofs.v
theories/PropLiterals.v
theories/Doc.v
theories/SpecComment.v
theories/CommentProofs.v
theories/PatternProofs.v
theories/PropComment.v
theories/Syntax.v
theories/Reader.v
theories/SpecReader.v
theories/ReaderProofs.v
theories/TypeProofs.v
theories/DeclProofs.v
theories/FileProofs.v
theories/AnnotProofs.v
theories/AttrProofs.v
theories/SpecFile.v
theories/DenoteProofs.v
theories/ObjectProofs.v
theories/ReadProofs.v
theories/SampleFile.v
theories/PropReader.v
theories/Compile.v
theories/SpecCompile.v
theories/CompileProofs.v
theories/LoadProofs.v
theories/BuildProofs.v
theories/MoveProofs.v
theories/Cli.v
theories/SpecCli.v
theories/CliProofs.v
theories/SampleWorld.v
theories/PropCompile.v
theories/PropCli.v
theories/Diagnose.v
theories/SpecDiagnose.v
theories/DiagnoseProofs.v
theories/PropDiagnose.v
theories/SpecPipeline.v
theories/PipelineProofs.v
theories/PropPipeline.v
theories/Refine.v
theories/SpecRefine.v
theories/RefineProofs.v
theories/SyntaxProofs.v
theories/PropRefine.v
theories/LexerTables.v
theories/Lexer.v
theories/IdlParser.v
theories/SpecLexer.v
theories/LexerProofs.v
theories/ShapeProofs.v
theories/CutProofs.v
theories/SpecGrammar.v
theories/GrammarSound.v
theories/GrammarComplete.v
theories/SpecLayout.v
theories/Canon.v
theories/LayoutProofs.v
theories/SpaceProofs.v
theories/TokenProofs.v
theories/ReadingProofs.v
theories/PropSource.v
theories/ForgetProofs.v
theories/SpecRewrite.v
theories/RewriteProofs.v
theories/PropLayout.v
theories/FloatText.v
theories/SpecFloatText.v
theories/FloatProofs.v
theories/FloatTextProofs.v
theories/SpecJsonText.v
theories/WordProofs.v
theories/JsonTextProofs.v
theories/PropFloat.v
theories/SpecPlaces.v
theories/PlaceProofs.v
theories/WhereProofs.v
theories/PropPlaces.v
theories/Warnings.v
theories/SpecDocText.v
theories/DocTextProofs.v
theories/PropDocText.v
theories/SpecDefects.v
theories/DefectProofs.v
theories/PropDefects.v
theories/Sizes.v
theories/SpecSizes.v
theories/SizeProofs.v
theories/JsonFile.v
theories/SpecJsonFile.v
theories/JsonStripProofs.v
theories/JsonReadProofs.v
theories/JsonWriteProofs.v
theories/PropJsonFile.v
theories/SpecBlame.v
theories/BlameProofs.v
theories/OddProofs.v
theories/PropBlame.v
theories/SpecExpand.v
theories/ExpandProofs.v
theories/PropExpand.v
theories/SpecSpelling.v
theories/SpellingProofs.v
theories/PropSpelling.v
theories/SpecLenient.v
theories/LenientProofs.v
theories/AcceptProofs.v
theories/PropLenient.v
theories/SpecStatements.v
theories/StatementProofs.v
theories/PropStatements.v
theories/SpecDefaultErrors.v
theories/DefaultErrorProofs.v
theories/PropDefaultErrors.v
theories/SpecWords.v
theories/KindWordProofs.v
theories/PropKindWords.v
theories/SpecReimport.v
theories/ReimportProofs.v
theories/ReimportMessageProofs.v
theories/PropReimport.v
theories/TidyProofs.v
theories/TidySourceProofs.v
theories/SpecSaved.v
theories/PropSaved.v
theories/SpecLocal.v
theories/LocalProofs.v
theories/PropLocal.v
theories/SpecNaming.v
theories/NamingProofs.v
theories/PropNaming.v
theories/SpecAgree.v
theories/AgreeProofs.v
theories/PropAgree.v
theories/SpecFrame.v
theories/FrameProofs.v
theories/PropFrame.v
theories/SpecTyped.v
theories/TypedProofs.v
theories/PropTyped.v
theories/SpecUnder.v
theories/UnderProofs.v
theories/PropUnder.v
theories/PropHint.v
theories/PropSizes.v
