-Q theories Verif
theories/Base.v
theories/LexerModel.v
theories/LexerSpec.v
theories/LogParserModel.v
theories/EventSpec.v
theories/StreamModel.v
theories/LexerProofs.v
theories/StreamProofs.v
theories/LogParserProofs.v
theories/EventProofs.v
theories/Toy.v
theories/ToyTs.v
theories/RegexModel.v
theories/RegexSpec.v
theories/RegexProofs.v
theories/RegexLang.v
theories/DfaModel.v
theories/DfaProofs.v
theories/DfaExact.v
theories/PropertiesLexer.v
theories/PropertiesEvents.v
theories/EventExact.v
theories/PropertiesRegex.v
theories/DfaOrder.v
theories/PropertiesRegexExact.v
theories/SchemaModel.v
theories/SchemaProofs.v
theories/SchemaPaths.v
theories/SchemaUsable.v
theories/SchemaSpec.v
theories/SchemaWords.v
theories/PropertiesSchema.v
theories/PropertiesEventsExact.v
theories/SchemaExamples.v
theories/RegisterModel.v
theories/RegisterSpec.v
theories/RegisterProofs.v
theories/TokenModel.v
theories/SchemaActions.v
theories/PropertiesUtil.v
theories/IntervalTreeModel.v
theories/IntervalTreeProofs.v
theories/SchemaEditModel.v
theories/PropertiesContainers.v
theories/RingModel.v
theories/RingSpec.v
theories/RingProofs.v
theories/PropertiesRing.v
theories/StringReader.v
theories/FuelMono.v
theories/ViewModel.v
theories/ReaderSpec.v
theories/ViewSim.v
theories/LineBound.v
theories/WindowBound.v
theories/ReaderProofs.v
theories/ReaderFits.v
theories/PropertiesReader.v
theories/EventMatch.v
theories/ReaderStuck.v
theories/ReaderWrong.v
theories/PropertiesReaderBugs.v
theories/FlatSim.v
theories/FeedSpec.v
theories/FeedProofs.v
theories/FeedRuns.v
theories/PropertiesFeed.v
theories/CopyModel.v
theories/CopyProofs.v
theories/PropertiesCopy.v
theories/OrdSet.v
theories/GrammarSpec.v
theories/FirstModel.v
theories/FirstProofs.v
theories/LrModel.v
theories/SchemaGrammar.v
theories/LrSets.v
theories/LrTable.v
theories/ParseSpec.v
theories/LrDriver.v
theories/LrSound.v
theories/LrParse.v
theories/LrLookahead.v
theories/LrComplete.v
theories/LrMain.v
theories/LrSafe.v
theories/SchemaTable.v
theories/SchemaSafe.v
theories/PropertiesLalr.v
theories/SchemaRules.v
theories/SchemaSyntax.v
theories/SchemaReads.v
theories/SchemaMeaning.v
theories/LrRoom.v
theories/SchemaLexer.v
theories/SchemaSplit.v
theories/SchemaRoom.v
theories/PropertiesSchemaText.v
theories/PieceSpec.v
theories/PieceSim.v
theories/PieceStart.v
theories/PropertiesPieces.v
theories/SchemaLines.v
theories/SchemaOrigin.v
theories/PropertiesSchemaRuns.v
theories/WildcardModel.v
theories/WildcardProofs.v
theories/PropertiesWildcard.v
theories/LrCount.v
theories/SchemaHistory.v
theories/PropertiesSchemaHistory.v
theories/LrReport.v
theories/ReportModel.v
theories/ReportProofs.v
theories/SchemaReport.v
theories/PropertiesReport.v
theories/FileModel.v
theories/FileLex.v
theories/FileParse.v
theories/SchemaFile.v
theories/FileMultiple.v
theories/PropertiesFile.v
theories/SerializeModel.v
theories/SerializeProofs.v
theories/PropertiesSerialize.v
theories/AstModel.v
theories/AstProofs.v
theories/PropertiesAst.v
theories/ReaderErrors.v
theories/ReaderAnswers.v
theories/PropertiesAnswers.v
theories/LineModel.v
theories/LineSpec.v
theories/LineProofs.v
theories/LineTexts.v
theories/PropertiesLines.v
theories/QuoteProofs.v
theories/PropertiesQuote.v
theories/PropertiesMessage.v
theories/EdgeProofs.v
theories/PropertiesEdge.v
theories/EventLines.v
theories/PropertiesEventLines.v
theories/PropertiesCopyExact.v
theories/ReaderLost.v
theories/PropertiesReaderLost.v
theories/GrammarCalls.v
theories/PropertiesGrammar.v
theories/LrTerm.v
theories/LrOutcome.v
theories/PropertiesGenerate.v
theories/LrSpec.v
theories/LrValid.v
theories/PropertiesLr1.v
