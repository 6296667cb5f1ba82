-Q theories Verif
theories/Base.v
theories/LexUtil.v
theories/LuaLexer.v
theories/CommentLexer.v
theories/Ast.v
theories/LR.v
theories/LuaGrammar.v
theories/LuaTables.v
theories/LuaParser.v
theories/CommentGrammar.v
theories/CommentTables.v
theories/CommentParser.v
theories/Config.v
theories/State.v
theories/Recon.v
theories/WriterBase.v
theories/LuaWriter.v
theories/Formatter.v
theories/FileUtil.v
theories/Cli.v
theories/Lib.v
theories/ConfigSpec.v
theories/ConfigProofs.v
theories/PropertiesConfig.v
theories/FileSpec.v
theories/FileProofs.v
theories/PropertiesFile.v
theories/CliSpec.v
theories/CliProofs.v
theories/PropertiesCli.v
theories/Shipped.v
theories/UtilSpec.v
theories/UtilProofs.v
theories/PropertiesUtil.v
theories/RefuteSpec.v
theories/PropertiesRefuted.v
theories/LRSpec.v
theories/LRProofs.v
theories/ParserProofs.v
theories/PropertiesParser.v
theories/LexSpec.v
theories/LexProofs.v
theories/LexStep.v
theories/LexBack.v
theories/LexLoop.v
theories/PropertiesLex.v
theories/CommentSpec.v
theories/CommentProofs.v
theories/LayoutSpec.v
theories/LayoutProofs.v
theories/LayoutText.v
theories/PropertiesTree.v
theories/RenderSpec.v
theories/WriterFrame.v
theories/GapProofs.v
theories/RenderProofs.v
theories/FormatSpec.v
theories/RenderGeneral.v
theories/ReconProofs.v
theories/FormatProofs.v
theories/PropertiesFormat.v
theories/RenderExact.v
theories/TotalFrame.v
theories/TotalProofs.v
theories/OutcomeProofs.v
theories/TotalSpec.v
theories/TotalResults.v
theories/PropertiesExact.v
theories/OutcomeRange.v
theories/MeasureProofs.v
theories/PropertiesTotal.v
theories/PropertiesPanic.v
theories/ConfigFileSpec.v
theories/ConfigFileProofs.v
theories/PropertiesConfigFile.v
theories/ConfigWholeSpec.v
theories/ConfigWholeProofs.v
theories/PropertiesConfigWhole.v
theories/HintProofs.v
theories/ScanProofs.v
theories/SafeSpec.v
theories/CanonSpec.v
theories/RelexProofs.v
theories/PropertiesPreserve.v
theories/SpanProofs.v
theories/KeepProofs.v
theories/ReconRange.v
theories/RangeSpec.v
theories/RangeProofs.v
theories/PropertiesRange.v
theories/ReparseSpec.v
theories/ReparseFrame.v
theories/ReparseProofs.v
theories/PropertiesReparse.v
theories/PrettySpec.v
theories/PrettyGap.v
theories/PrettyUnique.v
theories/PrettyProofs.v
theories/PropertiesPretty.v
theories/CanonFrame.v
theories/CanonTree.v
theories/CanonProofs.v
theories/PropertiesCanon.v
theories/RangeKeepSpec.v
theories/RangeGap.v
theories/RangeRender.v
theories/RangeTree.v
theories/PropertiesRangeKeep.v
theories/IdemSpec.v
theories/IdemProofs.v
theories/PropertiesIdem.v
theories/BlindFrame.v
theories/BlindGap.v
theories/BlindProofs.v
theories/BlindRange.v
theories/BlindTree.v
theories/WholeSpec.v
theories/WholeProofs.v
theories/PropertiesWhole.v
theories/LuaError.v
theories/ErrorSpec.v
theories/ViableProofs.v
theories/DriveProofs.v
theories/ErrorProofs.v
theories/PropertiesError.v
theories/EbnfSpec.v
theories/EbnfProofs.v
theories/EbnfBack.v
theories/EbnfManual.v
theories/PropertiesSyntax.v
theories/GroupSpec.v
theories/GroupProofs.v
theories/PropertiesGroup.v
theories/SettleSpec.v
theories/SettleGap.v
theories/SettleWalk.v
theories/SettleProds.v
theories/SettleTree.v
theories/SettleAlign.v
theories/SettleHole.v
theories/SettleProofs.v
theories/SettleNeeded.v
theories/PropertiesSettle.v
theories/RerunSpec.v
theories/RerunProofs.v
theories/RerunCases.v
theories/PropertiesRerun.v
theories/Report.v
theories/ReportSpec.v
theories/ReportProofs.v
theories/PropertiesReport.v
theories/LineSpec.v
theories/LineProofs.v
theories/LineTree.v
theories/LineNodes.v
theories/LineProds.v
theories/LineResults.v
theories/PropertiesLine.v
theories/TrailSpec.v
theories/TrailProofs.v
theories/TrailResults.v
theories/TrailNeeded.v
theories/PropertiesTrail.v
theories/OneLineSpec.v
theories/OneLineResults.v
theories/PropertiesOneLine.v
theories/OperatorSpec.v
theories/OperatorResults.v
theories/PropertiesOperator.v
theories/TableSpec.v
theories/TableResults.v
theories/PropertiesTable.v
theories/ListSpec.v
theories/ListResults.v
theories/PropertiesList.v
theories/ConstructSpec.v
theories/ConstructResults.v
theories/PropertiesConstruct.v
theories/OrderSpec.v
theories/OrderResults.v
theories/PropertiesOrder.v
theories/BytesSpec.v
theories/BytesProofs.v
theories/PropertiesBytes.v
theories/WidthSpec.v
theories/WidthProofs.v
theories/PropertiesWidth.v
theories/IdleSpec.v
theories/IdleProofs.v
theories/PropertiesIdle.v
theories/RepoTests.v
