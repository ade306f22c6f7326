-Q theories Verif
theories/Base.v
theories/BaseFacts.v
theories/Table.v
theories/BuiltinTables.v
theories/CleanString.v
theories/CleanUtf8.v
theories/TableSpec.v
theories/TableProofs.v
theories/CleanSpec.v
theories/Filter.v
theories/Stdio.v
theories/Prog.v
theories/ProgFacts.v
theories/Warnings.v
theories/CleanStringProofs.v
theories/Utf8Spec.v
theories/CleanUtf8Proofs.v
theories/Spoof.v
theories/SequenceSpec.v
theories/SequenceProofs.v
theories/WarningsProofs.v
theories/WarningsSpec.v
theories/WarningsProofs2.v
theories/WarningsProofs3.v
theories/WarningsProofs4.v
theories/PropWarnings.v
theories/Filelist.v
theories/File.v
theories/FS.v
theories/FileSpec.v
theories/FilelistProofs.v
theories/FileProofs.v
theories/FSProofs.v
theories/WalkProofs.v
theories/FileProofs2.v
theories/Play.v
theories/StdioFacts.v
theories/Inline.v
theories/InlineSpec.v
theories/InlineProofs.v
theories/ParseTable.v
theories/TableFiles.v
theories/ParseTableSpec.v
theories/ParseTableProofs.v
theories/TableFileSpec.v
theories/TableFileProofs.v
theories/ConfigLex.v
theories/ConfigParse.v
theories/ConfigSpec.v
theories/ConfigLexProofs.v
theories/ConfigLayoutProofs.v
theories/ConfigProofs.v
theories/ConfigFiles.v
theories/ConfigLoad.v
theories/ConfigLoadSpec.v
theories/ConfigLoadProofs.v
theories/Options.v
theories/OptionsSpec.v
theories/OptionsProofs.v
theories/Startup.v
theories/Main.v
theories/StartProofs.v
theories/StartOptions.v
theories/StartSpec.v
theories/StartProofs2.v
theories/StartProofs3.v
theories/StartProofs4.v
theories/StartProofs5.v
theories/PropStart.v
theories/MainSpec.v
theories/MainProofs.v
theories/DumpProofs.v
theories/GenBuiltin.v
theories/GenSpec.v
theories/BuiltinSource.v
theories/GenProofs.v
theories/GenShipped.v
theories/ParserTables.v
theories/FlexScanner.v
theories/FlexProofs.v
theories/FlexRules.v
theories/BisonParser.v
theories/BisonProofs.v
theories/PropTable.v
theories/PropClean.v
theories/PropSequence.v
theories/PropFile.v
theories/PropInline.v
theories/PropParseTable.v
theories/PropTableFile.v
theories/PropConfig.v
theories/PropMain.v
theories/RunSpec.v
theories/RunProofs.v
theories/RunProofs2.v
theories/RunProofs3.v
theories/PropRun.v
theories/TidySpec.v
theories/TidyProofs.v
theories/TidyProofs2.v
theories/TidyProofs3.v
theories/TidyProofs4.v
theories/TidyProofs5.v
theories/TidyProofs6.v
theories/SteadyPlay.v
theories/PropTidy.v
theories/InlineRunSpec.v
theories/InlineRunProofs.v
theories/InlineRunProofs2.v
theories/PropInlineRun.v
theories/PropGen.v
theories/PropGenParser.v
theories/Escape.v
theories/EscapeSpec.v
theories/EscapeProofs.v
theories/EscapeProofs2.v
theories/EscapeProofs3.v
theories/PropEscape.v
theories/CheckTable.v
theories/CheckSpec.v
theories/CheckProofs.v
theories/CheckProofs2.v
theories/PropCheck.v
theories/Mem.v
theories/MemSpec.v
theories/MemFacts.v
theories/CFilters.v
theories/CFiltersProofs.v
theories/CFile.v
theories/CSim.v
theories/CFileProofs.v
theories/CArgumentsProofs.v
theories/CInlineProofs.v
theories/Generated.v
theories/GeneratedProofs.v
theories/CMain.v
theories/StopProofs.v
theories/CMainProofs.v
theories/PropMemory.v
theories/PropGenerated.v
theories/ChainSpec.v
theories/ChainProofs.v
theories/PropChain.v
theories/Words.v
theories/CTable.v
theories/CFilelist.v
theories/WordsSpec.v
theories/WordsFacts.v
theories/CTableProofs.v
theories/CTableProofs2.v
theories/TablesSpec.v
theories/CTableProofs3.v
theories/FilesSpec.v
theories/CFilelistProofs.v
theories/PropTables.v
theories/CParseTable.v
theories/LoadSpec.v
theories/CParseTableProofs.v
theories/CParseTableProofs2.v
theories/PropLoad.v
theories/CConfig.v
theories/LinkedSpec.v
theories/CConfigProofs.v
theories/CConfigProofs2.v
theories/CConfigProofs3.v
theories/CConfigProofs4.v
theories/CConfigProofs5.v
theories/CConfigProofs6.v
theories/CConfigProofs7.v
theories/CConfigProofs8.v
theories/PropLinked.v
theories/CLoad.v
theories/CLoadSpec.v
theories/CLoadProofs.v
theories/CLoadProofs2.v
theories/CLoadProofs3.v
theories/CLoadProofs4.v
theories/CLoadProofs5.v
theories/PropLoading.v
theories/CReview.v
theories/CReviewSpec.v
theories/CReviewProofs.v
theories/CReviewProofs2.v
theories/CReviewProofs3.v
theories/PropReview.v
theories/CRun.v
theories/CRunSpec.v
theories/CRunProofs.v
theories/CRunProofs2.v
theories/CRunProofs3.v
theories/PropSequenceRun.v
theories/CWork.v
theories/CWorkSpec.v
theories/CWorkSim.v
theories/CWorkProofs.v
theories/CWorkProofs2.v
theories/CWorkProofs3.v
theories/PropWork.v
theories/COptions.v
theories/COptionsSpec.v
theories/COptionsProofs.v
theories/PropOptions.v
theories/CDump.v
theories/CDumpProofs.v
theories/CDumpProofs2.v
theories/PropDump.v
theories/CTame.v
theories/CWhole.v
theories/CWholeSpec.v
theories/CWholeProofs.v
theories/CWholeProofs2.v
theories/PropWhole.v
theories/CCheck.v
theories/CCheckSpec.v
theories/CCheckProofs.v
theories/CCheckProofs2.v
theories/CCheckProofs3.v
theories/CCheckProofs4.v
theories/PropCheckMemory.v
theories/GenMain.v
theories/CGenerate.v
theories/CGenerateSpec.v
theories/CGenerateProofs.v
theories/CGenerateProofs2.v
theories/CGenerateProofs3.v
theories/PropGenerateMemory.v
theories/CEscape.v
theories/CEscapeSpec.v
theories/CEscapeProofs.v
theories/CEscapeProofs2.v
theories/PropEscapeMemory.v
theories/SeveralSpec.v
theories/TidyProofs7.v
theories/PropSeveral.v
theories/GrowthSpec.v
theories/GrowthProofs.v
theories/PropGrowth.v
theories/TidyRunSpec.v
theories/TidyProofs8.v
theories/PropTidyRun.v
theories/DrySpec.v
theories/DryProofs.v
theories/PropDry.v
