-Q theories Verif
theories/GoStr.v
theories/GoStrFacts.v
theories/GoQuote.v
theories/QuoteSpec.v
theories/GoQuoteFacts.v
theories/PluralModel.v
theories/PluralSpec.v
theories/PluralLexFacts.v
theories/PluralParseFacts.v
theories/PluralEvalFacts.v
theories/PluralTextFacts.v
theories/PluralCSpec.v
theories/PluralCFacts.v
theories/GoMap.v
theories/GoMapFacts.v
theories/GoRegex.v
theories/GoRegexFacts.v
theories/FileModel.v
theories/FileSpec.v
theories/FormsFacts.v
theories/FileFacts.v
theories/GoFmt.v
theories/FmtSpec.v
theories/GoFmtFacts.v
theories/FormatFacts.v
theories/FmtTextSpec.v
theories/FmtTextFacts.v
theories/SliceModel.v
theories/SliceFacts.v
theories/TrimFacts.v
theories/WrapModel.v
theories/WrapSpec.v
theories/WrapFacts.v
theories/PoModel.v
theories/PoSpec.v
theories/PoReadFacts.v
theories/SortFacts.v
theories/PoSameFacts.v
theories/PoWriteFacts.v
theories/PoCatalogFacts.v
theories/PoAnySpec.v
theories/PoAnyFacts.v
theories/OrderSpec.v
theories/OrderFacts.v
theories/PropertiesOrder.v
theories/MoModel.v
theories/MoSpec.v
theories/MoFacts.v
theories/MoCatalogFacts.v
theories/MoAnySpec.v
theories/MoAnyFacts.v
theories/TransModel.v
theories/TransSpec.v
theories/TransFacts.v
theories/TransFrameFacts.v
theories/TransViewFacts.v
theories/TransLoadFacts.v
theories/GlobalModel.v
theories/TagModel.v
theories/TagFacts.v
theories/DeployFacts.v
theories/FsModel.v
theories/FsSpec.v
theories/FsFacts.v
theories/PropertiesPlural.v
theories/PropertiesQuote.v
theories/PropertiesFile.v
theories/PropertiesFmt.v
theories/PropertiesPo.v
theories/PropertiesWrap.v
theories/PropertiesPoAny.v
theories/MoCutFacts.v
theories/PropertiesMo.v
theories/PropertiesMoAny.v
theories/PropertiesTrans.v
theories/PropertiesGlobal.v
theories/PropertiesFs.v
theories/ErrModel.v
theories/ErrSpec.v
theories/ErrFacts.v
theories/WrapsSpec.v
theories/WrapsFacts.v
theories/PropertiesErr.v
theories/BlankSpec.v
theories/BlankFacts.v
theories/XtModel.v
theories/XtSpec.v
theories/XtKeyFacts.v
theories/XtFacts.v
theories/XtMergeFacts.v
theories/XtRunFacts.v
theories/XtPanicFacts.v
theories/PropertiesXt.v
theories/LitSpec.v
theories/LitFacts.v
theories/PoGramSpec.v
theories/PoGramFacts.v
theories/PropertiesGram.v
theories/CStrSpec.v
theories/PoOutFacts.v
theories/CStrFacts.v
theories/PoLoadFacts.v
theories/PropertiesOut.v
theories/PropertiesLines.v
theories/PropertiesUsage.v
theories/WrapSliceModel.v
theories/PropertiesWrapSlice.v
theories/ConcModel.v
theories/ConcSpec.v
theories/ConcFacts.v
theories/TransQuietFacts.v
theories/PropertiesConc.v
theories/WriteModel.v
theories/WriteSpec.v
theories/WriteFacts.v
theories/MainModel.v
theories/MainSpec.v
theories/MainFacts.v
theories/PropertiesMain.v
theories/XtRepSpec.v
theories/XtRepFacts.v
theories/XtOrderFacts.v
theories/PropertiesXtRep.v
theories/XtBagFacts.v
theories/PropertiesXtBag.v
theories/PropertiesWrite.v
theories/LocaleModel.v
theories/LocaleSpec.v
theories/LocaleFacts.v
theories/PropertiesLocale.v
theories/FlowSpec.v
theories/PropertiesFlow.v
theories/PoErrModel.v
theories/PoErrSpec.v
theories/PoErrFacts.v
theories/PropertiesPoErr.v
theories/MoErrModel.v
theories/MoErrSpec.v
theories/MoErrFacts.v
theories/MoMemFacts.v
theories/PropertiesMoErr.v
theories/MoTotalFacts.v
theories/PropertiesMoTotal.v
theories/HandleConcModel.v
theories/HandleConcSpec.v
theories/HandleConcFacts.v
theories/HandleCallFacts.v
theories/HandleRunFacts.v
theories/PropertiesHandleConc.v
theories/XtErrModel.v
theories/XtErrSpec.v
theories/XtErrFacts.v
theories/XtErrKeyFacts.v
theories/XtErrRunFacts.v
theories/PropertiesXtErr.v
theories/XtUsageModel.v
theories/XtUsageSpec.v
theories/XtUsageFacts.v
theories/XtLangModel.v
theories/XtLangSpec.v
theories/XtLangFacts.v
theories/PropertiesXtLang.v
theories/PropertiesXtAsk.v
theories/AtnModel.v
theories/AtnSpec.v
theories/AtnFacts.v
theories/AtnLexFacts.v
theories/AtnParseFacts.v
theories/PropertiesAtn.v
theories/GenModel.v
theories/GenSpec.v
theories/GenFacts.v
theories/PropertiesGen.v
theories/TraceModel.v
theories/TraceSpec.v
theories/TraceFacts.v
theories/PropertiesTrace.v
theories/XtDebugModel.v
theories/XtDebugSpec.v
theories/XtDebugFacts.v
theories/XtDebugRunFacts.v
theories/PropertiesXtDebug.v
theories/PropertiesXtDebugLang.v
theories/EntryModel.v
theories/EntrySpec.v
theories/EntryFacts.v
theories/EntryRunFacts.v
theories/PropertiesEntry.v
theories/ZeroModel.v
theories/ZeroSpec.v
theories/ZeroFacts.v
theories/ZeroRunFacts.v
theories/PropertiesZero.v
theories/EvalErrModel.v
theories/EvalErrSpec.v
theories/EvalErrFacts.v
theories/PropertiesEvalErr.v
theories/ArgsModel.v
theories/ArgsSpec.v
theories/ArgsFacts.v
theories/PropertiesArgs.v
theories/AgreeSpec.v
theories/AgreeFacts.v
theories/PropertiesAgree.v
theories/MarkSpec.v
theories/MarkFacts.v
theories/PropertiesMark.v
theories/AnySpec.v
theories/AnyFacts.v
theories/PropertiesAny.v
theories/NilModel.v
theories/NilSpec.v
theories/NilFacts.v
theories/NilLoadFacts.v
theories/PropertiesNil.v
theories/RepoTests.v
theories/GoTests.v
theories/MoLoadFacts.v
theories/PropertiesMoLoad.v
theories/CatModel.v
theories/CatSpec.v
theories/CatFacts.v
theories/CatRunFacts.v
theories/PropertiesCat.v
theories/ConvSpec.v
theories/ConvFacts.v
theories/PropertiesConv.v
theories/RulesSpec.v
theories/RulesFacts.v
theories/PropertiesRules.v
theories/ServeSpec.v
theories/PropertiesServe.v
theories/HandleRaceSpec.v
theories/HandleRaceFacts.v
theories/HandleClashFacts.v
theories/HandleAnswerFacts.v
theories/HandleAnswerRunFacts.v
theories/HandleTurnFacts.v
theories/PropertiesRace.v
theories/ShareModel.v
theories/ShareSpec.v
theories/ShareFacts.v
theories/ShareRunFacts.v
theories/PropertiesShare.v
theories/CtxModel.v
theories/CtxSpec.v
theories/CtxFacts.v
theories/PropertiesCtx.v
theories/PropertiesMost.v
theories/HistSpec.v
theories/HistFacts.v
theories/PropertiesHist.v
theories/CutSpec.v
theories/CutFacts.v
theories/CutSavedFacts.v
theories/PropertiesCut.v
theories/XtPlainSpec.v
theories/PropertiesXtPlain.v
theories/WrapAnyFacts.v
theories/PropertiesWrapAny.v
theories/PropertiesWrapApart.v
theories/PropertiesLang.v
