-Q theories Verif

theories/Bytes.v
theories/BytesProofs.v
theories/Json.v
theories/JsonProofs.v
theories/Slog.v
theories/SpecLog.v
theories/SpecFlash.v
theories/SlogProofs.v
theories/Flash.v
theories/EscapeProofs.v
theories/PropFlashEscape.v
theories/TextProofs.v
theories/FlashProofs.v
theories/FlashRecord.v
theories/FlashLaws.v
theories/FlashCompose.v
theories/Samples.v
theories/PropFlashRecord.v
theories/FlashConfig.v
theories/ConfigProofs.v
theories/PropFlashConfig.v
theories/GoQuote.v
theories/SpecText.v
theories/QuoteProofs.v
theories/SpecSloggy.v
theories/Sloggy.v
theories/SloggyProofs.v
theories/SloggyHandler.v
theories/SloggyMeaning.v
theories/SloggyLaws.v
theories/SloggyAgree.v
theories/PropSloggyQuote.v
theories/PropSloggyRecord.v
theories/Slices.v
theories/History.v
theories/FlashHeap.v
theories/FlashDerive.v
theories/FlashHom.v
theories/HistoryProofs.v
theories/FlashHeapProofs.v
theories/GroupSlices.v
theories/SloggyHeap.v
theories/SloggyHeapProofs.v
theories/Told.v
theories/PropDerive.v
theories/FlashConc.v
theories/FlashConcProofs.v
theories/FlashConcLog.v
theories/FlashConcCall.v
theories/FlashConcRun.v
theories/SloggyConc.v
theories/SloggyConcProofs.v
theories/PropConcurrent.v
theories/Replace.v
theories/PropReplace.v
theories/Regex.v
theories/RegexProofs.v
theories/Gin.v
theories/GinProofs.v
theories/PropGin.v
theories/FieldCounter.v
theories/SpecFields.v
theories/FieldProofs.v
theories/FieldGrammar.v
theories/FieldInput.v
theories/PropFields.v
theories/GoSort.v
theories/Warnings.v
theories/PropWarnings.v
theories/WarnParser.v
theories/RegexFirst.v
theories/WarnLines.v
theories/SpecReport.v
theories/WarnRoundTrip.v
theories/WarnEffects.v
theories/PropReport.v
theories/PropMerge.v
theories/PropText.v
theories/Bench.v
theories/BenchLines.v
theories/SpecBench.v
theories/SpecBenchText.v
theories/PropBench.v
theories/PropBenchText.v
theories/PropTags.v
theories/Num.v
theories/NumProofs.v
theories/Scoring.v
theories/PropRange.v
theories/PropAverage.v
theories/SpecScore.v
theories/ScoreProofs.v
theories/PropScore.v
theories/WarnInv.v
theories/PropWarnScore.v
theories/Enums.v
theories/Keepers.v
theories/PropKeepers.v
theories/PropEnums.v
theories/CountWriter.v
theories/PropCount.v
theories/Chart.v
theories/PropChart.v
theories/Float.v
theories/FloatProofs.v
theories/PropFloat.v
theories/ReplAttr.v
theories/FlashSim.v
theories/PropReplAttr.v
theories/BenchChecks.v
theories/SpecChecks.v
theories/ChecksProofs.v
theories/ChecksSamples.v
theories/PropFinder.v
theories/PropBigGroup.v
theories/PropVerify.v
theories/LoggingData.v
theories/BenchSuite.v
theories/PropSuite.v
theories/Complex.v
theories/SpecComplex.v
theories/ComplexProofs.v
theories/ComplexRecord.v
theories/PropComplex.v
theories/VerifyChecks.v
theories/VerifyTests.v
theories/VerifyLines.v
theories/SpecVerify.v
theories/VerifyProofs.v
theories/VerifyHandlers.v
theories/PropVerifyTests.v
theories/PropVerifyBlind.v
theories/SlogTest.v
theories/PropSlogTest.v
theories/WarningsMain.v
theories/PropWarningsMain.v
theories/SpecDerive.v
theories/Ledger.v
theories/FlashDeriveProofs.v
theories/PropFlashDerive.v
theories/SloggyDerive.v
theories/SpecSloggyDerive.v
theories/SloggyDeriveProofs.v
theories/PropSloggyDerive.v
theories/PropReplSuites.v
theories/Tabular.v
theories/SpecTabular.v
theories/PropTabular.v
theories/Summary.v
theories/SpecSummary.v
theories/PropSummary.v
theories/Trace.v
theories/PropTrace.v
theories/PropMarks.v
theories/BenchRun.v
theories/PropBenchRun.v
theories/Server.v
theories/PropServer.v
theories/Exhibits.v
theories/PropExhibits.v
