-Q theories Verif
theories/ModelRust.v
theories/ModelF64.v
theories/ModelEnv.v
theories/ModelRegisters.v
theories/ModelEncoding.v
theories/ModelLog.v
theories/ModelConstants.v
theories/ModelCommon.v
theories/ModelPF.v
theories/ModelPlus.v
theories/ModelSerde.v
theories/ModelHistory.v
theories/ModelTests.v
theories/Spec.v
theories/BitFacts.v
theories/RegFacts.v
theories/EncFacts.v
theories/CodeFacts.v
theories/MergeFacts.v
theories/AbsorbFacts.v
theories/IntervalZ.v
theories/F64Facts.v
theories/SpecReal.v
theories/SpecCount.v
theories/SpecBuild.v
theories/BsFacts.v
theories/RawFacts.v
theories/BiasTables.v
theories/BiasFacts.v
theories/BiasMono.v
theories/LogFacts.v
theories/LogConst.v
theories/LogPoly.v
theories/LogAccuracy.v
theories/LinearFacts.v
theories/SerdeFacts.v
theories/PFInv.v
theories/PlusInv.v
theories/FloatFacts.v
theories/PFFloat.v
theories/PFExact.v
theories/ObsFacts.v
theories/ClaimFacts.v
theories/CountFacts.v
theories/ClaimFloat.v
theories/NarrowFacts.v
theories/MonoFacts.v
theories/PlusMono.v
theories/Witness.v
theories/SpecSerde.v
theories/SerdeSpec.v
theories/PropertiesSerde.v
theories/RefuteFacts.v
theories/SparseFacts.v
theories/ClaimRefute.v
theories/PropertiesState.v
theories/PropertiesWords.v
theories/PropertiesFloat.v
theories/PropertiesRefuted.v
theories/ModelError.v
theories/SpecDist.v
theories/SpecSketch.v
theories/DistFacts.v
theories/CodeDist.v
theories/ClaimDist.v
theories/ExtremeFacts.v
theories/PropertiesDist.v
theories/SpecProb.v
theories/ProbFacts.v
theories/MomentFacts.v
theories/HarmonicNum.v
theories/HarmonicMean.v
theories/AccFacts.v
theories/AccSmall.v
theories/AccOver.v
theories/PropertiesProb.v
theories/MeanTable.v
theories/MeanRows.v
theories/MeanSlope.v
theories/BiasCheck.v
theories/BiasSound.v
theories/AccMid.v
theories/BiasRun.v
theories/AccRange.v
theories/PFCheck.v
theories/AccMidPF.v
theories/SpecTable.v
theories/EntryCheck.v
theories/SpecRust.v
theories/RustFacts.v
theories/RustFloat.v
theories/LiteralFacts.v
theories/TableGrid.v
theories/PropertiesMid.v
theories/SandwichFacts.v
theories/PropertiesBound.v
theories/SpecBytes.v
theories/DecodeFacts.v
theories/DecodeState.v
theories/UntidyFacts.v
theories/DecodeClaim.v
theories/PropertiesDecode.v
theories/SpecStored.v
theories/StoredFacts.v
theories/StoredCodes.v
theories/StoredOps.v
theories/StoredRelease.v
theories/StoredClaim.v
theories/PropertiesStored.v
theories/SpecFree.v
theories/FreeFacts.v
theories/FreeOps.v
theories/PropertiesFree.v
theories/PropertiesRust.v
theories/SpecWide.v
theories/WideFacts.v
theories/SpecFlush.v
theories/FlushFacts.v
theories/PropertiesWide.v
theories/PropertiesFlush.v
theories/NegFacts.v
theories/ChernoffFacts.v
theories/TailFacts.v
theories/TailLarge.v
theories/OccFacts.v
theories/TailSmall.v
theories/TailMid.v
theories/PropertiesTail.v
theories/SpecMean.v
theories/RiskCore.v
theories/RiskFacts.v
theories/RiskPF.v
theories/RiskLinear.v
theories/BiasLow.v
theories/RiskMid.v
theories/RiskMidPF.v
theories/PropertiesMean.v
theories/ModelEval.v
theories/SpecEval.v
theories/EvalFacts.v
theories/PropertiesEval.v
theories/SpecSmall.v
theories/SmallFacts.v
theories/PropertiesSmall.v
theories/ModelFiles.v
theories/SpecFiles.v
theories/TextFacts.v
theories/PathFacts.v
theories/PoolFacts.v
theories/FilesFacts.v
theories/FilesMain.v
theories/FilesExample.v
theories/PropertiesFiles.v
theories/ModelArgs.v
theories/FilesArgs.v
theories/PropertiesArgs.v
theories/ModelFormat.v
theories/SpecFormat.v
theories/FormatFacts.v
theories/PropertiesFormat.v
theories/LowerFacts.v
theories/PropertiesCompare.v
theories/ModelExp.v
theories/SpecExp.v
theories/ExpFacts.v
theories/ExpStats.v
theories/ExpMain.v
theories/PropertiesExp.v
theories/ModelBench.v
theories/SpecBench.v
theories/BenchFacts.v
theories/BenchSparse.v
theories/BenchFloat.v
theories/PropertiesBench.v
theories/ModelJson.v
theories/SpecJson.v
theories/JsonGrammar.v
theories/JsonRead.v
theories/JsonFacts.v
theories/JsonClaim.v
theories/PropertiesJson.v
theories/ModelDebug.v
theories/SpecDebug.v
theories/DebugFacts.v
theories/DebugLines.v
theories/DebugClaim.v
theories/PropertiesDebug.v
theories/SpecPositions.v
theories/PositionsFacts.v
theories/PropertiesPositions.v
theories/ModelCost.v
theories/SpecCost.v
theories/CostFacts.v
theories/CostState.v
theories/CostClaim.v
theories/PropertiesCost.v
theories/SpecFresh.v
theories/FreshFacts.v
theories/ChangeFacts.v
theories/PropertiesFresh.v
theories/ModelUnwind.v
theories/SpecUnwind.v
theories/UnwindFacts.v
theories/UnwindClaim.v
theories/UnwindWitness.v
theories/PropertiesUnwind.v
theories/SpecTally.v
theories/TallyFacts.v
theories/PropertiesTally.v
theories/SpecUnion.v
theories/UnionFacts.v
theories/PropertiesUnion.v
theories/SpecSize.v
theories/SizeFacts.v
theories/PropertiesSize.v
theories/SpecGap.v
theories/GapFacts.v
theories/PropertiesGap.v
theories/ModelStats.v
theories/SpecStats.v
theories/StatsFacts.v
theories/MedianFacts.v
theories/PropertiesStats.v
theories/ModelCommand.v
theories/SpecCommand.v
theories/CommandFacts.v
theories/CommandPipeline.v
theories/PropertiesCommand.v
theories/CommandFirst.v
theories/PropertiesFirst.v
theories/ModelPlot.v
theories/SpecPlot.v
theories/PlotFacts.v
theories/PropertiesPlot.v
theories/ExactFacts.v
theories/PropertiesExact.v
theories/SpecPoints.v
theories/PlotFirst.v
theories/PropertiesPoints.v
theories/OrderFacts.v
theories/PropertiesOrder.v
