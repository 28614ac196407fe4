-Q theories Verif
theories/PyBase.v
theories/F64.v
theories/Dec.v
theories/Sciprint.v
theories/Spec_Sciprint.v
theories/DecProofs.v
theories/DecRound.v
theories/FormatProofs.v
theories/EstimateProofs.v
theories/DecimalizeProofs.v
theories/ShiftProofs.v
theories/TableProofs.v
theories/FormatTableProofs.v
theories/HeaderProofs.v
theories/ArgsortInst.v
theories/Props_Sciprint.v
theories/F64Lemmas.v
theories/DataSplitter.v
theories/SplitProofs.v
theories/SplitProofs2.v
theories/SplitProofs3.v
theories/SplitProofs4.v
theories/Props_Splitter.v
theories/Num.v
theories/NumOk.v
theories/SumProofs.v
theories/Util.v
theories/ListLemmas.v
theories/UtilProofs.v
theories/UtilProofs2.v
theories/UtilProofs3.v
theories/Props_Util.v
theories/BootUtil.v
theories/BootProofs.v
theories/BootProofs2.v
theories/BootProofs3.v
theories/BootProofs4.v
theories/BootProofs5.v
theories/Props_Boot.v
theories/PerfCurves.v
theories/PerfProofs.v
theories/PerfProofs2.v
theories/Spec_Curves.v
theories/PerfProofs3.v
theories/PerfProofs4.v
theories/PerfProofs5.v
theories/PerfProofs6.v
theories/PerfProofs7.v
theories/PerfProofs8.v
theories/PerfProofs9.v
theories/PerfProofs10.v
theories/CurveBoot.v
theories/CurveProofs.v
theories/CurveProofs2.v
theories/CurveProofs3.v
theories/Props_Curves.v
theories/MLPaper.v
theories/MLProofs.v
theories/MLProofs2.v
theories/MLProofs3.v
theories/MLProofs4.v
theories/Props_MLPaper.v
theories/Classification.v
theories/Checkpoint.v
theories/Regression.v
theories/Benchmark.v
theories/ClassProofs.v
theories/ClassProofs2.v
theories/ClassProofs3.v
theories/ClassProofs4.v
theories/CheckpointProofs.v
theories/RegrProofs.v
theories/ClassProofs5.v
theories/Props_Classification.v
theories/Props_Predict.v
theories/Props_Regression.v
theories/LossTableProofs.v
theories/Props_Tables.v
theories/TableExport.v
theories/ExportProofs.v
theories/Props_Export.v
theories/BenchProofs.v
theories/Props_Benchmark.v
theories/CompareProofs.v
theories/SwapProofs.v
theories/MeanProofs.v
theories/Props_Compare.v
theories/Props_Mean.v
theories/DoublesProofs.v
theories/DoublesProofs2.v
theories/Props_Doubles.v
theories/DoublesProofs3.v
theories/Props_DoublesBench.v
theories/AnyNormalize.v
theories/DoublesProofs4.v
theories/DoublesProofs5.v
theories/Props_DoublesClass.v
theories/CurveProofs4.v
theories/CurveProofs5.v
theories/CurveProofs6.v
theories/CurveProofs7.v
theories/Props_DoublesCurves.v
theories/CurveProofs8.v
theories/Props_DoublesLarge.v
theories/Props_DoublesFull.v
theories/DoublesProofs6.v
theories/Props_DoublesExport.v
theories/AccuracyProofs.v
theories/Props_Accuracy.v
theories/AreaAccuracy.v
theories/Props_AreaAccuracy.v
theories/LossAccuracy.v
theories/Props_LossAccuracy.v
theories/BootAccuracy.v
theories/Props_BootAccuracy.v
theories/Props_Rejects.v
