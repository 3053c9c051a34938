-Q theories Verif
theories/Base.v
theories/F64.v
theories/Overlaps.v
theories/OverlapsSpec.v
theories/OverlapsProofs.v
theories/HashValue.v
theories/HashSpec.v
theories/HashProofs.v
theories/RadixSort.v
theories/SortSpec.v
theories/SortProofs.v
theories/ParSortProofs.v
theories/Disk.v
theories/DiskProofs.v
theories/Enumerator.v
theories/EnumSpec.v
theories/EnumProofs.v
theories/Moves.v
theories/MovesProofs.v
theories/HistoryProofs.v
theories/P_Enum.v
theories/P_Basics.v
theories/Profile.v
theories/ProfileSpec.v
theories/ProfileProofs.v
theories/P_Index.v
theories/Brute.v
theories/BruteSpec.v
theories/BruteProofs.v
theories/MotifBfProofs.v
theories/P_Brute.v
theories/TopK.v
theories/TopKSpec.v
theories/TopKProofs.v
theories/P_TopK.v
theories/MotifTopK.v
theories/MotifTopKProofs.v
theories/P_MotifTopK.v
theories/Graph.v
theories/GraphSpec.v
theories/GraphProofs.v
theories/GraphFlagProofs.v
theories/P_Graph.v
theories/Iterator.v
theories/IteratorSpec.v
theories/IteratorProofs.v
theories/IteratorLoop.v
theories/IteratorCalls.v
theories/P_Iterator.v
theories/P_Order.v
theories/F64Arith.v
theories/IteratorSteps.v
theories/IteratorEnd.v
theories/P_Iterator2.v
theories/RSpec.v
theories/Series.v
theories/RealProofs.v
theories/SeriesProofs.v
theories/P_Series.v
theories/FFT.v
theories/DftProofs.v
theories/FFTProofs.v
theories/P_FFT.v
theories/Gauss.v
theories/Collision.v
theories/CollisionSpec.v
theories/CollisionProofs.v
theories/P_Collision.v
theories/Text.v
theories/TextSpec.v
theories/TextForms.v
theories/TextProofs.v
theories/P_Text.v
theories/Alloc.v
theories/AllocProofs.v
theories/P_Alloc.v
theories/Files.v
theories/FilesSpec.v
theories/FilesProofs.v
theories/P_Files.v
theories/Sampling.v
theories/SamplingSpec.v
theories/SamplingProofs.v
theories/P_Sampling.v
theories/Python.v
theories/PythonReal.v
theories/P_Python.v
theories/P_PythonReal.v
theories/EstimateProofs.v
theories/Hashing.v
theories/HashingSpec.v
theories/HashingProofs.v
theories/WidthProofs.v
theories/P_Hashing.v
theories/P_Width.v
theories/GuaranteeSpec.v
theories/GuaranteeProofs.v
theories/GuaranteeTrace.v
theories/P_Guarantee.v
theories/P_Threshold.v
theories/P_Repeats.v
theories/P_Prompt.v
theories/ScheduleSpec.v
theories/P_Schedule.v
theories/PolyZ.v
theories/Erf.v
theories/ErfSpec.v
theories/ErfProofs.v
theories/ErfBound.v
theories/ErfLow.v
theories/ErfAll.v
theories/P_Erf.v
theories/FpOps.v
theories/FloatSeries.v
theories/FloatSpec.v
theories/FloatProofs.v
theories/FloatRoll.v
theories/FloatBound.v
theories/FloatDist.v
theories/FloatDist2.v
theories/FloatThr.v
theories/P_Float.v
theories/FloatZero.v
theories/FloatErr.v
theories/FloatMean.v
theories/P_Float2.v
theories/FloatSd.v
theories/FloatVar.v
theories/FloatSum.v
theories/FloatTerm.v
theories/FloatPair.v
theories/P_Acc2.v
theories/P_Acc.v
theories/AccSpec.v
theories/P_Acc3.v
theories/P_Acc4.v
theories/ChanceSpec.v
theories/ChanceProofs.v
theories/NormalProofs.v
theories/P_Chance.v
theories/RiskSpec.v
theories/RiskProofs.v
theories/P_Risk.v
theories/Main.v
theories/MainSpec.v
theories/MainProofs.v
theories/P_Main.v
theories/EndSpec.v
theories/EndProofs.v
theories/P_End.v
theories/P_End2.v
theories/P_Ties.v
theories/P_Dot.v
theories/ShowSize.v
theories/P_Show.v
theories/StatsSpec.v
theories/P_Stats.v
theories/Powi.v
theories/P_Powi.v
theories/Counts.v
theories/P_Windows.v
theories/P_Limit.v
theories/Quantise.v
theories/P_Quantise.v
theories/FloatHash.v
theories/ProjSpec.v
theories/FloatProj.v
theories/P_Proj.v
theories/FloatProf.v
theories/P_Prof.v
theories/FloatErf.v
theories/FloatErfSpec.v
theories/FloatErfP.v
theories/FloatErfR.v
theories/FloatErfI.v
theories/FloatColl.v
theories/FloatCollP.v
theories/P_Coll64.v
theories/Decimal.v
theories/DecimalSpec.v
theories/DecimalProofs.v
theories/P_Decimal.v
theories/FloatBrute.v
theories/BruteAccSpec.v
theories/P_Brute64.v
theories/P_Acc5.v
theories/FloatWidth.v
theories/FloatWidthP.v
theories/P_Width64.v
theories/FloatRun.v
theories/P_Run64.v
theories/FloatSample.v
theories/P_Seed64.v
theories/P_Avg64.v
theories/FloatStart.v
theories/P_Start.v
theories/FloatMain.v
theories/P_Whole.v
theories/P_Whole2.v
theories/Coin.v
theories/CoinProofs.v
theories/P_Coin.v
theories/P_Coin2.v
theories/Calibrate.v
theories/P_Calibrate.v
theories/P_Calibrate2.v
theories/P_Profile64.v
theories/P_Starts.v
theories/ExactInt.v
theories/P_ExactInt.v
theories/Budget.v
theories/P_Budget.v
theories/P_Own.v
theories/FloatPython.v
theories/P_Python64.v
theories/P_Motifs64.v
theories/P_Flat64.v
theories/FloatBudget.v
theories/P_Budget2.v
theories/FloatAccept.v
theories/P_Accept.v
theories/OverlapsWords.v
theories/P_OverlapsWords.v
theories/P_PythonLimit.v
theories/P_FlatTest.v
