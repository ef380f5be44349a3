-Q theories Verif
theories/Num.v
theories/Py.v
theories/Tensor.v
theories/TF.v
theories/Ops.v
theories/Types.v
theories/Loss.v
theories/Reader.v
theories/PitfOps.v
theories/DataGen.v
theories/Fact.v
theories/Train.v
theories/TensorFacts.v
theories/Sums.v
theories/TFFacts.v
theories/Spec.v
theories/SpecR.v
theories/LayoutFacts.v
theories/PropsLayout.v
theories/EinsumFacts.v
theories/SpecFacts.v
theories/MulFacts.v
theories/KronFacts.v
theories/KronAlg.v
theories/TtmFacts.v
theories/SkipFacts.v
theories/RSums.v
theories/MatR.v
theories/NormFacts.v
theories/XcbFacts.v
theories/OpsLemmas.v
theories/PropsOps.v
theories/TtmOrder.v
theories/TtmLemmas.v
theories/PropsTtm.v
theories/Matricize.v
theories/SpecTypes.v
theories/TypeFacts.v
theories/PropsTypes.v
theories/LossFacts.v
theories/SpecReader.v
theories/ReaderFacts.v
theories/PropsLoss.v
theories/PropsReader.v
theories/SpecTrain.v
theories/TrainFacts.v
theories/TrainLemmas.v
theories/TrainWit.v
theories/PropsTrain.v
theories/SpecBcu.v
theories/BcuFacts.v
theories/PropsBcu.v
theories/SpecPitf.v
theories/PitfFacts.v
theories/DataFacts.v
theories/PropsPitf.v
theories/PitfGraph.v
theories/SpecPitfSched.v
theories/SchedPitf.v
theories/PropsPitfSched.v
theories/SpecFix.v
theories/FixFacts.v
theories/FixEx.v
theories/PropsFix.v
theories/LimFacts.v
theories/LimLemmas.v
theories/LimEx.v
theories/PropsLim.v
theories/Csv.v
theories/SpecCsv.v
theories/CsvFacts.v
theories/CsvLemmas.v
theories/PropsCsv.v
theories/TProg.v
theories/SpecRound.v
theories/FloatFacts.v
theories/ParamFacts.v
theories/RoundFacts.v
theories/PropsRound.v
theories/SpecScale.v
theories/ScaleFacts.v
theories/ScaleAls.v
theories/ScaleBcu.v
theories/ScaleNt.v
theories/ScaleEx.v
theories/ScaleWit.v
theories/PropsScale.v
theories/Process.v
theories/SpecProc.v
theories/ProcFacts.v
theories/ProcEx.v
theories/PropsProc.v
theories/SpecTest.v
theories/TestFacts.v
theories/PropsTest.v
theories/DocFacts.v
theories/PropsDoc.v
theories/SpecSym.v
theories/SymFacts.v
theories/SymTrain.v
theories/SymBcu.v
theories/PropsSym.v
theories/SpecGauge.v
theories/GaugeAlg.v
theories/GaugeFacts.v
theories/GaugeRun.v
theories/GaugeEx.v
theories/GaugeUnits.v
theories/PropsGauge.v
theories/SpecTucker.v
theories/MultiR.v
theories/SvdFacts.v
theories/TuckerFacts.v
theories/TuckerRun.v
theories/TuckerLemmas.v
theories/MaxR.v
theories/Spectral.v
theories/SvdExists.v
theories/SpecCp.v
theories/CpFacts.v
theories/AlsFacts.v
theories/AlsLemmas.v
theories/ZeroWit.v
theories/PropsAls.v
theories/PropsTucker.v
theories/SpecProx.v
theories/Prox.v
theories/NcpFacts.v
theories/NcpLemmas.v
theories/NtFacts.v
theories/NtLemmas.v
theories/Order14.v
theories/SpectralExists.v
theories/NonZero.v
theories/PropsProx.v
theories/PropsNt.v
theories/Sched.v
theories/SchedFacts.v
theories/Graphs.v
theories/SpecSched.v
theories/SchedLists.v
theories/SchedCp.v
theories/SchedHooi.v
theories/SchedNcp.v
theories/SchedNt.v
theories/SchedBcu.v
theories/SchedLemmas.v
theories/PropsSched.v
theories/SpecRetry.v
theories/RetryWit.v
theories/Retry.v
theories/Exact.v
theories/ExactEx.v
theories/PropsRetry.v
theories/QuasiOpt.v
theories/QuasiEx.v
theories/PropsQuasi.v
theories/SpecData.v
theories/DataRecover.v
theories/RankOne.v
theories/SynthEx.v
theories/PropsSynth.v
theories/SpecInit.v
theories/InitFacts.v
theories/InitEx.v
theories/PropsInit.v
theories/SpecRecover.v
theories/NucFacts.v
theories/ShrinkFacts.v
theories/RecoverFacts.v
theories/DualAscent.v
theories/ConvFacts.v
theories/RecoverEx.v
theories/PitfMore.v
theories/MoreFacts.v
theories/PropsRecover.v
theories/TermFacts.v
theories/PropsTerm.v
theories/SpecKkt.v
theories/KktFacts.v
theories/PropsKkt.v
theories/SpecSlice.v
theories/SliceFacts.v
theories/SliceEx.v
theories/PropsSlice.v
theories/SpecOrder.v
theories/OrderAlg.v
theories/OrderTrain.v
theories/OrderBcu.v
theories/PropsOrder.v
theories/SpecDef.v
theories/DefFacts.v
theories/DefSteps.v
theories/DefTrain.v
theories/DefBcu.v
theories/DefAls.v
theories/DefCp.v
theories/SpecCut.v
theories/CutFacts.v
theories/CutWit.v
theories/PropsCut.v
theories/PropsDef.v
theories/SpecModes.v
theories/ModesFacts.v
theories/ModesWit.v
theories/PropsModes.v
theories/Provide.v
theories/SpecProvide.v
theories/ProvideFacts.v
theories/PropsProvide.v
theories/SpecRatings.v
theories/RatingFacts.v
theories/RatingWit.v
theories/PropsRatings.v
theories/SpecRot.v
theories/RotFacts.v
theories/RotRun.v
theories/RotWit.v
theories/PropsRot.v
theories/Experiment.v
theories/SpecExp.v
theories/ExpFacts.v
theories/ExpRun.v
theories/ExpWit.v
theories/PropsExp.v
theories/SpecTrunc.v
theories/TruncFacts.v
theories/TruncWit.v
theories/PropsTrunc.v
theories/Demo.v
theories/DemoRun.v
theories/PropsDemo.v
