-Q theories Verif
theories/Num.v
theories/NdArray.v
theories/NdFacts.v
theories/ModelGradients.v
theories/Spec.v
theories/GradFacts.v
theories/SumFacts.v
theories/LapFacts.v
theories/GradProps.v
theories/ModelArakawa.v
theories/ArakawaFacts.v
theories/ArakawaProps.v
theories/PropGradients.v
theories/PropArakawa.v
theories/Cplx.v
theories/DftFacts.v
theories/SpecFourier.v
theories/ModelPoisson.v
theories/PoissonFacts.v
theories/PoissonProps.v
theories/PropPoisson.v
theories/ModelProperties.v
theories/ModelHW.v
theories/ModelBackend.v
theories/SpecHW.v
theories/SpecPlasma.v
theories/HWFacts.v
theories/StepFacts.v
theories/RhsFacts.v
theories/SymFacts.v
theories/HWProps.v
theories/BalanceProps.v
theories/BalanceWit.v
theories/LogProps.v
theories/OdeFacts.v
theories/RkOrder.v
theories/StepProps.v
theories/PropHW.v
theories/ModelSpectral.v
theories/SpecDiag.v
theories/DiagFacts.v
theories/DiagProps.v
theories/PropDiagnostics.v
theories/ModelIO.v
theories/ModelRun.v
theories/SpecIO.v
theories/SpecRun.v
theories/IOFacts.v
theories/BufFacts.v
theories/RunFacts.v
theories/RunFiles.v
theories/RunProps.v
theories/PropsFacts.v
theories/KeepFacts.v
theories/RunFull.v
theories/Run2Props.v
theories/ModelRunHW.v
theories/RunTimes.v
theories/RunMisc.v
theories/RunWit.v
theories/IOProps.v
theories/PropIO.v
theories/RunTop.v
theories/RunExamples.v
theories/RunTop2.v
theories/RunForce.v
theories/SpecRunHW.v
theories/RunHWFacts.v
theories/RunHWProps.v
theories/RunHWCont.v
theories/RunHWSplit.v
theories/RunHWWit.v
theories/RunHWShort.v
theories/RunHWTop.v
theories/ModelDownsample.v
theories/ModelArgs.v
theories/SpecDownsample.v
theories/SpecArgs.v
theories/DsFacts.v
theories/DsProps.v
theories/DsFourier.v
theories/DsField.v
theories/DsEnergy.v
theories/DsTop.v
theories/PropDownsample.v
theories/PropRun.v
theories/PropRunHW.v
theories/ModelInit.v
theories/SpecInit.v
theories/InitFacts.v
theories/InitProps.v
theories/PropInit.v
theories/ModelPlot.v
theories/SpecPlot.v
theories/PlotFacts.v
theories/PlotProps.v
theories/ModelHelpers.v
theories/PlotCases.v
theories/PropPlot.v
theories/SpecHelpers.v
theories/HelpersFacts.v
theories/PropHelpers.v
theories/SpecAttr.v
theories/AttrFacts.v
theories/RunPlot.v
theories/PropRunPlot.v
theories/PhimlFacts.v
theories/PropPhiml.v
theories/SpecCheck.v
theories/CheckFacts.v
theories/PropCheck.v
theories/SpecSets.v
theories/SetsFacts.v
theories/PropSets.v
theories/SpecSmooth.v
theories/SmoothFacts.v
theories/SmoothStencil.v
theories/SmoothBracket.v
theories/WaveFacts.v
theories/SmoothTop.v
theories/PropSmooth.v
theories/SpecRound.v
theories/RoundFacts.v
theories/RoundStencil.v
theories/RoundTop.v
theories/ModelSchemes.v
theories/RoundHW.v
theories/RoundCons.v
theories/PropRound.v
theories/SpecWave.v
theories/WaveHW.v
theories/WaveStab.v
theories/WaveDiff.v
theories/WaveTop.v
theories/WaveNyq.v
theories/ModelDefaults.v
theories/WaveDefaults.v
theories/PropWave.v
theories/SinkProps.v
theories/PropSinks.v
theories/ModelNamespace.v
theories/SpecNamespace.v
theories/NamespaceProps.v
theories/PropNamespace.v
theories/ModelRunEnd.v
theories/NameFacts.v
theories/SpecRunEnd.v
theories/RunEnd.v
theories/PropRunEnd.v
theories/IoExtra.v
theories/PropIoExtra.v
theories/SpecRun2End.v
theories/Run2End.v
theories/Run2Plot.v
theories/PropRun2End.v
theories/OdeExist.v
theories/SpecConv.v
theories/HwExist.v
theories/HwConv.v
theories/PropConv.v
theories/NormFacts.v
theories/SymbolFacts.v
theories/PdeStab.v
theories/SpecPde.v
theories/PdeConv.v
theories/PdeTop.v
theories/PdeRun.v
theories/PropPde.v
theories/SpecDiverge.v
theories/DivergeFacts.v
theories/NanFacts.v
theories/DivergeWit.v
theories/PropDiverge.v
theories/ModelPropArgs.v
theories/SpecNames.v
theories/PropArgFacts.v
theories/NameHW.v
theories/PropNames.v
theories/ModelBench.v
theories/SpecBench.v
theories/BenchFacts.v
theories/PropBench.v
theories/SpecAccount.v
theories/AccountFacts.v
theories/AccountOde.v
theories/AccountProps.v
theories/PropAccount.v
theories/SpecRoundStep.v
theories/RoundReal.v
theories/RoundEval.v
theories/RoundStep.v
theories/RoundProps.v
theories/PropRoundStep.v
theories/ModelPlot64.v
theories/SpecPlot64.v
theories/FloorFacts.v
theories/PlotRound.v
theories/AxisRound.v
theories/PropPlot64.v
theories/PlotEarly.v
theories/ModelImage.v
theories/SpecImage.v
theories/ImageFacts.v
theories/PropImage.v
theories/TestFacts.v
theories/ModelRun64.v
theories/F32Facts.v
theories/SpecRun64.v
theories/Run64Facts.v
theories/Run64Wit.v
theories/PropRun64.v
theories/PiFacts.v
theories/ModelPoisson64.v
theories/SpecPoisson64.v
theories/SymRound.v
theories/PoissonRound.v
theories/FftRegime.v
theories/FftWit.v
theories/PropPoisson64.v
theories/ModelTrace.v
theories/SpecTrace.v
theories/TraceFacts.v
theories/TraceWit.v
theories/PropTrace.v
theories/ModelProps64.v
theories/SpecProps64.v
theories/Props64Facts.v
theories/Props64Diag.v
theories/Props64Sol.v
theories/Props64Wit.v
theories/PropProps64.v
theories/ModelMovie.v
theories/SpecMovie.v
theories/MovieFacts.v
theories/PropMovie.v
theories/SpecMoved.v
theories/MovedFacts.v
theories/MovedRun.v
theories/PropMoved.v
theories/ModelJacobians.v
theories/SpecJacobians.v
theories/JacFacts.v
theories/PropJacobians.v
theories/ModelProfile.v
theories/SpecProfile.v
theories/ProfFacts.v
theories/ProfRun.v
theories/PropProfile.v
theories/TightFacts.v
theories/PropTight.v
theories/SpecIdeal.v
theories/IdealFacts.v
theories/IdealProps.v
theories/PropIdeal.v
theories/FrameFacts.v
theories/PropFrames.v
theories/SpecTrip.v
theories/TripFacts.v
theories/TripDiag.v
theories/PropTrip.v
theories/ModelSingle.v
theories/SpecSingle.v
theories/SingleFacts.v
theories/PropSingle.v
theories/SpecCoupling.v
theories/CouplingFacts.v
theories/PropCoupling.v
theories/SpecZonal.v
theories/ZonalFacts.v
theories/ZonalFlux.v
theories/PropZonal.v
theories/SpecCancel.v
theories/CancelFacts.v
theories/CancelTop.v
theories/PropCancel.v
theories/SpecAdvect.v
theories/AdvectFacts.v
theories/AdvectTop.v
theories/PropAdvect.v
theories/SpecScale.v
theories/ScaleFacts.v
theories/ScaleTop.v
theories/PropScale.v
theories/ModelHeap.v
theories/SpecHeap.v
theories/HeapFacts.v
theories/HeapTop.v
theories/HeapSteps.v
theories/PropHeap.v
theories/SpecTile.v
theories/TileFacts.v
theories/TileTop.v
theories/PropTile.v
theories/SpecTurn.v
theories/TurnFacts.v
theories/TurnTop.v
theories/PropTurn.v
theories/SpecMean.v
theories/MeanFacts.v
theories/PropMean.v
theories/SpecLinear.v
theories/LinearFacts.v
theories/PropLinear.v
theories/SpecOld.v
theories/PropOld.v
theories/SpecReach.v
theories/PropReach.v
theories/SpecTriad.v
theories/TriadFacts.v
theories/PropTriad.v
theories/SpecModes.v
theories/ModesFacts.v
theories/PropModes.v
theories/SpecLength.v
theories/PropLength.v
theories/DecayFacts.v
theories/PropDecay.v
theories/GrowthFacts.v
theories/PropGrowth.v
theories/SpecFade.v
theories/FadeFacts.v
theories/PropFade.v
theories/PropFlux.v
theories/SpecMix.v
theories/MixFacts.v
theories/PropMix.v
