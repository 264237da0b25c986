-Q theories Verif
theories/Prelude.v
theories/Float.v
theories/FloatX.v
theories/FloatI.v
theories/FloatLaws.v
theories/FloatMono.v
theories/OrdProofs.v
theories/Data.v
theories/DataProofs.v
theories/Utils.v
theories/UtilsX.v
theories/PivotProofs.v
theories/Pivot3Proofs.v
theories/Binning.v
theories/BinningProofs.v
theories/CutProofs.v
theories/BinMatrix.v
theories/BinningX.v
theories/CutQuant.v
theories/PropBinning.v
theories/Histogram.v
theories/HistogramProofs.v
theories/HistogramX.v
theories/Node.v
theories/Splitter.v
theories/SplitProofs.v
theories/Tree.v
theories/GrowProofs.v
theories/GrowInv.v
theories/GrowStep.v
theories/TreeWf.v
theories/TreeProofs.v
theories/FitProofs.v
theories/FitSplits.v
theories/EvalProofs.v
theories/PathProofs.v
theories/RouteX.v
theories/RouteFit.v
theories/NoPanic.v
theories/HistBinned.v
theories/PropHist.v
theories/PropTree.v
theories/Objective.v
theories/Metric.v
theories/Sampler.v
theories/SamplerProofs.v
theories/MetricX.v
theories/ObjectiveX.v
theories/MetricProofs.v
theories/PosSort.v
theories/PropMetric.v
theories/Contrib.v
theories/Booster.v
theories/PredictProofs.v
theories/BoostProofs.v
theories/FitModel.v
theories/PropPredict.v
theories/GrowWeights.v
theories/GrowMono.v
theories/MonoFit.v
theories/Bracket.v
theories/MissTree.v
theories/MissDir.v
theories/MissWeights.v
theories/PropWeights.v
theories/FinX.v
theories/BoostX.v
theories/LossX.v
theories/PropFit.v
theories/ContribProofs.v
theories/ContribX.v
theories/ImportProofs.v
theories/DependX.v
theories/WfCheck.v
theories/PropContrib.v
theories/Shapley.v
theories/ShapX.v
theories/ShapTree.v
theories/PropShap.v
theories/Serde.v
theories/SerdeProofs.v
theories/SerdePredict.v
theories/PropSerde.v
theories/TrainMore.v
theories/Sim.v
theories/Recode.v
theories/Rescale.v
theories/RescaleFit.v
theories/PropTrain.v
theories/Distr.v
theories/DistrCuts.v
theories/DistrFit.v
theories/DistrRows.v
theories/PropDistr.v
theories/Scale.v
theories/ScaleFit.v
theories/ScaleX.v
theories/ScaleThm.v
theories/ScaleI.v
theories/PropSymmetry.v
theories/FloatConv.v
theories/PyWrap.v
theories/PyNames.v
theories/PyProofs.v
theories/PyState.v
theories/PyLoad.v
theories/PyFit.v
theories/PyMore.v
theories/PyExamples.v
theories/PropPython.v
theories/PyTable.v
theories/PyTrained.v
theories/XgbImport.v
theories/PySerialize.v
theories/PropPyTrees.v
theories/PyMono.v
theories/PropPyTrain.v
theories/FittedX.v
theories/PropFitted.v
theories/Unused.v
theories/PropUnused.v
theories/Twin.v
theories/PropTwin.v
theories/Extend.v
theories/PropExtend.v
theories/Groups.v
theories/PropGroups.v
theories/Dump.v
theories/PropDump.v
theories/NoSplit.v
theories/PropOptions.v
theories/Widen.v
theories/WidenFit.v
theories/PropCopy.v
theories/Constant.v
theories/PropConstant.v
theories/NoPanicAny.v
theories/FitAny.v
theories/PropAny.v
theories/CountRoute.v
theories/CountFit.v
theories/CountI.v
theories/CountModel.v
theories/PropCount.v
theories/GossI.v
theories/Neutral.v
theories/Limits.v
theories/PropNeutral.v
theories/Explain.v
theories/ExplainX.v
theories/PropExplain.v
theories/AucX.v
theories/PropAuc.v
