-Q theories Verif
theories/Base.v
theories/BaseFacts.v
theories/Grouping.v
theories/GroupingProofs.v
theories/GroupingConst.v
theories/GroupingOpt.v
theories/RBase.v
theories/Scale.v
theories/ScaleProofs.v
theories/Gibbs.v
theories/Significance.v
theories/SignificanceProofs.v
theories/GroupSigProofs.v
theories/GroupNormalProofs.v
theories/GroupRefute.v
theories/Prop_Grouping.v
theories/Prop_Scale.v
theories/Likelihood.v
theories/LikelihoodProofs.v
theories/Prop_Likelihood.v
theories/Param.v
theories/ParamProofs.v
theories/Expr.v
theories/ExprFacts.v
theories/Composite.v
theories/CompositeProofs.v
theories/Prop_Param.v
theories/Namespace.v
theories/NamespaceProofs.v
theories/Prop_Namespace.v
theories/ModelAlg.v
theories/ModelAlgProofs.v
theories/Prop_Model.v
theories/Data.v
theories/DataProofs.v
theories/DataState.v
theories/DataFacts.v
theories/DataBad.v
theories/DataSim.v
theories/DataExamples.v
theories/DataAlias.v
theories/Prop_Data.v
theories/Prop_Data2.v
theories/Fwhm.v
theories/Prop_Fwhm.v
theories/DataSeg.v
theories/DataGroup.v
theories/DataGroup2.v
theories/GroupExamples.v
theories/Prop_Group.v
theories/ModelInfo.v
theories/ModelInfoProofs.v
theories/ModelInfoProofs2.v
theories/CompileProofs.v
theories/Prop_Compile.v
theories/Ogip.v
theories/OgipProofs.v
theories/Prop_Ogip.v
theories/Loading.v
theories/Prop_Loading.v
theories/PostSummary.v
theories/Prop_PostSummary.v
theories/Resume.v
theories/Prop_Resume.v
theories/Simulate.v
theories/SimulateProofs.v
theories/Prop_Simulate.v
theories/Progress.v
theories/ProgressProofs.v
theories/Prop_Progress.v
theories/FitInput.v
theories/FitInputProofs.v
theories/Prop_Fit.v
theories/HelperNames.v
theories/HelperNamesProofs.v
theories/Prop_Helper.v
theories/HelperData.v
theories/Batch.v
theories/BatchProofs.v
theories/HelperDataProofs.v
theories/Prop_Batch.v
theories/OneChannel.v
theories/Prop_HelperData.v
theories/Results.v
theories/ResultsProofs.v
theories/Prop_Results.v
theories/Summary.v
theories/SummaryProofs.v
theories/Prop_Summary.v
theories/PlotCache.v
theories/PlotCacheProofs.v
theories/Prop_PlotCache.v
theories/ComponentSpec.v
theories/Components.v
theories/ComponentProofs.v
theories/ComponentShapes.v
theories/ComponentQuad.v
theories/Prop_Components.v
theories/Prop_Components2.v
theories/Sampling.v
theories/SamplingProofs.v
theories/Prop_Sampling.v
theories/LinLog.v
theories/Prop_LinLog.v
theories/Residuals.v
theories/Prop_Residuals.v
theories/Posterior.v
theories/Prop_Posterior.v
theories/Report.v
theories/Prop_Report.v
theories/Nested.v
theories/Prop_Nested.v
theories/Config.v
theories/Prop_Config.v
theories/FiniteDiff.v
theories/Prop_FiniteDiff.v
theories/Profile.v
theories/Prop_Profile.v
theories/Intensity.v
theories/Prop_Intensity.v
theories/Loglike.v
theories/Prop_Loglike.v
theories/ParamArg.v
theories/Prop_ParamArg.v
theories/Settings.v
theories/Prop_Settings.v
theories/Interval.v
theories/Prop_Interval.v
theories/Xspec.v
theories/Prop_Xspec.v
theories/PlotCurves.v
theories/Prop_PlotCurves.v
theories/PlotSettings.v
theories/Prop_PlotSettings.v
theories/Labels.v
theories/Prop_Labels.v
theories/Classes.v
theories/Prop_Classes.v
theories/Signs.v
theories/Prop_Signs.v
theories/ChanLabels.v
theories/Prop_ChanLabels.v
theories/LooPit.v
theories/Prop_LooPit.v
theories/Spectral.v
theories/Prop_Spectral.v
theories/FitErrors.v
theories/FitErrorsSpec.v
theories/FitErrorsProofs.v
theories/Prop_FitErrors.v
theories/Diagnostics.v
theories/Prop_Diagnostics.v
theories/DataPlots.v
theories/Prop_DataPlots.v
theories/Nuts.v
theories/Prop_Nuts.v
theories/Errorbars.v
theories/ErrorbarsProofs.v
theories/Prop_Errorbars.v
theories/NestedRun.v
theories/Prop_NestedRun.v
theories/ShownResiduals.v
theories/Prop_ShownResiduals.v
theories/Colors.v
theories/Prop_Colors.v
theories/TracePlots.v
theories/Prop_TracePlots.v
theories/EnsembleProb.v
theories/Prop_EnsembleProb.v
theories/BatchEval.v
theories/Prop_BatchEval.v
theories/XspecModels.v
theories/Prop_XspecModels.v
theories/Suffix.v
theories/Prop_Suffix.v
theories/Derived.v
theories/Prop_Derived.v
theories/CombineRes.v
theories/Prop_CombineRes.v
theories/UnitText.v
theories/Prop_UnitText.v
theories/LinLogAxis.v
theories/Prop_LinLogAxis.v
theories/CountPlot.v
theories/Prop_CountPlot.v
theories/Versions.v
theories/Prop_Versions.v
theories/SavedResults.v
theories/Prop_SavedResults.v
theories/ParamLabels.v
theories/Prop_ParamLabels.v
theories/Guarded.v
theories/Prop_Guarded.v
