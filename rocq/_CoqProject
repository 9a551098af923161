-Q theories Verif
theories/Base.v
theories/XR.v
theories/Vec.v
theories/FVec.v
theories/HistoryModel.v
theories/HistorySpec.v
theories/HistoryProofs.v
theories/Prop_History.v
theories/WrapModel.v
theories/WrapProofs.v
theories/AdjustModel.v
theories/Prop_Adjust.v
theories/VolumeModel.v
theories/RegionModel.v
theories/Prop_Volume.v
theories/Prop_Region.v
theories/AcceptModel.v
theories/LogSpec.v
theories/Prop_Wrap.v
theories/LogProofs.v
theories/AcceptProofs.v
theories/Prop_Accept.v
theories/ModelsModel.v
theories/Prop_Models.v
theories/FitModel.v
theories/Prop_Fit.v
theories/LstsqProofs.v
theories/FilterModel.v
theories/Prop_Filter.v
theories/Prop_Cluster.v
theories/SubproblemModel.v
theories/Prop_Subproblem.v
theories/CgModel.v
theories/Prop_Cg.v
theories/TrsboxModel.v
theories/TrsboxProofs.v
theories/Prop_Trsbox.v
theories/TrsboxFastModel.v
theories/Prop_TrsboxFast.v
theories/BntrModel.v
theories/Prop_Bntr.v
theories/GqtparModel.v
theories/GqtparProofs.v
theories/Prop_Gqtpar.v
theories/Prop_Gqtpar2.v
theories/MainModel.v
theories/MainProofs.v
theories/MainPhases.v
theories/MainLoop.v
theories/MainProgress.v
theories/Prop_Main.v
theories/Prop_Main2.v
theories/Prop_Main3.v
theories/Prop_Main4.v
theories/Prop_Step.v
theories/Prop_Search.v
theories/LinearModel.v
theories/Prop_Linear.v
theories/SampleModel.v
theories/Prop_Sample.v
theories/VarianceModel.v
theories/Prop_Variance.v
theories/OptionsModel.v
theories/ComponentModel.v
theories/ProcessModel.v
theories/Prop_Options.v
theories/Prop_Component.v
theories/Prop_Process.v
theories/NoiseModel.v
theories/Prop_Noise.v
theories/PoisednessModel.v
theories/Prop_Poised.v
theories/Prop_Poised2.v
theories/GeometryModel.v
theories/Prop_Geometry.v
theories/DetProofs.v
theories/Prop_Frobenius.v
theories/Prop_Det.v
theories/Prop_Bntr2.v
theories/MainProgress2.v
theories/BuiltinModel.v
theories/Prop_Builtin.v
theories/Prop_Builtin2.v
theories/VisualizeModel.v
theories/Prop_Visualize.v
theories/Prop_Visualize2.v
theories/UtilityModel.v
theories/Prop_Utility.v
theories/FloatModel.v
theories/FloatProofs.v
theories/Prop_Float.v
theories/Prop_LineSearch.v
theories/Prop_Reject.v
theories/FloatAcceptModel.v
theories/Prop_FloatAccept.v
theories/Prop_Exact.v
theories/Prop_NoisyRun.v
theories/Prop_NoisyCount.v
theories/Prop_Budget.v
theories/Prop_Shift.v
theories/Prop_ShiftRun.v
theories/Prop_ShiftBuiltin.v
theories/GqtparFastModel.v
theories/Prop_GqtparFast.v
theories/Prop_Gradient.v
theories/Prop_Convex.v
theories/Prop_Rate.v
theories/Prop_Units.v
theories/Prop_CgUnits.v
theories/Prop_Complexity.v
theories/Prop_NearOptimal.v
theories/Prop_Promise.v
theories/FallbackModel.v
theories/Prop_Fallback.v
theories/PlotModel.v
theories/Prop_Plot.v
theories/Prop_TrsboxDecrease.v
theories/Prop_SteihaugDecrease.v
theories/Prop_Rotate.v
theories/Prop_SampleOrder.v
theories/Prop_Average.v
theories/Prop_Residualize.v
theories/Prop_Affine.v
theories/Prop_VarianceShift.v
theories/Prop_Limits.v
theories/Prop_Initial.v
