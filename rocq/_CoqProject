-Q theories Verif
theories/Base.v
theories/RealBase.v
theories/Axes.v
theories/Tables.v
theories/TablesProps.v
theories/InitTables.v
theories/InitTablesProps.v
theories/MarkovBasis.v
theories/MarkovBasisProps.v
theories/MarkovWalks.v
theories/TableMCMC.v
theories/TableMCMCProps.v
theories/ProbUtils.v
theories/ProbUtilsProps.v
theories/Scores.v
theories/ScoresProps.v
theories/SIM.v
theories/SIMProps.v
theories/HMC.v
theories/HMCProps.v
theories/ConfigTree.v
theories/ConfigSpec.v
theories/ConfigProps.v
theories/ConfigFind.v
theories/ConfigModify.v
theories/Sweep.v
theories/SweepProps.v
theories/SweepId.v
theories/SweepFind.v
theories/PyMonad.v
theories/Schema.v
theories/SchemaProps.v
theories/Executor.v
theories/ExecutorProps.v
theories/Slicing.v
theories/SlicingProps.v
theories/Recorder.v
theories/RecorderProps.v
theories/TextCodec.v
theories/TextCodecProps.v
theories/CommandLine.v
theories/CommandLineProps.v
theories/DictUtils.v
theories/DictUtilsProps.v
theories/StartMargins.v
theories/Learning.v
theories/LearningProps.v
theories/LearningLoss.v
theories/LearningLossProps.v
theories/Cycles.v
theories/CyclesProps.v
theories/Collections.v
theories/CollectionsProps.v
theories/Summaries.v
theories/SummariesProps.v
theories/Validate.v
theories/ValidateProps.v
theories/ShippedTemplate.v
theories/Metrics.v
theories/MetricsProps.v
theories/Kernels.v
theories/KernelsProps.v
theories/KernelsShuffle.v
theories/Chains.v
theories/KernelsLimit.v
theories/Inputs.v
theories/InputsProps.v
theories/InputsCast.v
theories/OutputSearch.v
theories/OutputSearchProps.v
theories/Debias.v
theories/GridSearch.v
theories/GridSearchProps.v
theories/StartUp.v
theories/StartUpProps.v
theories/StartUpHyper.v
theories/StartUpBasis.v
theories/GraphAttention.v
theories/GraphAttentionProps.v
theories/Summarise.v
theories/SummariseProps.v
theories/Expressions.v
theories/ExpressionsProps.v
theories/RunLog.v
theories/RunLogProps.v
theories/Plotting.v
theories/PlottingProps.v
theories/PlotAxes.v
theories/PlotAxesProps.v
theories/Evaluate.v
theories/EvaluateProps.v
theories/Handler.v
theories/HandlerProps.v
theories/Trials.v
theories/TrialsProps.v
theories/FigureFiles.v
theories/FigureFilesProps.v
theories/Synthetic.v
theories/SyntheticProps.v
theories/SyntheticPaths.v
theories/LoadOutputs.v
theories/LoadOutputsProps.v
theories/DetR.v
theories/Laplace.v
theories/LaplaceProps.v
theories/Volume.v
theories/TableData.v
theories/TableDataProps.v
theories/FunctionSweep.v
theories/FunctionSweepProps.v
theories/Sensitivity.v
theories/SensitivityProps.v
theories/Confinement.v
theories/OddsOnly.v
theories/MetropolisLimit.v
theories/Stacking.v
theories/StackingProps.v
theories/Geometry.v
theories/NetForward.v
theories/EatAll.v
theories/Preferences.v
theories/AxesOption.v
theories/MultinomialMode.v
