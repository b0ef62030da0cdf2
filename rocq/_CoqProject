-Q theories Verif
theories/PyBase.v
theories/ModelSpec.v
theories/ProcessModel.v
theories/CheckModel.v
theories/ParamsIndex.v
theories/ParseParams.v
theories/Constraints.v
theories/ExampleModels.v
theories/Conformance.v
theories/ListFacts.v
theories/StringFacts.v
theories/SpecModel.v
theories/ProcessModelFacts.v
theories/AcceptFacts.v
theories/SpecIndex.v
theories/IndexFacts.v
theories/SpecFacts.v
theories/PropsSpec.v
theories/SpecParse.v
theories/ParamsVec.v
theories/ParseFacts.v
theories/AnchorFacts.v
theories/PropsParse.v
theories/SpecConstraints.v
theories/ConstraintFacts.v
theories/PropsConstraints.v
theories/ProcessData.v
theories/SpecData.v
theories/DataFacts.v
theories/DataArrays.v
theories/PropsData.v
theories/RSum.v
theories/Kalman.v
theories/SpecKalman.v
theories/KalmanFacts.v
theories/KalmanOrder.v
theories/KalmanSeq.v
theories/PredictFacts.v
theories/QRWitness.v
theories/PropsKalman.v
theories/Clipping.v
theories/Likelihood.v
theories/SpecLikelihood.v
theories/ScheduleFacts.v
theories/LikelihoodFacts.v
theories/LikelihoodRun.v
theories/LikelihoodLocal.v
theories/PropsLikelihood.v
theories/TransitionFunctions.v
theories/SpecTransition.v
theories/TransitionFacts.v
theories/PropsTransition.v
theories/SpecGaussian.v
theories/GaussianFacts.v
theories/GaussIntegral.v
theories/SpecStateSpace.v
theories/StateSpaceFacts.v
theories/Utilities.v
theories/DebugData.v
theories/SpecDebug.v
theories/DebugFacts.v
theories/PropsDebug.v
theories/PropsFiltered.v
theories/SpecModelDensity.v
theories/ModelDensityFacts.v
theories/BayesFacts.v
theories/AnchoredRun.v
theories/SpecAnchored.v
theories/AnchoredFacts.v
theories/PropsBayes.v
theories/Simulate.v
theories/SpecSimulate.v
theories/SimulateFacts.v
theories/PropsSimulate.v
theories/PropsPolicies.v
theories/PropsSimulateInputs.v
theories/SpecUtilities.v
theories/UtilitiesFacts.v
theories/PropsUtilities.v
theories/Heatmap.v
theories/SpecHeatmap.v
theories/HeatmapFacts.v
theories/HeatmapDataFacts.v
theories/HeatmapUnits.v
theories/PropsHeatmap.v
theories/PropsHeatmapFigure.v
theories/TransitionPlots.v
theories/SpecPlots.v
theories/PlotFacts.v
theories/PlotDataFacts.v
theories/PropsPlots.v
theories/PropsPlotGrid.v
theories/DistributionPlots.v
theories/SpecDistributions.v
theories/DistributionFacts.v
theories/PropsDistributions.v
theories/PropsDistributionGrid.v
theories/PropsDistributionObserved.v
theories/QRSigns.v
theories/PropsNumerics.v
theories/Renormalization.v
theories/PropsRenormalization.v
theories/ModelInputs.v
theories/Runs.v
theories/PropsPrefix.v
theories/Related.v
theories/PropsRemoved.v
theories/PropsControls.v
theories/PropsSwitch.v
theories/FactorOrder.v
theories/PropsFactorOrder.v
theories/Maximization.v
theories/SpecGradient.v
theories/PropsGradient.v
theories/Smooth.v
theories/CholeskySmooth.v
theories/FilterSmooth.v
theories/ModelSmooth.v
theories/PropsDifferentiable.v
theories/SpecMixtures.v
theories/MixtureMap.v
theories/PropsMixtures.v
theories/SpecRestrictions.v
theories/PropsRestrictions.v
theories/RawModel.v
theories/SpecRawModel.v
theories/PropsRawModel.v
theories/SpecUnits.v
theories/Units.v
theories/PropsUnits.v
theories/SpecPrecision.v
theories/Precision.v
theories/PropsPrecision.v
theories/SpecQuadratic.v
theories/Quadratic.v
theories/PropsQuadratic.v
theories/PropsAnchored.v
theories/NormalMoments.v
theories/DensityRun.v
theories/SpecDensity.v
theories/PropsDensity.v
theories/SpecSimulatedDensity.v
theories/PropsSimulatedDensity.v
theories/SpecNormalization.v
theories/NormalizationFacts.v
theories/PropsNormalization.v
theories/PlotOptions.v
theories/PropsPlotOptions.v
theories/Dag.v
theories/SpecDag.v
theories/DagFacts.v
theories/PropsDag.v
theories/SpecRenaming.v
theories/RenamingFacts.v
theories/PropsRenaming.v
theories/SpecRelabel.v
theories/PropsRelabel.v
theories/SpecSteps.v
theories/StepFacts.v
theories/PropsSteps.v
theories/SpecReduced.v
theories/PropsReduced.v
theories/PropsBounds.v
theories/SpecUpdate.v
theories/PropsUpdate.v
