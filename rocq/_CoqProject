-Q theories Verif
theories/Num.v
theories/Numpy.v
theories/Sort.v
theories/Table.v
theories/Binning.v
theories/SpecBinning.v
theories/BinningProofs.v
theories/HistProofs.v
theories/BinningProofs3.v
theories/BinningProofs2.v
theories/BinningWitness.v
theories/Properties_Binning.v
theories/Percentile.v
theories/Cuts.v
theories/SpecCuts.v
theories/PercentileProofs.v
theories/CutsProofs.v
theories/CutsProofs2.v
theories/CutsProofs3.v
theories/PlainBoundsProofs.v
theories/Properties_Cuts.v
theories/Statistics.v
theories/SpecStatistics.v
theories/StatisticsProofs.v
theories/Properties_Statistics.v
theories/SpecUtils.v
theories/Utils.v
theories/UtilsProofs.v
theories/UtilsProofs2.v
theories/Properties_Utils.v
theories/Sensitivity.v
theories/SpecSensitivity.v
theories/SensitivityProofs.v
theories/SensitivityProofs2.v
theories/SensitivityProofs3.v
theories/SensitivityProofs4.v
theories/SensitivityProofs5.v
theories/Properties_Sensitivity.v
theories/CutOptimization.v
theories/CutOptimizationLists.v
theories/CutListsProofs.v
theories/Properties_CutLists.v
theories/SpecCutOptimization.v
theories/CutOptimizationProofs.v
theories/CutOptimizationProofs2.v
theories/CutOptimizationProofs3.v
theories/CutOptimizationProofs4.v
theories/CutOptimizationProofs5.v
theories/CutOptimizationProofs6.v
theories/SpecParticles.v
theories/CutOptimizationProofs7.v
theories/CutOptimizationProofs8.v
theories/SpecPipeline.v
theories/PipelineProofs.v
theories/PipelineProofs2.v
theories/CutOptimizationProofs9.v
theories/Properties_CutOptimization.v
theories/Lists.v
theories/SpecSimulations.v
theories/Simulations.v
theories/SimulationsProofs.v
theories/SimulationsProofs2.v
theories/SimulationsProofs3.v
theories/SpecLonLat.v
theories/LonLatProofs.v
theories/Properties_Simulations.v
theories/SpecSpectral.v
theories/Spectral.v
theories/SpectralProofs.v
theories/Properties_Spectral.v
theories/Tensor.v
theories/TensorProofs.v
theories/SpecIRF.v
theories/IRF.v
theories/IRFProofs.v
theories/IRFProofs2.v
theories/IRFProofs3.v
theories/IRFProofs4.v
theories/IRFProofs5.v
theories/Properties_IRF.v
theories/SpecInterp.v
theories/Morph.v
theories/MorphProofs.v
theories/MorphProofs2.v
theories/Geometry.v
theories/GeometryProofs.v
theories/GeometryProofs2.v
theories/GeometryProofs3.v
theories/GeometryProofs4.v
theories/Properties_Interp.v
theories/Quantile.v
theories/QuantileProofs.v
theories/QuantileProofs2.v
theories/QuantileProofs3.v
theories/Properties_Interp2.v
theories/Estimators.v
theories/SpecEstimators.v
theories/EstimatorProofs.v
theories/EstimatorProofs2.v
theories/EstimatorProofs3.v
theories/EstimatorProofs4.v
theories/EstimatorProofs5.v
theories/Aliasing.v
theories/SpecHistory.v
theories/AliasingProofs.v
theories/AliasingProofs2.v
theories/AliasingProofs3.v
theories/Properties_Histories.v
theories/Properties_Estimators.v
theories/Benchmarks.v
theories/SpecBenchmarks.v
theories/BenchmarkProofs.v
theories/BenchmarkProofs2.v
theories/BenchmarkProofs3.v
theories/BenchmarkProofs4.v
theories/Properties_Benchmarks.v
theories/Gadf.v
theories/SpecGadf.v
theories/GadfProofs.v
theories/GadfProofs2.v
theories/GadfProofs3.v
theories/Properties_Gadf.v
theories/Eventdisplay.v
theories/SpecEventdisplay.v
theories/EventdisplayProofs.v
theories/EventdisplayProofs2.v
theories/Properties_Eventdisplay.v
theories/Gammapy.v
theories/SpecGammapy.v
theories/GammapyProofs.v
theories/Properties_Gammapy.v
theories/Quantities.v
theories/SpectralUnits.v
theories/SpecUnits.v
theories/SpectralUnitsProofs.v
theories/SpectralUnitsProofs2.v
theories/SpectralUnitsProofs3.v
theories/SpectralUnitsProofs4.v
theories/SimulationUnits.v
theories/SimulationUnitsProofs.v
theories/Properties_Units.v
theories/FoldProofs.v
theories/Properties_Fold.v
theories/IRFUnits.v
theories/SpecIRFUnits.v
theories/IRFUnitsProofs.v
theories/Properties_IRFUnits.v
theories/SpecOrder.v
theories/OrderProofs.v
theories/Properties_Order.v
theories/Properties_Pipeline.v
theories/ParticlesWitness.v
theories/Properties_Particles.v
theories/SpecMerge.v
theories/MergeProofs.v
theories/Properties_Merge.v
theories/Double.v
theories/SpecDouble.v
theories/DoubleProofs.v
theories/NearProofs.v
theories/LiMaDoubleProofs.v
theories/LiMaDouble2Proofs.v
theories/IRFDouble.v
theories/IRFDoubleProofs.v
theories/IRFDouble2Proofs.v
theories/PSFDoubleProofs.v
theories/HistDouble.v
theories/HistDoubleProofs.v
theories/HistDouble2Proofs.v
theories/BackgroundDoubleProofs.v
theories/Properties_Double.v
theories/BinsDouble.v
theories/SpecBinsDouble.v
theories/BinsDoubleProofs.v
theories/PercentileDoubleProofs.v
theories/Properties_BinsDouble.v
theories/Properties_HistDouble.v
theories/SpecErrors.v
theories/ErrorsProofs.v
theories/ErrorsProofs2.v
theories/Properties_Errors.v
theories/Properties_Errors2.v
theories/SpecCutUnits.v
theories/CutUnits.v
theories/CutUnitsProofs.v
theories/Properties_CutUnits.v
theories/PDFEstimators.v
theories/SpecPDFEstimators.v
theories/PDFProofs.v
theories/PDFProofs2.v
theories/PDFProofs3.v
theories/PDFProofs4.v
theories/PDFProofs5.v
theories/PDFProofs6.v
theories/PDFProofs7.v
theories/Properties_PDFEstimators.v
theories/SpecLocal.v
theories/LocalProofs.v
theories/LocalProofs2.v
theories/Properties_Local.v
theories/SpecRebin.v
theories/RebinProofs.v
theories/RebinProofs2.v
theories/RebinProofs3.v
theories/RebinProofs4.v
theories/Properties_Rebin.v
theories/SensitivityUnits.v
theories/CutOptimizationUnits.v
theories/SpecSensUnits.v
theories/SensUnitsProofs.v
theories/SensUnitsProofs2.v
theories/SensUnitsProofs3.v
theories/SpecCutOptUnits.v
theories/CutOptUnitsProofs.v
theories/CutOptUnitsProofs2.v
theories/CutOptUnitsProofs3.v
theories/SpecColumns.v
theories/ColumnsProofs.v
theories/SpectralLimits.v
theories/CutOptUnitsProofs4.v
theories/CutOptUnitsProofs5.v
theories/CutOptUnitsWitness.v
theories/Properties_CutOptUnits.v
theories/GridMethods.v
theories/SpecMoved.v
theories/MovedProofs.v
theories/MovedProofs2.v
theories/MovedProofs3.v
theories/MovedProofs4.v
theories/MovedWitness.v
theories/Properties_Moved.v
theories/SkyUnits.v
theories/SpecSky.v
theories/SkyProofs.v
theories/Properties_Sky.v
theories/SelectionProofs.v
theories/Properties_Selection.v
theories/Properties_SensUnits.v
theories/TrendProofs.v
theories/SpecTrend.v
theories/SpecSelection.v
theories/TrendProofs2.v
theories/TrendProofs3.v
theories/TrendProofs4.v
theories/Properties_Trend.v
theories/SpecBlend.v
theories/BlendProofs.v
theories/Properties_Blend.v
theories/SpecEdges.v
theories/EdgeProofs.v
theories/Properties_Edges.v
theories/WeightsDouble.v
theories/SpecWeights.v
theories/WeightsDoubleProofs.v
theories/Properties_Weights.v
theories/ConvertDouble.v
theories/SpecConvert.v
theories/ConvertDoubleProofs.v
theories/Properties_Convert.v
theories/ShowersDouble.v
theories/SpecShowers.v
theories/ShowersDoubleProofs.v
theories/Properties_Showers.v
theories/EventWeightsDouble.v
theories/SpecEventWeights.v
theories/EventWeightsDoubleProofs.v
theories/Properties_EventWeights.v
theories/AreaDouble.v
theories/SpecArea.v
theories/AreaDoubleProofs.v
theories/Properties_Area.v
theories/AreaFovDouble.v
theories/AreaFovDoubleProofs.v
theories/Properties_AreaFov.v
theories/AreaPolarDouble.v
theories/AreaPolarDoubleProofs.v
theories/Properties_AreaPolar.v
theories/LogParabolaDouble.v
theories/SpecLogParabola.v
theories/LogParabolaDoubleProofs.v
theories/Properties_LogParabola.v
theories/GaussianSpectrumDouble.v
theories/SpecGaussianSpectrum.v
theories/GaussianSpectrumDoubleProofs.v
theories/Properties_GaussianSpectrum.v
