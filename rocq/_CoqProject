-Q theories Verif
theories/Prelude.v
theories/RPrelude.v
theories/Arr.v
theories/ModelSupport.v
theories/SpecSupport.v
theories/ProofsSupport.v
theories/PropertiesSupport.v
theories/ModelJumps.v
theories/SpecJumps.v
theories/ProofsJumps.v
theories/ModelDistortions.v
theories/SpecDistortions.v
theories/ProofsDistortions.v
theories/PropertiesDistortions.v
theories/ModelTct.v
theories/SpecTct.v
theories/ProofsTct.v
theories/ProofsTctShape.v
theories/PropertiesTct.v
theories/ModelCsd.v
theories/SpecCsd.v
theories/ProofsCsd.v
theories/ProofsOcc.v
theories/ProofsRegions.v
theories/ProofsMask.v
theories/ProofsDriver.v
theories/ProofsFine.v
theories/ProofsScan.v
theories/ProofsLabel.v
theories/ExamplesCsd.v
theories/PropertiesCsd.v
theories/ModelSensor.v
theories/SpecSensor.v
theories/ProofsSensor.v
theories/ProofsScanSensor.v
theories/ProofsLabelScan.v
theories/ProofsSensorMore.v
theories/ExamplesSensor.v
theories/PropertiesSensor.v
theories/ModelSampling.v
theories/SpecSampling.v
theories/ProofsSampling.v
theories/PropertiesSampling.v
theories/ModelSimulation.v
theories/SpecSimulation.v
theories/ProofsSimulation.v
theories/ExamplesSimulation.v
theories/PropertiesSimulation.v
theories/ModelSettings.v
theories/SpecSettings.v
theories/ProofsSettings.v
theories/PropertiesSettings.v
theories/ModelInstance.v
theories/SpecInstance.v
theories/ProofsInstance.v
theories/PropertiesInstance.v
theories/ModelConfig.v
theories/SpecConfig.v
theories/ProofsConfig.v
theories/ProofsShape.v
theories/ExamplesConfig.v
theories/PropertiesConfig.v
theories/SpecOrder.v
theories/ProofsOrder.v
theories/ProofsCover.v
theories/ExamplesOrder.v
theories/ModelDefault.v
theories/ProofsDefault.v
theories/PropertiesOrder.v
theories/PropertiesDefault.v
theories/ModelConfigCsd.v
theories/SpecConfigCsd.v
theories/ProofsConfigCsd.v
theories/ExamplesConfigCsd.v
theories/PropertiesConfigCsd.v
theories/ModelFloat.v
theories/SpecFloat.v
theories/ProofsFloat.v
theories/PropertiesFloat.v
theories/ModelScanInstance.v
theories/SpecScanInstance.v
theories/ProofsScanInstance.v
theories/ProofsScanCsd.v
theories/ExamplesScanInstance.v
theories/PropertiesScanInstance.v
theories/ProofsAgree.v
theories/PropertiesAgree.v
theories/ModelNoise.v
theories/SpecNoise.v
theories/ProofsNoise.v
theories/ProofsReplay.v
theories/ExamplesNoise.v
theories/PropertiesNoise.v
theories/ProofsSuccess.v
theories/ModelDefaultNoise.v
theories/SpecDefaultNoise.v
theories/ProofsDefaultNoise.v
theories/ExamplesDefaultNoise.v
theories/PropertiesDefaultNoise.v
theories/ModelPromotion.v
theories/ProofsPromotion.v
theories/PropertiesPromotion.v
theories/ModelFloatRange.v
theories/SpecFloatRange.v
theories/ProofsFloatRange.v
theories/PropertiesFloatRange.v
theories/ModelPlot.v
theories/SpecPlot.v
theories/ProofsPlot.v
theories/PropertiesPlot.v
theories/ModelScanNoise.v
theories/SpecScanNoise.v
theories/ProofsScanNoise.v
theories/ProofsScanNoise2.v
theories/ProofsScanNoise3.v
theories/ProofsScanNoise4.v
theories/ProofsScanNoise5.v
theories/ExamplesScanNoise.v
theories/PropertiesScanNoise.v
theories/ModelSampledSim.v
theories/SpecSampledSim.v
theories/ProofsSampledSim.v
theories/ProofsSampledSim2.v
theories/ProofsSampledSim3.v
theories/ExamplesSampledSim.v
theories/PropertiesSampledSim.v
theories/SpecSimilar.v
theories/ProofsSimilar.v
theories/ProofsSimilar2.v
theories/ProofsSimilar3.v
theories/ExamplesSimilar.v
theories/PropertiesSimilar.v
theories/ModelFloatDraw.v
theories/ProofsFloatDraw.v
theories/PropertiesFloatDraw.v
theories/ModelFloatSensor.v
theories/SpecFloatSensor.v
theories/ProofsFloatSensor.v
theories/PropertiesFloatSensor.v
theories/SpecQuant.v
theories/ProofsQuant.v
theories/PropertiesQuant.v
theories/ProofsGlf.v
theories/PropertiesGlf.v
theories/SpecExchange.v
theories/ProofsExchange.v
theories/ProofsExchange2.v
theories/ProofsTriple.v
theories/PropertiesExchange.v
theories/ProofsExponential.v
theories/PropertiesExponential.v
theories/SpecBlur.v
theories/ProofsBlur.v
theories/PropertiesBlur.v
theories/ModelFloatPotential.v
theories/ProofsFloatPotential.v
theories/PropertiesFloatPotential.v
theories/ProofsLines.v
theories/ProofsRaise.v
theories/PropertiesRaise.v
theories/ProofsTurn.v
theories/PropertiesTurn.v
theories/ProofsSmooth.v
theories/PropertiesSmooth.v
theories/SpecEnter.v
theories/ProofsEnter.v
theories/ProofsEnter2.v
theories/ExamplesEnter.v
theories/PropertiesEnter.v
theories/ProofsHelpers.v
theories/PropertiesHelpers.v
theories/SpecSampledNoise.v
theories/ProofsSampledNoise.v
theories/PropertiesSampledNoise.v
theories/SpecSense.v
theories/ProofsSense.v
theories/PropertiesSense.v
theories/SpecAreas.v
theories/ProofsAreas.v
theories/ProofsAreas2.v
theories/PropertiesAreas.v
theories/SpecHistory.v
theories/ProofsHistory.v
theories/ExamplesHistory.v
theories/PropertiesHistory.v
theories/ProofsPeaks.v
theories/PropertiesPeaks.v
theories/SpecCoulomb.v
theories/ProofsCoulomb.v
theories/ProofsCoulomb2.v
theories/PropertiesCoulomb.v
theories/SpecFirst.v
theories/ProofsFirst.v
theories/ProofsFlat.v
theories/PropertiesFirst.v
theories/SpecSenseScan.v
theories/ProofsSenseScan.v
theories/PropertiesSenseScan.v
theories/ModelSpecial.v
theories/SpecSpecial.v
theories/ProofsSpecial.v
theories/ExamplesSpecial.v
theories/PropertiesSpecial.v
theories/SpecFloatGrid.v
theories/ProofsFloatGrid.v
theories/PropertiesFloatGrid.v
theories/ModelText.v
theories/SpecText.v
theories/ProofsText.v
theories/PropertiesText.v
theories/ModelNumbers.v
theories/ProofsNumbers.v
theories/PropertiesNumbers.v
theories/ModelShared.v
theories/SpecShared.v
theories/ExamplesShared.v
theories/ProofsShared.v
theories/ProofsShared2.v
theories/PropertiesShared.v
theories/ProofsOpposite.v
theories/PropertiesOpposite.v
theories/ModelGenerators.v
theories/SpecGenerators.v
theories/ExamplesGenerators.v
theories/ProofsGenerators.v
theories/PropertiesGenerators.v
theories/ProofsCdf.v
theories/PropertiesCdf.v
theories/ModelNoiseText.v
theories/SpecNoiseText.v
theories/ProofsNoiseText.v
theories/PropertiesNoiseText.v
theories/ModelTctTyped.v
theories/ExamplesTctTyped.v
theories/ProofsTctTyped.v
theories/PropertiesTctTyped.v
theories/ModelNoiseChecks.v
theories/ProofsNoiseChecks.v
theories/PropertiesNoiseChecks.v
theories/SpecSimilarScan.v
theories/ProofsSimilarScan.v
theories/ProofsSimilarScan2.v
theories/ExamplesSimilarScan.v
theories/PropertiesSimilarScan.v
theories/ModelWarnings.v
theories/SpecWarnings.v
theories/ProofsWarnings.v
theories/ProofsWarnings2.v
theories/ProofsWarnings3.v
theories/ExamplesWarnings.v
theories/PropertiesWarnings.v
theories/SpecRepeat.v
theories/ProofsRepeat.v
theories/ExamplesRepeat.v
theories/PropertiesRepeat.v
theories/ProofsWarnings4.v
theories/SpecBoth.v
theories/ProofsBoth.v
theories/ExamplesBoth.v
theories/PropertiesBoth.v
theories/ProofsSame.v
theories/ExamplesSame.v
theories/PropertiesSame.v
theories/ModelPlotText.v
theories/SpecPlotText.v
theories/ProofsPlotText.v
theories/PropertiesPlotText.v
theories/SpecZero.v
theories/ProofsZero.v
theories/PropertiesZero.v
theories/ProofsTight.v
theories/PropertiesTight.v
theories/ModelResolution.v
theories/SpecResolution.v
theories/ProofsResolution.v
theories/PropertiesResolution.v
theories/ProofsOffset.v
theories/PropertiesOffset.v
theories/ProofsAreas3.v
theories/ExamplesAreas.v
theories/PropertiesAreas2.v
theories/SpecFloatTct.v
theories/ProofsFloatTct.v
theories/ProofsFloatTct2.v
theories/PropertiesFloatTct.v
theories/SpecPossible.v
theories/ProofsPossible.v
theories/PropertiesPossible.v
theories/SpecHeights.v
theories/ProofsHeights.v
theories/PropertiesHeights.v
theories/ProofsAnchors.v
theories/PropertiesAnchors.v
theories/ProofsDrawn.v
theories/PropertiesDrawn.v
theories/SpecSums.v
theories/ProofsSums.v
theories/ProofsSums2.v
theories/PropertiesSums.v
theories/ProofsAfter.v
theories/PropertiesAfter.v
