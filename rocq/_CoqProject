-Q theories Verif
theories/AdviserModel.v
theories/AdviserProgress.v
theories/AdviserProofs.v
theories/AdviserProperties.v
theories/Base.v
theories/CacheProperties.v
theories/CantileverModel.v
theories/CantileverProofs.v
theories/CantileverProperties.v
theories/CatalogModel.v
theories/CatalogProofs.v
theories/CatalogProperties.v
theories/CoilPatternModel.v
theories/CoilPatternProofs.v
theories/CoilPatternProperties.v
theories/CoilSplitModel.v
theories/CoilSplitProofs.v
theories/CoilSplitProperties.v
theories/CombinatorModel.v
theories/CombinatorProofs.v
theories/CombinatorProperties.v
theories/CoreHeatModel.v
theories/CoreHeatProperties.v
theories/CoreLossAgreeProperties.v
theories/CoreLossBiasProperties.v
theories/CoreLossCarrierProperties.v
theories/CoreLossChoiceModel.v
theories/CoreLossChoiceProperties.v
theories/CoreLossDrumProperties.v
theories/CoreLossInverseModel.v
theories/CoreLossInverseProperties.v
theories/CoreLossMakerProperties.v
theories/CoreLossModel.v
theories/CoreLossProofs.v
theories/CoreLossProperties.v
theories/CoreLossScaleProperties.v
theories/CoreLossSearchProperties.v
theories/CoreLossShapeProofs.v
theories/CoreLossShapeProperties.v
theories/CpermModel.v
theories/CpermProperties.v
theories/CrossModel.v
theories/CrossProofs.v
theories/CrossProperties.v
theories/CsvModel.v
theories/CsvProperties.v
theories/EnumModel.v
theories/EnumProperties.v
theories/ExcitationModel.v
theories/ExcitationProperties.v
theories/FftFigureProperties.v
theories/FftModel.v
theories/FftProofs.v
theories/FftProperties.v
theories/FilterModel.v
theories/FilterProperties.v
theories/FitModel.v
theories/FitProperties.v
theories/GapCoreProperties.v
theories/GapModel.v
theories/GapProofs.v
theories/GapProperties.v
theories/GapShapeProperties.v
theories/GappingAgainProperties.v
theories/GappingModel.v
theories/GappingPlaceProperties.v
theories/GappingProofs.v
theories/GappingProperties.v
theories/GateModel.v
theories/GateProperties.v
theories/HarmonicModel.v
theories/HarmonicProofs.v
theories/HarmonicProperties.v
theories/ImpedanceBuildProperties.v
theories/ImpedanceModel.v
theories/ImpedanceProofs.v
theories/ImpedanceProperties.v
theories/InductanceModel.v
theories/InductanceProofs.v
theories/InductanceProperties.v
theories/InsulationData.v
theories/InsulationModel.v
theories/InsulationMonotoneProperties.v
theories/InsulationProofs.v
theories/InsulationProperties.v
theories/InsulationTapeProperties.v
theories/InsulationWireProperties.v
theories/LadderModel.v
theories/LadderProperties.v
theories/LogModel.v
theories/LogOrder.v
theories/LogProgress.v
theories/LogProofs.v
theories/LogProperties.v
theories/LogSequential.v
theories/LoopModel.v
theories/LoopProperties.v
theories/LossBreakdownProperties.v
theories/LossFactorModel.v
theories/LossFactorProperties.v
theories/LossHarmonicProperties.v
theories/LossMatrixProperties.v
theories/LossModel.v
theories/LossProofs.v
theories/LossProperties.v
theories/LossSpec.v
theories/MatCrossModel.v
theories/MatCrossProperties.v
theories/MaterialModel.v
theories/MaterialProperties.v
theories/MeshProofs.v
theories/MeshProperties.v
theories/NetworkModel.v
theories/NetworkProofs.v
theories/NetworkProperties.v
theories/NumberTurnsModel.v
theories/NumberTurnsProperties.v
theories/PermeabilityCacheProperties.v
theories/PermeabilityFamilyProperties.v
theories/PermeabilityModel.v
theories/PermeabilityPointProperties.v
theories/PermeabilityProperties.v
theories/QAux.v
theories/RatingModel.v
theories/RatingProperties.v
theories/RoshenModel.v
theories/RoshenProofs.v
theories/RoshenProperties.v
theories/SettingsModel.v
theories/SettingsProperties.v
theories/ShapeCoreProperties.v
theories/ShapeModel.v
theories/ShapeProofs.v
theories/ShapeProperties.v
theories/ShapeScaleProofs.v
theories/ShapeScaleProperties.v
theories/ShapeSectionProperties.v
theories/SignalModel.v
theories/SignalProperties.v
theories/SignalTypeProperties.v
theories/SizingModel.v
theories/SizingProofs.v
theories/SizingProperties.v
theories/SizingVoltageProperties.v
theories/StationModel.v
theories/StationProperties.v
theories/StrMap.v
theories/StrayModel.v
theories/StrayPairProperties.v
theories/StrayProperties.v
theories/StrayTableProperties.v
theories/TextModel.v
theories/TextProofs.v
theories/TextProperties.v
theories/ThermalCoolingProperties.v
theories/ThermalFigureProperties.v
theories/ThermalLoop.v
theories/ThermalModel.v
theories/ThermalProofs.v
theories/ThermalProperties.v
theories/UtilsNumModel.v
theories/UtilsNumProofs.v
theories/UtilsNumProperties.v
theories/WaveCompressProperties.v
theories/WaveModel.v
theories/WavePeakProperties.v
theories/WaveProofs.v
theories/WaveProperties.v
theories/WaveSampleProperties.v
theories/WaveShapeProperties.v
theories/WindCoilProperties.v
theories/WindLayerProofs.v
theories/WindLayerProperties.v
theories/WindModel.v
theories/WindPlaceProperties.v
theories/WindProofs.v
theories/WindProperties.v
theories/WireAdviseModel.v
theories/WireAdviseProofs.v
theories/WireAdviseProperties.v
theories/WireChoiceModel.v
theories/WireChoiceProperties.v
theories/WireLabelModel.v
theories/WireLabelProperties.v
theories/WireModel.v
theories/WireProperties.v
theories/WireTableModel.v
theories/WireTableProperties.v
