(** The settings singleton: src/support/Settings.h and src/support/Settings.cpp.

    The tables below are transcribed member by member from the C++ text; the
    order is that of the source.  Values that are constants of
    src/Definitions.h or src/Constants.h, and enumerators, are kept as names. *)
From Coq Require Import List String Bool QArith.
From Verif Require Import Base.
Import ListNotations.
Open Scope string_scope.

(** A value of a member.  [VIndeterminate] is what reading a member that was
    never initialised gives. *)
Inductive value : Type :=
| VIndeterminate
| VNone
| VBool (b : bool)
| VNum (q : Q)
| VText (s : string)
| VEnum (s : string)
| VList (l : list value)
| VMap (l : list (string * Q)).

(** The members of one [Settings] object. *)
Definition store := string -> value.
Definition assign (m : string) (v : value) (s : store) : store :=
  fun m' => if String.eqb m' m then v else s m'.
Definition assigns (l : list (string * value)) (s : store) : store :=
  fold_left (fun s mv => assign (fst mv) (snd mv) s) l s.

(** src/support/Settings.h:26-232, the default member initialisers (an optional or
    a vector without one starts empty). *)
Definition member_initialisers : list (string * value) := [
  ("_useToroidalCores", VBool true);
  ("_useConcentricCores", VBool true);
  ("_inputsTrimHarmonics", VBool true);
  ("_magnetizingInductanceIncludeAirInductance", VBool false);
  ("_coilAllowMarginTape", VBool true);
  ("_coilAllowInsulatedWire", VBool true);
  ("_coilFillSectionsWithMarginTape", VBool false);
  ("_coilWindEvenIfNotFit", VBool false);
  ("_coilDelimitAndCompact", VBool true);
  ("_coilTryRewind", VBool true);
  ("_coilIncludeAdditionalCoordinates", VBool true);
  ("_coilEqualizeMargins", VBool true);
  ("_coilOnlyOneTurnPerLayerInContiguousRectangular", VBool false);
  ("_coilUseRealWindingGeometry", VBool false);
  ("_coilAllowCoatingSquish", VBool false);
  ("_coilAllowHorizontalOverflow", VBool false);
  ("_coilMaximumLayersPlanar", VNum 32);
  ("_useOnlyCoresInStock", VBool true);
  ("_usePowderCores", VBool true);
  ("_corePerColumnWindingWindows", VBool false);
  ("_coilAdviserAllowLateralPlacement", VBool false);
  ("_effectiveParameterStandard", VEnum "EffectiveParameterStandard.IEC_60205");
  ("_nanocrystallineStackingFactor", VNum (80 # 100));
  ("_painterNumberPointsX", VNum 25);
  ("_painterNumberPointsY", VNum 50);
  ("_painterMode", VEnum "PainterModes.CONTOUR");
  ("_painterLogarithmicScale", VBool false);
  ("_painterIncludeFringing", VBool true);
  ("_painterDrawSpacer", VBool true);
  ("_painterSimpleLitz", VBool true);
  ("_painterAdvancedLitz", VBool false);
  ("_painterMaximumValueColorbar", VNone);
  ("_painterMinimumValueColorbar", VNone);
  ("_painterColorFerrite", VText "0x7b7c7d");
  ("_painterColorBobbin", VText "0x539796");
  ("_painterColorCopper", VText "0xb87333");
  ("_painterColorInsulation", VText "0xfff05b");
  ("_painterColorFr4", VText "0x008000");
  ("_painterColorEnamel", VText "0xc63032");
  ("_painterColorFEP", VText "0x252525");
  ("_painterColorETFE", VText "0xb42811");
  ("_painterColorTCA", VText "0x696969");
  ("_painterColorPFA", VText "0xedbe1c");
  ("_painterColorSilk", VText "0xe7e7e8");
  ("_painterColorMargin", VText "0xfff05b");
  ("_painterColorSpacer", VText "0x3b3b3b");
  ("_painterColorLines", VText "0x010000");
  ("_painterColorText", VText "0x000000");
  ("_painterColorCurrentDensity", VText "0x0892D0");
  ("_painterCciCoordinatesPath", VNone);
  ("_painterColorMagneticFieldMinimum", VText "0x2b35f5");
  ("_painterColorMagneticFieldMaximum", VText "0xe84922");
  ("_painterMagneticFieldStrengthModel", VNone);
  ("_magneticFieldNumberPointsX", VNum 25);
  ("_magneticFieldNumberPointsY", VNum 50);
  ("_magneticFieldIncludeFringing", VBool true);
  ("_coilMesherInsideTurnsFactor", VNum (105 # 100));
  ("_leakageInductanceGridAutoScaling", VBool true);
  ("_leakageInductanceGridPrecisionLevelPlanar", VNum 3);
  ("_leakageInductanceGridPrecisionLevelWound", VNum 1);
  ("_coilAdviserMaximumNumberWires", VNum 30);
  ("_coreAdviserIncludeStacks", VBool true);
  ("_coreAdviserIncludeDistributedGaps", VBool true);
  ("_coreAdviserIncludeMargin", VBool false);
  ("_coreAdviserEnableIntermediatePruning", VBool true);
  ("_coreAdviserEnableTemperatureFilter", VBool false);
  ("_coreAdviserMaximumTemperature", VNum (1300 # 10));
  ("_coreAdviserSaturationMargin", VNum (12 # 10));
  ("_coreAdviserSaturationDeratingTemperature", VNum (1000 # 10));
  ("_gappingStrategy", VEnum "GappingOptimizationStrategy.SIMPLE");
  ("_wireAdviserIncludePlanar", VBool false);
  ("_wireAdviserIncludeFoil", VBool false);
  ("_wireAdviserIncludeRectangular", VBool true);
  ("_wireAdviserIncludeLitz", VBool true);
  ("_wireAdviserIncludeRound", VBool true);
  ("_wireAdviserAllowRectangularInToroidalCores", VBool false);
  ("_harmonicAmplitudeThresholdQuickMode", VBool true);
  ("_coreLossesModelNames", VList []);
  ("_coilEnableUserWindingLossesModels", VBool false);
  ("_circuitSimulatorCurveFittingMode", VNum 0);
  ("_circuitSimulatorFracpoleOptions", VNone);
  ("_circuitSimulatorIncludeSaturation", VBool false);
  ("_circuitSimulatorIncludeMutualResistance", VBool false);
  ("_circuitSimulatorIncludeStrayCapacitance", VBool true);
  ("_circuitSimulatorIncludeSteinmetzCoreLoss", VBool false);
  ("_circuitSimulatorCoreLossTopology", VNum 1);
  ("_verbose", VBool false);
  ("_preferredCoreMaterialFerriteManufacturer", VText "Fair-Rite");
  ("_preferredCoreMaterialPowderManufacturer", VText "Micrometals");
  ("_coreCrossReferencerAllowDifferentCoreMaterialType", VBool false);
  ("_debug", VBool false)
].

(** src/support/Settings.cpp:32-62, the constructor. *)
Definition constructor_assignments : list (string * value) := [
  ("_inputsNumberPointsSampledWaveforms", VEnum "Constants.numberPointsSampledWaveforms");
  ("_painterMirroringDimension", VEnum "Defaults.magneticFieldMirroringDimension");
  ("_magneticFieldMirroringDimension", VEnum "Defaults.magneticFieldMirroringDimension");
  ("_harmonicAmplitudeThreshold", VEnum "Defaults.harmonicAmplitudeThreshold");
  ("_coreLossesModelNames", VList [VEnum "Defaults.coreLossesModelDefault"; VEnum "CoreLossesModels.PROPRIETARY"; VEnum "CoreLossesModels.LOSS_FACTOR"; VEnum "CoreLossesModels.STEINMETZ"; VEnum "CoreLossesModels.ROSHEN"]);
  ("_magneticFieldStrengthModel", VEnum "Defaults.magneticFieldStrengthModelDefault");
  ("_magneticFieldStrengthFringingEffectModel", VEnum "Defaults.magneticFieldStrengthFringingEffectModelDefault");
  ("_leakageInductanceMagneticFieldStrengthModel", VEnum "MagneticFieldStrengthModels.BINNS_LAWRENSON");
  ("_reluctanceModel", VEnum "Defaults.reluctanceModelDefault");
  ("_coreTemperatureModel", VEnum "Defaults.coreTemperatureModelDefault");
  ("_coreThermalResistanceModel", VEnum "Defaults.coreThermalResistanceModelDefault");
  ("_windingSkinEffectLossesModel", VEnum "WindingSkinEffectLossesModels.DOWELL");
  ("_windingProximityEffectLossesModel", VEnum "WindingProximityEffectLossesModels.FERREIRA");
  ("_strayCapacitanceModel", VEnum "StrayCapacitanceModels.ALBACH");
  ("_electricFieldOutputUnit", VEnum "ElectricFieldOutputUnit.JOULES_PER_CUBIC_METER");
  ("_coilEnableUserWindingLossesModels", VBool false);
  ("_coreAdviserMaximumMagneticsAfterFiltering", VEnum "Defaults.coreAdviserMaximumMagneticsAfterFiltering");
  ("_effectiveParameterStandard", VEnum "EffectiveParameterStandard.IEC_60205");
  ("_circuitSimulatorCurveFittingMode", VNum 0);
  ("_circuitSimulatorFracpoleOptions", VNone);
  ("_circuitSimulatorIncludeSaturation", VBool false);
  ("_circuitSimulatorCoreLossTopology", VNum 1)
].

(** src/support/Settings.cpp:65-213, the assignments of [reset]. *)
Definition reset_assignments : list (string * value) := [
  ("_useToroidalCores", VBool true);
  ("_useConcentricCores", VBool true);
  ("_inputsTrimHarmonics", VBool true);
  ("_inputsNumberPointsSampledWaveforms", VEnum "Constants.numberPointsSampledWaveforms");
  ("_magnetizingInductanceIncludeAirInductance", VBool false);
  ("_coilAllowMarginTape", VBool true);
  ("_coilAllowInsulatedWire", VBool true);
  ("_coilFillSectionsWithMarginTape", VBool false);
  ("_coilWindEvenIfNotFit", VBool false);
  ("_coilDelimitAndCompact", VBool true);
  ("_coilTryRewind", VBool true);
  ("_coilIncludeAdditionalCoordinates", VBool true);
  ("_coilEqualizeMargins", VBool true);
  ("_coilOnlyOneTurnPerLayerInContiguousRectangular", VBool false);
  ("_coilUseRealWindingGeometry", VBool false);
  ("_coilAllowCoatingSquish", VBool false);
  ("_coilAllowHorizontalOverflow", VBool false);
  ("_coilMaximumLayersPlanar", VNum 32);
  ("_useOnlyCoresInStock", VBool true);
  ("_usePowderCores", VBool true);
  ("_corePerColumnWindingWindows", VBool false);
  ("_coilAdviserAllowLateralPlacement", VBool false);
  ("_gappingStrategy", VEnum "GappingOptimizationStrategy.SIMPLE");
  ("_nanocrystallineStackingFactor", VNum (80 # 100));
  ("_effectiveParameterStandard", VEnum "EffectiveParameterStandard.IEC_60205");
  ("_painterNumberPointsX", VNum 25);
  ("_painterNumberPointsY", VNum 50);
  ("_painterMirroringDimension", VEnum "Defaults.magneticFieldMirroringDimension");
  ("_painterMode", VEnum "PainterModes.CONTOUR");
  ("_painterLogarithmicScale", VBool false);
  ("_painterIncludeFringing", VBool true);
  ("_painterDrawSpacer", VBool true);
  ("_painterSimpleLitz", VBool true);
  ("_painterAdvancedLitz", VBool false);
  ("_painterMaximumValueColorbar", VNone);
  ("_painterMinimumValueColorbar", VNone);
  ("_painterColorFerrite", VText "0x7b7c7d");
  ("_painterColorBobbin", VText "0x539796");
  ("_painterColorCopper", VText "0xb87333");
  ("_painterColorInsulation", VText "0xfff05b");
  ("_painterColorFr4", VText "0x008000");
  ("_painterColorMargin", VText "0xfff05b");
  ("_painterColorEnamel", VText "0xc63032");
  ("_painterColorFEP", VText "0x252525");
  ("_painterColorETFE", VText "0xb42811");
  ("_painterColorTCA", VText "0x696969");
  ("_painterColorPFA", VText "0xedbe1c");
  ("_painterColorSilk", VText "0xe7e7e8");
  ("_painterColorSpacer", VText "0x3b3b3b");
  ("_painterColorLines", VText "0x010000");
  ("_painterColorText", VText "0x000000");
  ("_painterColorCurrentDensity", VText "0x0892D0");
  ("_painterCciCoordinatesPath", VNone);
  ("_painterColorMagneticFieldMinimum", VText "0x2b35f5");
  ("_painterColorMagneticFieldMaximum", VText "0xe84922");
  ("_painterMagneticFieldStrengthModel", VNone);
  ("_magneticFieldNumberPointsX", VNum 25);
  ("_magneticFieldNumberPointsY", VNum 50);
  ("_magneticFieldMirroringDimension", VEnum "Defaults.magneticFieldMirroringDimension");
  ("_magneticFieldIncludeFringing", VBool true);
  ("_coilMesherInsideTurnsFactor", VNum (105 # 100));
  ("_leakageInductanceGridAutoScaling", VBool true);
  ("_leakageInductanceGridPrecisionLevelPlanar", VNum 3);
  ("_leakageInductanceGridPrecisionLevelWound", VNum 1);
  ("_coilAdviserMaximumNumberWires", VNum 30);
  ("_coreAdviserIncludeStacks", VBool true);
  ("_coreAdviserIncludeDistributedGaps", VBool true);
  ("_coreAdviserIncludeMargin", VBool false);
  ("_coreAdviserEnableIntermediatePruning", VBool true);
  ("_coreAdviserMaximumMagneticsAfterFiltering", VEnum "Defaults.coreAdviserMaximumMagneticsAfterFiltering");
  ("_coreAdviserEnableTemperatureFilter", VBool false);
  ("_coreAdviserMaximumTemperature", VNum (1300 # 10));
  ("_coreAdviserSaturationMargin", VNum (12 # 10));
  ("_coreAdviserSaturationDeratingTemperature", VNum (1000 # 10));
  ("_wireAdviserIncludePlanar", VBool false);
  ("_wireAdviserIncludeFoil", VBool false);
  ("_wireAdviserIncludeRectangular", VBool true);
  ("_wireAdviserIncludeLitz", VBool true);
  ("_wireAdviserIncludeRound", VBool true);
  ("_wireAdviserAllowRectangularInToroidalCores", VBool false);
  ("_harmonicAmplitudeThresholdQuickMode", VBool true);
  ("_harmonicAmplitudeThreshold", VEnum "Defaults.harmonicAmplitudeThreshold");
  ("_verbose", VBool false);
  ("_preferredCoreMaterialFerriteManufacturer", VText "Fair-Rite");
  ("_preferredCoreMaterialPowderManufacturer", VText "Micrometals");
  ("_coreCrossReferencerAllowDifferentCoreMaterialType", VBool false);
  ("_magneticFieldStrengthModel", VEnum "Defaults.magneticFieldStrengthModelDefault");
  ("_magneticFieldStrengthFringingEffectModel", VEnum "Defaults.magneticFieldStrengthFringingEffectModelDefault");
  ("_leakageInductanceMagneticFieldStrengthModel", VEnum "MagneticFieldStrengthModels.BINNS_LAWRENSON");
  ("_reluctanceModel", VEnum "Defaults.reluctanceModelDefault");
  ("_coreTemperatureModel", VEnum "Defaults.coreTemperatureModelDefault");
  ("_coreThermalResistanceModel", VEnum "Defaults.coreThermalResistanceModelDefault");
  ("_windingSkinEffectLossesModel", VEnum "WindingSkinEffectLossesModels.DOWELL");
  ("_windingProximityEffectLossesModel", VEnum "WindingProximityEffectLossesModels.FERREIRA");
  ("_strayCapacitanceModel", VEnum "StrayCapacitanceModels.ALBACH");
  ("_electricFieldOutputUnit", VEnum "ElectricFieldOutputUnit.JOULES_PER_CUBIC_METER");
  ("_coilEnableUserWindingLossesModels", VBool false);
  ("_coreLossesModelNames", VList [VEnum "Defaults.coreLossesModelDefault"; VEnum "CoreLossesModels.PROPRIETARY"; VEnum "CoreLossesModels.LOSS_FACTOR"; VEnum "CoreLossesModels.STEINMETZ"; VEnum "CoreLossesModels.ROSHEN"]);
  ("_circuitSimulatorCurveFittingMode", VNum 0);
  ("_circuitSimulatorFracpoleOptions", VNone);
  ("_circuitSimulatorIncludeSaturation", VBool false);
  ("_circuitSimulatorIncludeMutualResistance", VBool false);
  ("_circuitSimulatorIncludeStrayCapacitance", VBool true);
  ("_circuitSimulatorIncludeSteinmetzCoreLoss", VBool false);
  ("_circuitSimulatorCoreLossTopology", VNum 1)
].

(** The getters that return a member, with the member
    (src/support/Settings.cpp:215-1038).  [try_get_painter_cci_coordinates_path]
    consults the member and then, when it is empty, the environment and the file
    system, which no setting affects; it is listed as reading the member. *)
Definition getters : list (string * string) := [
  ("get_verbose", "_verbose");
  ("get_use_toroidal_cores", "_useToroidalCores");
  ("get_use_concentric_cores", "_useConcentricCores");
  ("get_inputs_trim_harmonics", "_inputsTrimHarmonics");
  ("get_inputs_number_points_sampled_waveforms", "_inputsNumberPointsSampledWaveforms");
  ("get_magnetizing_inductance_include_air_inductance", "_magnetizingInductanceIncludeAirInductance");
  ("get_coil_allow_margin_tape", "_coilAllowMarginTape");
  ("get_coil_allow_insulated_wire", "_coilAllowInsulatedWire");
  ("get_coil_fill_sections_with_margin_tape", "_coilFillSectionsWithMarginTape");
  ("get_coil_wind_even_if_not_fit", "_coilWindEvenIfNotFit");
  ("get_coil_delimit_and_compact", "_coilDelimitAndCompact");
  ("get_coil_try_rewind", "_coilTryRewind");
  ("get_coil_include_additional_coordinates", "_coilIncludeAdditionalCoordinates");
  ("get_coil_equalize_margins", "_coilEqualizeMargins");
  ("get_coil_only_one_turn_per_layer_in_contiguous_rectangular", "_coilOnlyOneTurnPerLayerInContiguousRectangular");
  ("get_coil_use_real_winding_geometry", "_coilUseRealWindingGeometry");
  ("get_coil_allow_coating_squish", "_coilAllowCoatingSquish");
  ("get_coil_allow_horizontal_overflow", "_coilAllowHorizontalOverflow");
  ("get_coil_maximum_layers_planar", "_coilMaximumLayersPlanar");
  ("get_use_only_cores_in_stock", "_useOnlyCoresInStock");
  ("get_use_powder_cores", "_usePowderCores");
  ("get_core_per_column_winding_windows", "_corePerColumnWindingWindows");
  ("get_coil_adviser_allow_lateral_placement", "_coilAdviserAllowLateralPlacement");
  ("get_effective_parameter_standard", "_effectiveParameterStandard");
  ("get_nanocrystalline_stacking_factor", "_nanocrystallineStackingFactor");
  ("get_painter_number_points_x", "_painterNumberPointsX");
  ("get_painter_number_points_y", "_painterNumberPointsY");
  ("get_painter_mode", "_painterMode");
  ("get_painter_logarithmic_scale", "_painterLogarithmicScale");
  ("get_painter_include_fringing", "_painterIncludeFringing");
  ("get_painter_draw_spacer", "_painterDrawSpacer");
  ("get_painter_simple_litz", "_painterSimpleLitz");
  ("get_painter_advanced_litz", "_painterAdvancedLitz");
  ("get_painter_maximum_value_colorbar", "_painterMaximumValueColorbar");
  ("get_painter_minimum_value_colorbar", "_painterMinimumValueColorbar");
  ("get_painter_color_ferrite", "_painterColorFerrite");
  ("get_painter_color_bobbin", "_painterColorBobbin");
  ("get_painter_color_copper", "_painterColorCopper");
  ("get_painter_color_insulation", "_painterColorInsulation");
  ("get_painter_color_fr4", "_painterColorFr4");
  ("get_painter_color_margin", "_painterColorMargin");
  ("get_painter_color_spacer", "_painterColorSpacer");
  ("get_painter_color_lines", "_painterColorLines");
  ("get_painter_color_text", "_painterColorText");
  ("get_painter_color_enamel", "_painterColorEnamel");
  ("get_painter_color_fep", "_painterColorFEP");
  ("get_painter_color_etfe", "_painterColorETFE");
  ("get_painter_color_tca", "_painterColorTCA");
  ("get_painter_color_pfa", "_painterColorPFA");
  ("get_painter_color_silk", "_painterColorSilk");
  ("get_painter_color_current_density", "_painterColorCurrentDensity");
  ("get_painter_color_magnetic_field_minimum", "_painterColorMagneticFieldMinimum");
  ("get_painter_color_magnetic_field_maximum", "_painterColorMagneticFieldMaximum");
  ("get_painter_magnetic_field_strength_model", "_painterMagneticFieldStrengthModel");
  ("get_painter_mirroring_dimension", "_painterMirroringDimension");
  ("get_magnetic_field_number_points_x", "_magneticFieldNumberPointsX");
  ("get_magnetic_field_number_points_y", "_magneticFieldNumberPointsY");
  ("get_magnetic_field_mirroring_dimension", "_magneticFieldMirroringDimension");
  ("get_magnetic_field_include_fringing", "_magneticFieldIncludeFringing");
  ("get_coil_mesher_inside_turns_factor", "_coilMesherInsideTurnsFactor");
  ("get_leakage_inductance_grid_auto_scaling", "_leakageInductanceGridAutoScaling");
  ("get_leakage_inductance_grid_precision_level_planar", "_leakageInductanceGridPrecisionLevelPlanar");
  ("get_leakage_inductance_grid_precision_level_wound", "_leakageInductanceGridPrecisionLevelWound");
  ("get_coil_adviser_maximum_number_wires", "_coilAdviserMaximumNumberWires");
  ("get_core_adviser_include_stacks", "_coreAdviserIncludeStacks");
  ("get_core_adviser_include_distributed_gaps", "_coreAdviserIncludeDistributedGaps");
  ("get_core_adviser_include_margin", "_coreAdviserIncludeMargin");
  ("get_core_adviser_enable_intermediate_pruning", "_coreAdviserEnableIntermediatePruning");
  ("get_core_adviser_maximum_magnetics_after_filtering", "_coreAdviserMaximumMagneticsAfterFiltering");
  ("get_core_adviser_enable_temperature_filter", "_coreAdviserEnableTemperatureFilter");
  ("get_core_adviser_maximum_temperature", "_coreAdviserMaximumTemperature");
  ("get_core_adviser_saturation_margin", "_coreAdviserSaturationMargin");
  ("get_core_adviser_saturation_derating_temperature", "_coreAdviserSaturationDeratingTemperature");
  ("get_gapping_strategy", "_gappingStrategy");
  ("get_wire_adviser_include_planar", "_wireAdviserIncludePlanar");
  ("get_wire_adviser_include_foil", "_wireAdviserIncludeFoil");
  ("get_wire_adviser_include_rectangular", "_wireAdviserIncludeRectangular");
  ("get_wire_adviser_include_litz", "_wireAdviserIncludeLitz");
  ("get_wire_adviser_include_round", "_wireAdviserIncludeRound");
  ("get_wire_adviser_allow_rectangular_in_toroidal_cores", "_wireAdviserAllowRectangularInToroidalCores");
  ("get_harmonic_amplitude_threshold_quick_mode", "_harmonicAmplitudeThresholdQuickMode");
  ("get_harmonic_amplitude_threshold", "_harmonicAmplitudeThreshold");
  ("get_core_losses_model_names", "_coreLossesModelNames");
  ("get_preferred_core_material_ferrite_manufacturer", "_preferredCoreMaterialFerriteManufacturer");
  ("get_preferred_core_material_powder_manufacturer", "_preferredCoreMaterialPowderManufacturer");
  ("get_core_cross_referencer_allow_different_core_material_type", "_coreCrossReferencerAllowDifferentCoreMaterialType");
  ("get_magnetic_field_strength_model", "_magneticFieldStrengthModel");
  ("get_magnetic_field_strength_fringing_effect_model", "_magneticFieldStrengthFringingEffectModel");
  ("get_leakage_inductance_magnetic_field_strength_model", "_leakageInductanceMagneticFieldStrengthModel");
  ("get_reluctance_model", "_reluctanceModel");
  ("get_core_temperature_model", "_coreTemperatureModel");
  ("get_core_thermal_resistance_model", "_coreThermalResistanceModel");
  ("get_winding_skin_effect_losses_model", "_windingSkinEffectLossesModel");
  ("get_winding_proximity_effect_losses_model", "_windingProximityEffectLossesModel");
  ("get_stray_capacitance_model", "_strayCapacitanceModel");
  ("get_electric_field_output_unit", "_electricFieldOutputUnit");
  ("get_coil_enable_user_winding_losses_models", "_coilEnableUserWindingLossesModels");
  ("get_circuit_simulator_curve_fitting_mode", "_circuitSimulatorCurveFittingMode");
  ("get_circuit_simulator_fracpole_options", "_circuitSimulatorFracpoleOptions");
  ("get_circuit_simulator_include_saturation", "_circuitSimulatorIncludeSaturation");
  ("get_circuit_simulator_include_mutual_resistance", "_circuitSimulatorIncludeMutualResistance");
  ("get_circuit_simulator_include_stray_capacitance", "_circuitSimulatorIncludeStrayCapacitance");
  ("get_circuit_simulator_include_steinmetz_core_loss", "_circuitSimulatorIncludeSteinmetzCoreLoss");
  ("get_circuit_simulator_core_loss_topology", "_circuitSimulatorCoreLossTopology");
  ("try_get_painter_cci_coordinates_path", "_painterCciCoordinatesPath")
].

(** The setters that store their argument (same file). *)
Definition setters : list (string * string) := [
  ("set_verbose", "_verbose");
  ("set_use_toroidal_cores", "_useToroidalCores");
  ("set_use_concentric_cores", "_useConcentricCores");
  ("set_inputs_trim_harmonics", "_inputsTrimHarmonics");
  ("set_inputs_number_points_sampled_waveforms", "_inputsNumberPointsSampledWaveforms");
  ("set_magnetizing_inductance_include_air_inductance", "_magnetizingInductanceIncludeAirInductance");
  ("set_coil_allow_margin_tape", "_coilAllowMarginTape");
  ("set_coil_allow_insulated_wire", "_coilAllowInsulatedWire");
  ("set_coil_fill_sections_with_margin_tape", "_coilFillSectionsWithMarginTape");
  ("set_coil_wind_even_if_not_fit", "_coilWindEvenIfNotFit");
  ("set_coil_delimit_and_compact", "_coilDelimitAndCompact");
  ("set_coil_try_rewind", "_coilTryRewind");
  ("set_coil_include_additional_coordinates", "_coilIncludeAdditionalCoordinates");
  ("set_coil_equalize_margins", "_coilEqualizeMargins");
  ("set_coil_only_one_turn_per_layer_in_contiguous_rectangular", "_coilOnlyOneTurnPerLayerInContiguousRectangular");
  ("set_coil_use_real_winding_geometry", "_coilUseRealWindingGeometry");
  ("set_coil_allow_coating_squish", "_coilAllowCoatingSquish");
  ("set_coil_allow_horizontal_overflow", "_coilAllowHorizontalOverflow");
  ("set_coil_maximum_layers_planar", "_coilMaximumLayersPlanar");
  ("set_use_only_cores_in_stock", "_useOnlyCoresInStock");
  ("set_use_powder_cores", "_usePowderCores");
  ("set_core_per_column_winding_windows", "_corePerColumnWindingWindows");
  ("set_coil_adviser_allow_lateral_placement", "_coilAdviserAllowLateralPlacement");
  ("set_effective_parameter_standard", "_effectiveParameterStandard");
  ("set_nanocrystalline_stacking_factor", "_nanocrystallineStackingFactor");
  ("set_painter_number_points_x", "_painterNumberPointsX");
  ("set_painter_number_points_y", "_painterNumberPointsY");
  ("set_painter_mode", "_painterMode");
  ("set_painter_logarithmic_scale", "_painterLogarithmicScale");
  ("set_painter_include_fringing", "_painterIncludeFringing");
  ("set_painter_draw_spacer", "_painterDrawSpacer");
  ("set_painter_simple_litz", "_painterSimpleLitz");
  ("set_painter_advanced_litz", "_painterAdvancedLitz");
  ("set_painter_maximum_value_colorbar", "_painterMaximumValueColorbar");
  ("set_painter_minimum_value_colorbar", "_painterMinimumValueColorbar");
  ("set_painter_color_ferrite", "_painterColorFerrite");
  ("set_painter_color_bobbin", "_painterColorBobbin");
  ("set_painter_color_copper", "_painterColorCopper");
  ("set_painter_color_insulation", "_painterColorInsulation");
  ("set_painter_color_fr4", "_painterColorFr4");
  ("set_painter_color_margin", "_painterColorMargin");
  ("set_painter_color_spacer", "_painterColorSpacer");
  ("set_painter_color_lines", "_painterColorLines");
  ("set_painter_color_text", "_painterColorText");
  ("set_painter_cci_coordinates_path", "_painterCciCoordinatesPath");
  ("set_painter_color_enamel", "_painterColorEnamel");
  ("set_painter_color_fep", "_painterColorFEP");
  ("set_painter_color_etfe", "_painterColorETFE");
  ("set_painter_color_tca", "_painterColorTCA");
  ("set_painter_color_pfa", "_painterColorPFA");
  ("set_painter_color_silk", "_painterColorSilk");
  ("set_painter_color_current_density", "_painterColorCurrentDensity");
  ("set_painter_color_magnetic_field_minimum", "_painterColorMagneticFieldMinimum");
  ("set_painter_color_magnetic_field_maximum", "_painterColorMagneticFieldMaximum");
  ("set_painter_magnetic_field_strength_model", "_painterMagneticFieldStrengthModel");
  ("set_painter_mirroring_dimension", "_painterMirroringDimension");
  ("set_magnetic_field_number_points_x", "_magneticFieldNumberPointsX");
  ("set_magnetic_field_number_points_y", "_magneticFieldNumberPointsY");
  ("set_magnetic_field_mirroring_dimension", "_magneticFieldMirroringDimension");
  ("set_magnetic_field_include_fringing", "_magneticFieldIncludeFringing");
  ("set_coil_mesher_inside_turns_factor", "_coilMesherInsideTurnsFactor");
  ("set_leakage_inductance_grid_auto_scaling", "_leakageInductanceGridAutoScaling");
  ("set_leakage_inductance_grid_precision_level_planar", "_leakageInductanceGridPrecisionLevelPlanar");
  ("set_leakage_inductance_grid_precision_level_wound", "_leakageInductanceGridPrecisionLevelWound");
  ("set_coil_adviser_maximum_number_wires", "_coilAdviserMaximumNumberWires");
  ("set_core_adviser_include_stacks", "_coreAdviserIncludeStacks");
  ("set_core_adviser_include_distributed_gaps", "_coreAdviserIncludeDistributedGaps");
  ("set_core_adviser_include_margin", "_coreAdviserIncludeMargin");
  ("set_core_adviser_enable_intermediate_pruning", "_coreAdviserEnableIntermediatePruning");
  ("set_core_adviser_maximum_magnetics_after_filtering", "_coreAdviserMaximumMagneticsAfterFiltering");
  ("set_core_adviser_enable_temperature_filter", "_coreAdviserEnableTemperatureFilter");
  ("set_core_adviser_maximum_temperature", "_coreAdviserMaximumTemperature");
  ("set_gapping_strategy", "_gappingStrategy");
  ("set_wire_adviser_include_planar", "_wireAdviserIncludePlanar");
  ("set_wire_adviser_include_foil", "_wireAdviserIncludeFoil");
  ("set_wire_adviser_include_rectangular", "_wireAdviserIncludeRectangular");
  ("set_wire_adviser_include_litz", "_wireAdviserIncludeLitz");
  ("set_wire_adviser_include_round", "_wireAdviserIncludeRound");
  ("set_wire_adviser_allow_rectangular_in_toroidal_cores", "_wireAdviserAllowRectangularInToroidalCores");
  ("set_harmonic_amplitude_threshold_quick_mode", "_harmonicAmplitudeThresholdQuickMode");
  ("set_harmonic_amplitude_threshold", "_harmonicAmplitudeThreshold");
  ("set_preferred_core_material_ferrite_manufacturer", "_preferredCoreMaterialFerriteManufacturer");
  ("set_preferred_core_material_powder_manufacturer", "_preferredCoreMaterialPowderManufacturer");
  ("set_core_cross_referencer_allow_different_core_material_type", "_coreCrossReferencerAllowDifferentCoreMaterialType");
  ("set_magnetic_field_strength_model", "_magneticFieldStrengthModel");
  ("set_magnetic_field_strength_fringing_effect_model", "_magneticFieldStrengthFringingEffectModel");
  ("set_leakage_inductance_magnetic_field_strength_model", "_leakageInductanceMagneticFieldStrengthModel");
  ("set_reluctance_model", "_reluctanceModel");
  ("set_core_temperature_model", "_coreTemperatureModel");
  ("set_core_thermal_resistance_model", "_coreThermalResistanceModel");
  ("set_winding_skin_effect_losses_model", "_windingSkinEffectLossesModel");
  ("set_winding_proximity_effect_losses_model", "_windingProximityEffectLossesModel");
  ("set_stray_capacitance_model", "_strayCapacitanceModel");
  ("set_electric_field_output_unit", "_electricFieldOutputUnit");
  ("set_coil_enable_user_winding_losses_models", "_coilEnableUserWindingLossesModels");
  ("set_circuit_simulator_curve_fitting_mode", "_circuitSimulatorCurveFittingMode");
  ("set_circuit_simulator_fracpole_options", "_circuitSimulatorFracpoleOptions");
  ("set_circuit_simulator_include_saturation", "_circuitSimulatorIncludeSaturation");
  ("set_circuit_simulator_include_mutual_resistance", "_circuitSimulatorIncludeMutualResistance");
  ("set_circuit_simulator_include_stray_capacitance", "_circuitSimulatorIncludeStrayCapacitance");
  ("set_circuit_simulator_include_steinmetz_core_loss", "_circuitSimulatorIncludeSteinmetzCoreLoss");
  ("set_circuit_simulator_core_loss_topology", "_circuitSimulatorCoreLossTopology")
].

Fixpoint named (l : list (string * string)) (n : string) : option string :=
  match l with
  | [] => None
  | (k, m) :: r => if String.eqb n k then Some m else named r n
  end.

(** Settings.cpp:33-62: a new object. *)
Definition fresh : store :=
  assigns constructor_assignments (assigns member_initialisers (fun _ => VIndeterminate)).

Definition get (g : string) (s : store) : option value := option_map s (named getters g).

(** A call of the setter [n].
    - Settings.cpp:796-805 [set_core_adviser_saturation_margin] and 809-816
      [set_core_adviser_saturation_derating_temperature] refuse a value below
      their bound (a NaN, here a value that is not a number, passes the test);
    - Settings.cpp:884-886 [set_core_losses_preferred_model_name] puts its
      argument in front of the fixed list;
    - every other setter stores its argument. *)
Definition set (n : string) (v : value) (s : store) : outcome store :=
  if String.eqb n "set_core_adviser_saturation_margin" then
    match v with
    | VNum q => if Qlt_bool q 1 then Throw "invalid_argument"
                else Ok (assign "_coreAdviserSaturationMargin" v s)
    | _ => Ok (assign "_coreAdviserSaturationMargin" v s)
    end
  else if String.eqb n "set_core_adviser_saturation_derating_temperature" then
    match v with
    | VNum q => if Qlt_bool q (-27315 # 100) then Throw "invalid_argument"
                else Ok (assign "_coreAdviserSaturationDeratingTemperature" v s)
    | _ => Ok (assign "_coreAdviserSaturationDeratingTemperature" v s)
    end
  else if String.eqb n "set_core_losses_preferred_model_name" then
    Ok (assign "_coreLossesModelNames"
          (VList [v; VEnum "CoreLossesModels.PROPRIETARY"; VEnum "CoreLossesModels.LOSS_FACTOR";
                  VEnum "CoreLossesModels.STEINMETZ"; VEnum "CoreLossesModels.ROSHEN"]) s)
  else match named setters n with
       | Some m => Ok (assign m v s)
       | None => Throw "no such setter"
       end.

(** A sequence of setter calls; a refused call leaves the object as it is. *)
Definition set_quietly (s : store) (nv : string * value) : store :=
  match set (fst nv) (snd nv) s with Ok s' => s' | _ => s end.
Definition after_setters (h : list (string * value)) (s : store) : store :=
  fold_left set_quietly h s.

(** The members part of [reset]. *)
Definition reset_members (s : store) : store := assigns reset_assignments s.

Definition flag (m : string) (s : store) : bool := match s m with VBool b => b | _ => false end.
(** Settings.cpp:207-213: [reset] drops the loaded cores and shapes when one of the
    three flags that decide what is loaded changes. *)
Definition reset_drops_catalogs (s : store) : bool :=
  let s' := reset_members s in
  negb (Bool.eqb (flag "_useToroidalCores" s) (flag "_useToroidalCores" s'))
  || negb (Bool.eqb (flag "_useConcentricCores" s) (flag "_useConcentricCores" s'))
  || negb (Bool.eqb (flag "_useOnlyCoresInStock" s) (flag "_useOnlyCoresInStock" s')).
