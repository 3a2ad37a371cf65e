(** Enumerations and their text forms: src/Definitions.h, src/Models.h, src/advisers/CoreAdviser.h and
    src/processors/CircuitSimulatorInterface.h.  A JSON value is [json] of TextModel.v.

    The bodies of [write_…] and [read_…] are transcribed from the sources line by line: the texts, their
    order and the value each gives. *)
From Coq Require Import List String Bool QArith.
Import ListNotations.
From Verif Require Import Base TextModel.
Open Scope string_scope.

(** The if / else if chain of every [from_json] of an enumeration (for instance src/Definitions.h:45-51):
    the rows are tried in order, a row accepts the JSON strings it lists, anything else throws.  Comparing
    a JSON value that is not a string with a text gives false.  Simplified: the exception carries the name
    of the enumeration only. *)
Fixpoint read_enum {E : Type} (rows : list (list string * E)) (name : string) (j : json) : outcome E :=
  match rows with
  | [] => Throw ("Input JSON does not conform to schema: " ++ name)
  | (texts, x) :: rest =>
      if existsb (fun t => match j with JStr s => String.eqb s t | _ => false end) texts then Ok x
      else read_enum rest name j
  end.

(** src/Definitions.h:10-14. *)
Inductive DimensionalValues :=
| DimensionalValues_MAXIMUM
| DimensionalValues_NOMINAL
| DimensionalValues_MINIMUM.

(** src/Definitions.h:26-33 [to_json]. *)
Definition write_DimensionalValues (x : DimensionalValues) : string :=
  match x with
  | DimensionalValues_MAXIMUM => "Maximum"
  | DimensionalValues_NOMINAL => "Nominal"
  | DimensionalValues_MINIMUM => "Minimum"
  end.

(** src/Definitions.h:19-24 [from_json]. *)
Definition read_DimensionalValues (j : json) : outcome DimensionalValues :=
  read_enum [
    (["Maximum"], DimensionalValues_MAXIMUM);
    (["Nominal"], DimensionalValues_NOMINAL);
    (["Minimum"], DimensionalValues_MINIMUM)] "DimensionalValues" j.

(** src/Definitions.h:35-40. *)
Inductive GappingType :=
| GappingType_GROUND
| GappingType_SPACER
| GappingType_RESIDUAL
| GappingType_DISTRIBUTED.

(** src/Definitions.h:53-61 [to_json]. *)
Definition write_GappingType (x : GappingType) : string :=
  match x with
  | GappingType_GROUND => "Ground"
  | GappingType_SPACER => "Spacer"
  | GappingType_RESIDUAL => "Residual"
  | GappingType_DISTRIBUTED => "Distributed"
  end.

(** src/Definitions.h:45-51 [from_json]. *)
Definition read_GappingType (j : json) : outcome GappingType :=
  read_enum [
    (["Ground"; "ground"; "GROUND"], GappingType_GROUND);
    (["Spacer"; "spacer"; "SPACER"], GappingType_SPACER);
    (["Residual"; "residual"; "RESIDUAL"], GappingType_RESIDUAL);
    (["Distributed"; "distributed"; "DISTRIBUTED"], GappingType_DISTRIBUTED)] "GappingType" j.

(** src/Definitions.h:63-70. *)
Inductive CoreCrossReferencerFilters :=
| CoreCrossReferencerFilters_PERMEANCE
| CoreCrossReferencerFilters_CORE_LOSSES
| CoreCrossReferencerFilters_SATURATION
| CoreCrossReferencerFilters_WINDING_WINDOW_AREA
| CoreCrossReferencerFilters_ENVELOPING_VOLUME
| CoreCrossReferencerFilters_EFFECTIVE_AREA.

(** src/Definitions.h:85-95 [to_json]. *)
Definition write_CoreCrossReferencerFilters (x : CoreCrossReferencerFilters) : string :=
  match x with
  | CoreCrossReferencerFilters_PERMEANCE => "Permeance"
  | CoreCrossReferencerFilters_CORE_LOSSES => "CoreLosses"
  | CoreCrossReferencerFilters_SATURATION => "Saturation"
  | CoreCrossReferencerFilters_WINDING_WINDOW_AREA => "WindingWindowArea"
  | CoreCrossReferencerFilters_ENVELOPING_VOLUME => "EnvelopingVolume"
  | CoreCrossReferencerFilters_EFFECTIVE_AREA => "EffectiveArea"
  end.

(** src/Definitions.h:75-83 [from_json]. *)
Definition read_CoreCrossReferencerFilters (j : json) : outcome CoreCrossReferencerFilters :=
  read_enum [
    (["Permeance"; "permeance"; "PERMEANCE"], CoreCrossReferencerFilters_PERMEANCE);
    (["CoreLosses"; "corelosses"; "CORELOSSES"], CoreCrossReferencerFilters_CORE_LOSSES);
    (["Saturation"; "saturation"; "SATURATION"], CoreCrossReferencerFilters_SATURATION);
    (["WindingWindowArea"; "windingwindowarea"; "WINDINGWINDOWAREA"], CoreCrossReferencerFilters_WINDING_WINDOW_AREA);
    (["EnvelopingVolume"; "envelopingvolume"; "ENVELOPINGVOLUME"], CoreCrossReferencerFilters_ENVELOPING_VOLUME);
    (["EffectiveArea"; "effectivearea"; "EFFECTIVEAREA"], CoreCrossReferencerFilters_EFFECTIVE_AREA)] "CoreCrossReferencerFilters" j.

(** src/Definitions.h:97-105. *)
Inductive CoreMaterialCrossReferencerFilters :=
| CoreMaterialCrossReferencerFilters_INITIAL_PERMEABILITY
| CoreMaterialCrossReferencerFilters_REMANENCE
| CoreMaterialCrossReferencerFilters_COERCIVE_FORCE
| CoreMaterialCrossReferencerFilters_SATURATION
| CoreMaterialCrossReferencerFilters_CURIE_TEMPERATURE
| CoreMaterialCrossReferencerFilters_VOLUMETRIC_LOSSES
| CoreMaterialCrossReferencerFilters_RESISTIVITY.

(** src/Definitions.h:121-132 [to_json]. *)
Definition write_CoreMaterialCrossReferencerFilters (x : CoreMaterialCrossReferencerFilters) : string :=
  match x with
  | CoreMaterialCrossReferencerFilters_INITIAL_PERMEABILITY => "InitialPermeability"
  | CoreMaterialCrossReferencerFilters_REMANENCE => "Remanence"
  | CoreMaterialCrossReferencerFilters_COERCIVE_FORCE => "CoerciveForce"
  | CoreMaterialCrossReferencerFilters_SATURATION => "Saturation"
  | CoreMaterialCrossReferencerFilters_CURIE_TEMPERATURE => "CurieTemperature"
  | CoreMaterialCrossReferencerFilters_VOLUMETRIC_LOSSES => "VolumetricLosses"
  | CoreMaterialCrossReferencerFilters_RESISTIVITY => "Resistivity"
  end.

(** src/Definitions.h:110-119 [from_json]. *)
Definition read_CoreMaterialCrossReferencerFilters (j : json) : outcome CoreMaterialCrossReferencerFilters :=
  read_enum [
    (["InitialPermeability"; "initialpermeability"; "INITIALPERMEABILITY"], CoreMaterialCrossReferencerFilters_INITIAL_PERMEABILITY);
    (["Remanence"; "remanence"; "REMANENCE"], CoreMaterialCrossReferencerFilters_REMANENCE);
    (["CoerciveForce"; "coerciveforce"; "COERCIVEFORCE"], CoreMaterialCrossReferencerFilters_COERCIVE_FORCE);
    (["Saturation"; "saturation"; "SATURATION"], CoreMaterialCrossReferencerFilters_SATURATION);
    (["CurieTemperature"; "curietemperature"; "CURIETEMPERATURE"], CoreMaterialCrossReferencerFilters_CURIE_TEMPERATURE);
    (["VolumetricLosses"; "volumetriclosses"; "VOLUMETRICLOSSES"], CoreMaterialCrossReferencerFilters_VOLUMETRIC_LOSSES);
    (["Resistivity"; "resistivity"; "RESISTIVITY"], CoreMaterialCrossReferencerFilters_RESISTIVITY)] "CoreMaterialCrossReferencerFilters" j.

(** src/Definitions.h:134-147. *)
Inductive OrderedIsolationSide :=
| OrderedIsolationSide_PRIMARY
| OrderedIsolationSide_SECONDARY
| OrderedIsolationSide_TERTIARY
| OrderedIsolationSide_QUATERNARY
| OrderedIsolationSide_QUINARY
| OrderedIsolationSide_SENARY
| OrderedIsolationSide_SEPTENARY
| OrderedIsolationSide_OCTONARY
| OrderedIsolationSide_NONARY
| OrderedIsolationSide_DENARY
| OrderedIsolationSide_UNDENARY
| OrderedIsolationSide_DUODENARY.

(** src/Definitions.h:168-184 [to_json]. *)
Definition write_OrderedIsolationSide (x : OrderedIsolationSide) : string :=
  match x with
  | OrderedIsolationSide_PRIMARY => "primary"
  | OrderedIsolationSide_SECONDARY => "secondary"
  | OrderedIsolationSide_TERTIARY => "tertiary"
  | OrderedIsolationSide_QUATERNARY => "quaternary"
  | OrderedIsolationSide_QUINARY => "quinary"
  | OrderedIsolationSide_SENARY => "senary"
  | OrderedIsolationSide_SEPTENARY => "septenary"
  | OrderedIsolationSide_OCTONARY => "octonary"
  | OrderedIsolationSide_NONARY => "nonary"
  | OrderedIsolationSide_DENARY => "denary"
  | OrderedIsolationSide_UNDENARY => "undenary"
  | OrderedIsolationSide_DUODENARY => "duodenary"
  end.

(** src/Definitions.h:152-166 [from_json]. *)
Definition read_OrderedIsolationSide (j : json) : outcome OrderedIsolationSide :=
  read_enum [
    (["primary"; "Primary"; "PRIMARY"], OrderedIsolationSide_PRIMARY);
    (["secondary"; "Secondary"; "SECONDARY"], OrderedIsolationSide_SECONDARY);
    (["tertiary"; "Tertiary"; "TERTIARY"], OrderedIsolationSide_TERTIARY);
    (["quaternary"; "Quaternary"; "QUATERNARY"], OrderedIsolationSide_QUATERNARY);
    (["quinary"; "Quinary"; "QUINARY"], OrderedIsolationSide_QUINARY);
    (["senary"; "Senary"; "SENARY"], OrderedIsolationSide_SENARY);
    (["septenary"; "Septenary"; "SEPTENARY"], OrderedIsolationSide_SEPTENARY);
    (["octonary"; "Octonary"; "OCTONARY"], OrderedIsolationSide_OCTONARY);
    (["nonary"; "Nonary"; "NONARY"], OrderedIsolationSide_NONARY);
    (["denary"; "Denary"; "DENARY"], OrderedIsolationSide_DENARY);
    (["undenary"; "Undenary"; "UNDENARY"], OrderedIsolationSide_UNDENARY);
    (["duodenary"; "Duodenary"; "DUODENARY"], OrderedIsolationSide_DUODENARY)] "OrderedIsolationSide" j.

(** src/Definitions.h:187-191. *)
Inductive PainterModes :=
| PainterModes_CONTOUR
| PainterModes_QUIVER
| PainterModes_SCATTER.

(** src/Definitions.h:203-210 [to_json]. *)
Definition write_PainterModes (x : PainterModes) : string :=
  match x with
  | PainterModes_CONTOUR => "Contour"
  | PainterModes_QUIVER => "Quiver"
  | PainterModes_SCATTER => "Scatter"
  end.

(** src/Definitions.h:196-201 [from_json]. *)
Definition read_PainterModes (j : json) : outcome PainterModes :=
  read_enum [
    (["Contour"; "contour"; "CONTOUR"], PainterModes_CONTOUR);
    (["Quiver"; "quiver"; "QUIVER"], PainterModes_QUIVER);
    (["Scatter"; "scatter"; "SCATTER"], PainterModes_SCATTER)] "PainterModes" j.

(** src/Definitions.h:495-534. *)
Inductive MagneticFilters :=
| MagneticFilters_AREA_PRODUCT
| MagneticFilters_ENERGY_STORED
| MagneticFilters_ESTIMATED_COST
| MagneticFilters_COST
| MagneticFilters_CORE_AND_DC_LOSSES
| MagneticFilters_CORE_DC_AND_SKIN_LOSSES
| MagneticFilters_LOSSES
| MagneticFilters_LOSSES_NO_PROXIMITY
| MagneticFilters_DIMENSIONS
| MagneticFilters_CORE_MINIMUM_IMPEDANCE
| MagneticFilters_AREA_NO_PARALLELS
| MagneticFilters_AREA_WITH_PARALLELS
| MagneticFilters_EFFECTIVE_RESISTANCE
| MagneticFilters_PROXIMITY_FACTOR
| MagneticFilters_SOLID_INSULATION_REQUIREMENTS
| MagneticFilters_TURNS_RATIOS
| MagneticFilters_MAXIMUM_DIMENSIONS
| MagneticFilters_SATURATION
| MagneticFilters_DC_CURRENT_DENSITY
| MagneticFilters_EFFECTIVE_CURRENT_DENSITY
| MagneticFilters_IMPEDANCE
| MagneticFilters_MAGNETIZING_INDUCTANCE
| MagneticFilters_FRINGING_FACTOR
| MagneticFilters_SKIN_LOSSES_DENSITY
| MagneticFilters_VOLUME
| MagneticFilters_AREA
| MagneticFilters_HEIGHT
| MagneticFilters_TEMPERATURE_RISE
| MagneticFilters_VOLUME_TIMES_TEMPERATURE_RISE
| MagneticFilters_LOSSES_TIMES_VOLUME
| MagneticFilters_LOSSES_TIMES_VOLUME_TIMES_TEMPERATURE_RISE
| MagneticFilters_LOSSES_NO_PROXIMITY_TIMES_VOLUME
| MagneticFilters_LOSSES_NO_PROXIMITY_TIMES_VOLUME_TIMES_TEMPERATURE_RISE
| MagneticFilters_MAGNETOMOTIVE_FORCE
| MagneticFilters_LEAKAGE_INDUCTANCE
| MagneticFilters_TEMPERATURE
| MagneticFilters_TURN_COUNT
| MagneticFilters_DATASHEET_LIMITS.

(** src/Definitions.h:619-661 [to_json]. *)
Definition write_MagneticFilters (x : MagneticFilters) : string :=
  match x with
  | MagneticFilters_AREA_PRODUCT => "Area Product"
  | MagneticFilters_ENERGY_STORED => "Energy Stored"
  | MagneticFilters_COST => "Cost"
  | MagneticFilters_ESTIMATED_COST => "Estimated Cost"
  | MagneticFilters_CORE_AND_DC_LOSSES => "Core And DC Losses"
  | MagneticFilters_CORE_DC_AND_SKIN_LOSSES => "Core DC And Skin Losses"
  | MagneticFilters_LOSSES => "Losses"
  | MagneticFilters_LOSSES_NO_PROXIMITY => "Losses No Proximity"
  | MagneticFilters_DIMENSIONS => "Dimensions"
  | MagneticFilters_CORE_MINIMUM_IMPEDANCE => "Core Minimum Impedance"
  | MagneticFilters_AREA_NO_PARALLELS => "Area No Parallels"
  | MagneticFilters_AREA_WITH_PARALLELS => "Area With Parallels"
  | MagneticFilters_EFFECTIVE_RESISTANCE => "Effective Resistance"
  | MagneticFilters_PROXIMITY_FACTOR => "Proximity Factor"
  | MagneticFilters_SOLID_INSULATION_REQUIREMENTS => "Solid Insulation Requirements"
  | MagneticFilters_TURNS_RATIOS => "Turns Ratios"
  | MagneticFilters_MAXIMUM_DIMENSIONS => "Maximum Dimensions"
  | MagneticFilters_SATURATION => "Saturation"
  | MagneticFilters_DC_CURRENT_DENSITY => "Dc Current Density"
  | MagneticFilters_EFFECTIVE_CURRENT_DENSITY => "Effective Current Density"
  | MagneticFilters_IMPEDANCE => "Impedance"
  | MagneticFilters_MAGNETIZING_INDUCTANCE => "Magnetizing Inductance"
  | MagneticFilters_FRINGING_FACTOR => "Fringing Factor"
  | MagneticFilters_SKIN_LOSSES_DENSITY => "Skin Losses Density"
  | MagneticFilters_VOLUME => "Volume"
  | MagneticFilters_AREA => "Area"
  | MagneticFilters_HEIGHT => "Height"
  | MagneticFilters_TEMPERATURE_RISE => "Temperature Rise"
  | MagneticFilters_LOSSES_TIMES_VOLUME => "Losses Times Volume"
  | MagneticFilters_VOLUME_TIMES_TEMPERATURE_RISE => "Volume Times Temperature Rise"
  | MagneticFilters_LOSSES_TIMES_VOLUME_TIMES_TEMPERATURE_RISE => "Losses Times Volume Times Temperature Rise"
  | MagneticFilters_LOSSES_NO_PROXIMITY_TIMES_VOLUME => "Losses No Proximity Times Volume"
  | MagneticFilters_LOSSES_NO_PROXIMITY_TIMES_VOLUME_TIMES_TEMPERATURE_RISE => "Losses No Proximity Times Volume Times Temperature Rise"
  | MagneticFilters_MAGNETOMOTIVE_FORCE => "MagnetomotiveForce"
  | MagneticFilters_LEAKAGE_INDUCTANCE => "Leakage Inductance"
  | MagneticFilters_TEMPERATURE => "Temperature"
  | MagneticFilters_TURN_COUNT => "Turn Count"
  | MagneticFilters_DATASHEET_LIMITS => "Datasheet Limits"
  end.

(** src/Definitions.h:577-617 [from_json]. *)
Definition read_MagneticFilters (j : json) : outcome MagneticFilters :=
  read_enum [
    (["Area Product"], MagneticFilters_AREA_PRODUCT);
    (["Energy Stored"], MagneticFilters_ENERGY_STORED);
    (["Cost"], MagneticFilters_COST);
    (["Estimated Cost"], MagneticFilters_ESTIMATED_COST);
    (["Core And DC Losses"], MagneticFilters_CORE_AND_DC_LOSSES);
    (["Core DC And Skin Losses"], MagneticFilters_CORE_DC_AND_SKIN_LOSSES);
    (["Losses"], MagneticFilters_LOSSES);
    (["Losses No Proximity"], MagneticFilters_LOSSES_NO_PROXIMITY);
    (["Dimensions"], MagneticFilters_DIMENSIONS);
    (["Core Minimum Impedance"], MagneticFilters_CORE_MINIMUM_IMPEDANCE);
    (["Area No Parallels"], MagneticFilters_AREA_NO_PARALLELS);
    (["Area With Parallels"], MagneticFilters_AREA_WITH_PARALLELS);
    (["Effective Resistance"], MagneticFilters_EFFECTIVE_RESISTANCE);
    (["Proximity Factor"], MagneticFilters_PROXIMITY_FACTOR);
    (["Solid Insulation Requirements"], MagneticFilters_SOLID_INSULATION_REQUIREMENTS);
    (["Turns Ratios"], MagneticFilters_TURNS_RATIOS);
    (["Maximum Dimensions"], MagneticFilters_MAXIMUM_DIMENSIONS);
    (["Saturation"], MagneticFilters_SATURATION);
    (["Dc Current Density"], MagneticFilters_DC_CURRENT_DENSITY);
    (["Effective Current Density"], MagneticFilters_EFFECTIVE_CURRENT_DENSITY);
    (["Impedance"], MagneticFilters_IMPEDANCE);
    (["Magnetizing Inductance"], MagneticFilters_MAGNETIZING_INDUCTANCE);
    (["Fringing Factor"], MagneticFilters_FRINGING_FACTOR);
    (["Skin Losses Density"], MagneticFilters_SKIN_LOSSES_DENSITY);
    (["Volume"], MagneticFilters_VOLUME);
    (["Area"], MagneticFilters_AREA);
    (["Height"], MagneticFilters_HEIGHT);
    (["Temperature Rise"], MagneticFilters_TEMPERATURE_RISE);
    (["Losses Times Volume"], MagneticFilters_LOSSES_TIMES_VOLUME);
    (["Volume Times Temperature Rise"], MagneticFilters_VOLUME_TIMES_TEMPERATURE_RISE);
    (["Losses Times Volume Times Temperature Rise"], MagneticFilters_LOSSES_TIMES_VOLUME_TIMES_TEMPERATURE_RISE);
    (["Losses No Proximity Times Volume"], MagneticFilters_LOSSES_NO_PROXIMITY_TIMES_VOLUME);
    (["Losses No Proximity Times Volume Times Temperature Rise"], MagneticFilters_LOSSES_NO_PROXIMITY_TIMES_VOLUME_TIMES_TEMPERATURE_RISE);
    (["MagnetomotiveForce"], MagneticFilters_MAGNETOMOTIVE_FORCE);
    (["Leakage Inductance"], MagneticFilters_LEAKAGE_INDUCTANCE);
    (["Temperature"], MagneticFilters_TEMPERATURE);
    (["Turn Count"], MagneticFilters_TURN_COUNT);
    (["Datasheet Limits"], MagneticFilters_DATASHEET_LIMITS)] "MagneticFilters" j.

(** src/Models.h:8-14. *)
Inductive MagneticFieldStrengthModels :=
| MagneticFieldStrengthModels_BINNS_LAWRENSON
| MagneticFieldStrengthModels_LAMMERANER
| MagneticFieldStrengthModels_DOWELL
| MagneticFieldStrengthModels_WANG
| MagneticFieldStrengthModels_ALBACH.

(** src/Definitions.h:215-224 [to_json]. *)
Definition write_MagneticFieldStrengthModels (x : MagneticFieldStrengthModels) : string :=
  match x with
  | MagneticFieldStrengthModels_BINNS_LAWRENSON => "BinnsLawrenson"
  | MagneticFieldStrengthModels_LAMMERANER => "Lammeraner"
  | MagneticFieldStrengthModels_DOWELL => "Dowell"
  | MagneticFieldStrengthModels_WANG => "Wang"
  | MagneticFieldStrengthModels_ALBACH => "Albach"
  end.

(** src/Definitions.h:226-233 [from_json]. *)
Definition read_MagneticFieldStrengthModels (j : json) : outcome MagneticFieldStrengthModels :=
  read_enum [
    (["BinnsLawrenson"; "binnslawrenson"; "BINNSLAWRENSON"], MagneticFieldStrengthModels_BINNS_LAWRENSON);
    (["Lammeraner"; "lammeraner"; "LAMMERANER"], MagneticFieldStrengthModels_LAMMERANER);
    (["Dowell"; "dowell"; "DOWELL"], MagneticFieldStrengthModels_DOWELL);
    (["Wang"; "wang"; "WANG"], MagneticFieldStrengthModels_WANG);
    (["Albach"; "albach"; "ALBACH"; "Albach2D"; "albach2d"; "ALBACH_2D"], MagneticFieldStrengthModels_ALBACH)] "MagneticFieldStrengthModels" j.

(** src/Models.h:16-20. *)
Inductive MagneticFieldStrengthFringingEffectModels :=
| MagneticFieldStrengthFringingEffectModels_ROSHEN
| MagneticFieldStrengthFringingEffectModels_ALBACH
| MagneticFieldStrengthFringingEffectModels_SULLIVAN.

(** src/Definitions.h:238-245 [to_json]. *)
Definition write_MagneticFieldStrengthFringingEffectModels (x : MagneticFieldStrengthFringingEffectModels) : string :=
  match x with
  | MagneticFieldStrengthFringingEffectModels_ROSHEN => "Roshen"
  | MagneticFieldStrengthFringingEffectModels_ALBACH => "Albach"
  | MagneticFieldStrengthFringingEffectModels_SULLIVAN => "Sullivan"
  end.

(** src/Definitions.h:247-252 [from_json]. *)
Definition read_MagneticFieldStrengthFringingEffectModels (j : json) : outcome MagneticFieldStrengthFringingEffectModels :=
  read_enum [
    (["Roshen"; "roshen"; "ROSHEN"], MagneticFieldStrengthFringingEffectModels_ROSHEN);
    (["Albach"; "albach"; "ALBACH"], MagneticFieldStrengthFringingEffectModels_ALBACH);
    (["Sullivan"; "sullivan"; "SULLIVAN"], MagneticFieldStrengthFringingEffectModels_SULLIVAN)] "MagneticFieldStrengthFringingEffectModels" j.

(** src/Models.h:23-32. *)
Inductive ReluctanceModels :=
| ReluctanceModels_ZHANG
| ReluctanceModels_PARTRIDGE
| ReluctanceModels_EFFECTIVE_AREA
| ReluctanceModels_EFFECTIVE_LENGTH
| ReluctanceModels_MUEHLETHALER
| ReluctanceModels_STENGLEIN
| ReluctanceModels_BALAKRISHNAN
| ReluctanceModels_CLASSIC.

(** src/Definitions.h:257-269 [to_json]. *)
Definition write_ReluctanceModels (x : ReluctanceModels) : string :=
  match x with
  | ReluctanceModels_ZHANG => "Zhang"
  | ReluctanceModels_PARTRIDGE => "Partridge"
  | ReluctanceModels_EFFECTIVE_AREA => "EffectiveArea"
  | ReluctanceModels_EFFECTIVE_LENGTH => "EffectiveLength"
  | ReluctanceModels_MUEHLETHALER => "Muehlethaler"
  | ReluctanceModels_STENGLEIN => "Stenglein"
  | ReluctanceModels_BALAKRISHNAN => "Balakrishnan"
  | ReluctanceModels_CLASSIC => "Classic"
  end.

(** src/Definitions.h:271-281 [from_json]. *)
Definition read_ReluctanceModels (j : json) : outcome ReluctanceModels :=
  read_enum [
    (["Zhang"; "zhang"; "ZHANG"], ReluctanceModels_ZHANG);
    (["Partridge"; "partridge"; "PARTRIDGE"], ReluctanceModels_PARTRIDGE);
    (["EffectiveArea"; "effectivearea"; "EFFECTIVEAREA"], ReluctanceModels_EFFECTIVE_AREA);
    (["EffectiveLength"; "effectivelength"; "EFFECTIVELENGTH"], ReluctanceModels_EFFECTIVE_LENGTH);
    (["Muehlethaler"; "muehlethaler"; "MUEHLETHALER"], ReluctanceModels_MUEHLETHALER);
    (["Stenglein"; "stenglein"; "STENGLEIN"], ReluctanceModels_STENGLEIN);
    (["Balakrishnan"; "balakrishnan"; "BALAKRISHNAN"], ReluctanceModels_BALAKRISHNAN);
    (["Classic"; "classic"; "CLASSIC"], ReluctanceModels_CLASSIC)] "ReluctanceModels" j.

(** src/Models.h:35-46. *)
Inductive CoreLossesModels :=
| CoreLossesModels_PROPRIETARY
| CoreLossesModels_STEINMETZ
| CoreLossesModels_IGSE
| CoreLossesModels_CIGSE
| CoreLossesModels_BARG
| CoreLossesModels_ROSHEN
| CoreLossesModels_ALBACH
| CoreLossesModels_NSE
| CoreLossesModels_MSE
| CoreLossesModels_LOSS_FACTOR.

(** src/Definitions.h:286-300 [to_json]. *)
Definition write_CoreLossesModels (x : CoreLossesModels) : string :=
  match x with
  | CoreLossesModels_PROPRIETARY => "Proprietary"
  | CoreLossesModels_STEINMETZ => "Steinmetz"
  | CoreLossesModels_IGSE => "IGSE"
  | CoreLossesModels_CIGSE => "ciGSE"
  | CoreLossesModels_BARG => "Barg"
  | CoreLossesModels_ROSHEN => "Roshen"
  | CoreLossesModels_ALBACH => "Albach"
  | CoreLossesModels_NSE => "NSE"
  | CoreLossesModels_MSE => "MSE"
  | CoreLossesModels_LOSS_FACTOR => "LossFactor"
  end.

(** src/Definitions.h:302-314 [from_json]. *)
Definition read_CoreLossesModels (j : json) : outcome CoreLossesModels :=
  read_enum [
    (["Proprietary"; "proprietary"; "PROPRIETARY"], CoreLossesModels_PROPRIETARY);
    (["Steinmetz"; "steinmetz"; "STEINMETZ"], CoreLossesModels_STEINMETZ);
    (["Igse"; "igse"; "IGSE"], CoreLossesModels_IGSE);
    (["CiGSE"; "ciGSE"; "cigse"; "CIGSE"], CoreLossesModels_CIGSE);
    (["Barg"; "barg"; "BARG"], CoreLossesModels_BARG);
    (["Roshen"; "roshen"; "ROSHEN"], CoreLossesModels_ROSHEN);
    (["Albach"; "albach"; "ALBACH"], CoreLossesModels_ALBACH);
    (["Nse"; "nse"; "NSE"], CoreLossesModels_NSE);
    (["Mse"; "mse"; "MSE"], CoreLossesModels_MSE);
    (["LossFactor"; "lossfactor"; "LOSSFACTOR"], CoreLossesModels_LOSS_FACTOR)] "CoreLossesModels" j.

(** src/Models.h:49-52. *)
Inductive CoreThermalResistanceModels :=
| CoreThermalResistanceModels_MANIKTALA
| CoreThermalResistanceModels_DIXON.

(** src/Definitions.h:319-325 [to_json]. *)
Definition write_CoreThermalResistanceModels (x : CoreThermalResistanceModels) : string :=
  match x with
  | CoreThermalResistanceModels_MANIKTALA => "Maniktala"
  | CoreThermalResistanceModels_DIXON => "Dixon"
  end.

(** src/Definitions.h:327-331 [from_json]. *)
Definition read_CoreThermalResistanceModels (j : json) : outcome CoreThermalResistanceModels :=
  read_enum [
    (["Maniktala"; "maniktala"; "MANIKTALA"], CoreThermalResistanceModels_MANIKTALA);
    (["Dixon"; "dixon"; "DIXON"], CoreThermalResistanceModels_DIXON)] "CoreThermalResistanceModels" j.

(** src/Models.h:55-61. *)
Inductive CoreTemperatureModels :=
| CoreTemperatureModels_KAZIMIERCZUK
| CoreTemperatureModels_MANIKTALA
| CoreTemperatureModels_TDK
| CoreTemperatureModels_DIXON
| CoreTemperatureModels_AMIDON.

(** src/Definitions.h:336-345 [to_json]. *)
Definition write_CoreTemperatureModels (x : CoreTemperatureModels) : string :=
  match x with
  | CoreTemperatureModels_KAZIMIERCZUK => "Kazimierczuk"
  | CoreTemperatureModels_MANIKTALA => "Maniktala"
  | CoreTemperatureModels_TDK => "Tdk"
  | CoreTemperatureModels_DIXON => "Dixon"
  | CoreTemperatureModels_AMIDON => "Amidon"
  end.

(** src/Definitions.h:347-354 [from_json]. *)
Definition read_CoreTemperatureModels (j : json) : outcome CoreTemperatureModels :=
  read_enum [
    (["Kazimierczuk"; "kazimierczuk"; "KAZIMIERCZUK"], CoreTemperatureModels_KAZIMIERCZUK);
    (["Maniktala"; "maniktala"; "MANIKTALA"], CoreTemperatureModels_MANIKTALA);
    (["Tdk"; "tdk"; "TDK"], CoreTemperatureModels_TDK);
    (["Dixon"; "dixon"; "DIXON"], CoreTemperatureModels_DIXON);
    (["Amidon"; "amidon"; "AMIDON"], CoreTemperatureModels_AMIDON)] "CoreTemperatureModels" j.

(** src/Models.h:64-79. *)
Inductive WindingSkinEffectLossesModels :=
| WindingSkinEffectLossesModels_DOWELL
| WindingSkinEffectLossesModels_WOJDA
| WindingSkinEffectLossesModels_ALBACH
| WindingSkinEffectLossesModels_PAYNE
| WindingSkinEffectLossesModels_LOTFI
| WindingSkinEffectLossesModels_XI_NAN
| WindingSkinEffectLossesModels_KAZIMIERCZUK
| WindingSkinEffectLossesModels_KUTKUT
| WindingSkinEffectLossesModels_FERREIRA
| WindingSkinEffectLossesModels_DIMITRAKAKIS
| WindingSkinEffectLossesModels_MUEHLETHALER
| WindingSkinEffectLossesModels_WANG
| WindingSkinEffectLossesModels_HOLGUIN
| WindingSkinEffectLossesModels_PERRY.

(** src/Definitions.h:359-377 [to_json]. *)
Definition write_WindingSkinEffectLossesModels (x : WindingSkinEffectLossesModels) : string :=
  match x with
  | WindingSkinEffectLossesModels_DOWELL => "Dowell"
  | WindingSkinEffectLossesModels_WOJDA => "Wojda"
  | WindingSkinEffectLossesModels_ALBACH => "Albach"
  | WindingSkinEffectLossesModels_PAYNE => "Payne"
  | WindingSkinEffectLossesModels_LOTFI => "Lotfi"
  | WindingSkinEffectLossesModels_XI_NAN => "XiNan"
  | WindingSkinEffectLossesModels_KAZIMIERCZUK => "Kazimierczuk"
  | WindingSkinEffectLossesModels_MUEHLETHALER => "Muehlethaler"
  | WindingSkinEffectLossesModels_KUTKUT => "Kutkut"
  | WindingSkinEffectLossesModels_FERREIRA => "Ferreira"
  | WindingSkinEffectLossesModels_DIMITRAKAKIS => "Dimitrakakis"
  | WindingSkinEffectLossesModels_WANG => "Wang"
  | WindingSkinEffectLossesModels_HOLGUIN => "Holguin"
  | WindingSkinEffectLossesModels_PERRY => "Perry"
  end.

(** src/Definitions.h:379-395 [from_json]. *)
Definition read_WindingSkinEffectLossesModels (j : json) : outcome WindingSkinEffectLossesModels :=
  read_enum [
    (["Dowell"; "dowell"; "DOWELL"], WindingSkinEffectLossesModels_DOWELL);
    (["Wojda"; "wojda"; "WOJDA"], WindingSkinEffectLossesModels_WOJDA);
    (["Albach"; "albach"; "ALBACH"], WindingSkinEffectLossesModels_ALBACH);
    (["Payne"; "payne"; "PAYNE"], WindingSkinEffectLossesModels_PAYNE);
    (["Lotfi"; "lotfi"; "LOTFI"], WindingSkinEffectLossesModels_LOTFI);
    (["XiNan"; "xi_nan"; "XI_NAN"], WindingSkinEffectLossesModels_XI_NAN);
    (["Kazimierczuk"; "kazimierczuk"; "KAZIMIERCZUK"], WindingSkinEffectLossesModels_KAZIMIERCZUK);
    (["Muehlethaler"; "muehlethaler"; "MUEHLETHALER"], WindingSkinEffectLossesModels_MUEHLETHALER);
    (["Kutkut"; "kutkut"; "KUTKUT"], WindingSkinEffectLossesModels_KUTKUT);
    (["Ferreira"; "ferreira"; "FERREIRA"], WindingSkinEffectLossesModels_FERREIRA);
    (["Dimitrakakis"; "dimitrakakis"; "DIMITRAKAKIS"], WindingSkinEffectLossesModels_DIMITRAKAKIS);
    (["Wang"; "wang"; "WANG"], WindingSkinEffectLossesModels_WANG);
    (["Holguin"; "holguin"; "HOLGUIN"], WindingSkinEffectLossesModels_HOLGUIN);
    (["Perry"; "perry"; "PERRY"], WindingSkinEffectLossesModels_PERRY)] "WindingSkinEffectLossesModels" j.

(** src/Models.h:82-94. *)
Inductive WindingProximityEffectLossesModels :=
| WindingProximityEffectLossesModels_ROSSMANITH
| WindingProximityEffectLossesModels_WANG
| WindingProximityEffectLossesModels_FERREIRA
| WindingProximityEffectLossesModels_LAMMERANER
| WindingProximityEffectLossesModels_ALBACH
| WindingProximityEffectLossesModels_DOWELL
| WindingProximityEffectLossesModels_XI_NAN
| WindingProximityEffectLossesModels_WOJDA
| WindingProximityEffectLossesModels_SULLIVAN
| WindingProximityEffectLossesModels_BARTOLI
| WindingProximityEffectLossesModels_VANDELAC.

(** src/Definitions.h:415-430 [to_json]. *)
Definition write_WindingProximityEffectLossesModels (x : WindingProximityEffectLossesModels) : string :=
  match x with
  | WindingProximityEffectLossesModels_ROSSMANITH => "Rossmanith"
  | WindingProximityEffectLossesModels_WANG => "Wang"
  | WindingProximityEffectLossesModels_FERREIRA => "Ferreira"
  | WindingProximityEffectLossesModels_LAMMERANER => "Lammeraner"
  | WindingProximityEffectLossesModels_ALBACH => "Albach"
  | WindingProximityEffectLossesModels_DOWELL => "Dowell"
  | WindingProximityEffectLossesModels_XI_NAN => "XiNan"
  | WindingProximityEffectLossesModels_WOJDA => "Wojda"
  | WindingProximityEffectLossesModels_SULLIVAN => "Sullivan"
  | WindingProximityEffectLossesModels_BARTOLI => "Bartoli"
  | WindingProximityEffectLossesModels_VANDELAC => "Vandelac"
  end.

(** src/Definitions.h:400-413 [from_json]. *)
Definition read_WindingProximityEffectLossesModels (j : json) : outcome WindingProximityEffectLossesModels :=
  read_enum [
    (["Rossmanith"; "ROSSMANITH"], WindingProximityEffectLossesModels_ROSSMANITH);
    (["Wang"; "WANG"], WindingProximityEffectLossesModels_WANG);
    (["Ferreira"; "FERREIRA"], WindingProximityEffectLossesModels_FERREIRA);
    (["Lammeraner"; "LAMMERANER"], WindingProximityEffectLossesModels_LAMMERANER);
    (["Albach"; "ALBACH"], WindingProximityEffectLossesModels_ALBACH);
    (["Dowell"; "DOWELL"], WindingProximityEffectLossesModels_DOWELL);
    (["XiNan"; "XI_NAN"; "Nan"], WindingProximityEffectLossesModels_XI_NAN);
    (["Wojda"; "WOJDA"], WindingProximityEffectLossesModels_WOJDA);
    (["Sullivan"; "SULLIVAN"], WindingProximityEffectLossesModels_SULLIVAN);
    (["Bartoli"; "BARTOLI"], WindingProximityEffectLossesModels_BARTOLI);
    (["Vandelac"; "VANDELAC"], WindingProximityEffectLossesModels_VANDELAC)] "WindingProximityEffectLossesModels" j.

(** src/Models.h:97-102. *)
Inductive StrayCapacitanceModels :=
| StrayCapacitanceModels_KOCH
| StrayCapacitanceModels_ALBACH
| StrayCapacitanceModels_DUERDOTH
| StrayCapacitanceModels_MASSARINI.

(** src/Definitions.h:436-444 [to_json]. *)
Definition write_StrayCapacitanceModels (x : StrayCapacitanceModels) : string :=
  match x with
  | StrayCapacitanceModels_KOCH => "Koch"
  | StrayCapacitanceModels_ALBACH => "Albach"
  | StrayCapacitanceModels_DUERDOTH => "Duerdoth"
  | StrayCapacitanceModels_MASSARINI => "Massarini"
  end.

(** src/Definitions.h:446-452 [from_json]. *)
Definition read_StrayCapacitanceModels (j : json) : outcome StrayCapacitanceModels :=
  read_enum [
    (["Koch"; "koch"; "KOCH"], StrayCapacitanceModels_KOCH);
    (["Albach"; "albach"; "ALBACH"], StrayCapacitanceModels_ALBACH);
    (["Duerdoth"; "duerdoth"; "DUERDOTH"], StrayCapacitanceModels_DUERDOTH);
    (["Massarini"; "massarini"; "MASSARINI"], StrayCapacitanceModels_MASSARINI)] "StrayCapacitanceModels" j.

(** src/advisers/CoreAdviser.h:100-108. *)
Inductive CoreAdviserFilters :=
| CoreAdviserFilters_COST
| CoreAdviserFilters_EFFICIENCY
| CoreAdviserFilters_DIMENSIONS
| CoreAdviserFilters_TURN_COUNT.

(** src/advisers/CoreAdviser.h:546-554 [to_json]. *)
Definition write_CoreAdviserFilters (x : CoreAdviserFilters) : string :=
  match x with
  | CoreAdviserFilters_COST => "Cost"
  | CoreAdviserFilters_EFFICIENCY => "Efficiency"
  | CoreAdviserFilters_DIMENSIONS => "Dimensions"
  | CoreAdviserFilters_TURN_COUNT => "TurnCount"
  end.

(** src/advisers/CoreAdviser.h:538-544 [from_json]. *)
Definition read_CoreAdviserFilters (j : json) : outcome CoreAdviserFilters :=
  read_enum [
    (["Cost"; "cost"; "COST"], CoreAdviserFilters_COST);
    (["Efficiency"; "efficiency"; "EFFICIENCY"], CoreAdviserFilters_EFFICIENCY);
    (["Dimensions"; "dimensions"; "DIMENSIONS"], CoreAdviserFilters_DIMENSIONS);
    (["TurnCount"; "turnCount"; "TURN_COUNT"], CoreAdviserFilters_TURN_COUNT)] "CoreAdviserFilters" j.

(** src/advisers/CoreAdviser.h:110-114. *)
Inductive CoreAdviserModes :=
| CoreAdviserModes_AVAILABLE_CORES
| CoreAdviserModes_STANDARD_CORES
| CoreAdviserModes_CUSTOM_CORES.

(** src/advisers/CoreAdviser.h:525-533 [to_json]. *)
Definition write_CoreAdviserModes (x : CoreAdviserModes) : string :=
  match x with
  | CoreAdviserModes_AVAILABLE_CORES => "available cores"
  | CoreAdviserModes_STANDARD_CORES => "standard cores"
  | CoreAdviserModes_CUSTOM_CORES => "custom cores"
  end.

(** src/advisers/CoreAdviser.h:518-523 [from_json]. *)
Definition read_CoreAdviserModes (j : json) : outcome CoreAdviserModes :=
  read_enum [
    (["available cores"], CoreAdviserModes_AVAILABLE_CORES);
    (["standard cores"], CoreAdviserModes_STANDARD_CORES);
    (["custom cores"], CoreAdviserModes_CUSTOM_CORES)] "CoreAdviserModes" j.

(** src/processors/CircuitSimulatorInterface.h:422-428. *)
Inductive CircuitSimulatorExporterModels :=
| CircuitSimulatorExporterModels_SIMBA
| CircuitSimulatorExporterModels_NGSPICE
| CircuitSimulatorExporterModels_LTSPICE
| CircuitSimulatorExporterModels_NL5
| CircuitSimulatorExporterModels_PLECS.

(** src/processors/CircuitSimulatorInterface.h:442-451 [to_json]. *)
Definition write_CircuitSimulatorExporterModels (x : CircuitSimulatorExporterModels) : string :=
  match x with
  | CircuitSimulatorExporterModels_SIMBA => "SIMBA"
  | CircuitSimulatorExporterModels_NGSPICE => "NgSpice"
  | CircuitSimulatorExporterModels_LTSPICE => "LtSpice"
  | CircuitSimulatorExporterModels_NL5 => "NL5"
  | CircuitSimulatorExporterModels_PLECS => "PLECS"
  end.

(** src/processors/CircuitSimulatorInterface.h:433-440 [from_json]. *)
Definition read_CircuitSimulatorExporterModels (j : json) : outcome CircuitSimulatorExporterModels :=
  read_enum [
    (["SIMBA"], CircuitSimulatorExporterModels_SIMBA);
    (["NgSpice"], CircuitSimulatorExporterModels_NGSPICE);
    (["LtSpice"], CircuitSimulatorExporterModels_LTSPICE);
    (["NL5"], CircuitSimulatorExporterModels_NL5);
    (["PLECS"], CircuitSimulatorExporterModels_PLECS)] "CircuitSimulatorExporterModels" j.

Open Scope outcome_scope.

(** src/Definitions.h:534-566 [MagneticFilterOperation]. *)
Record operation := Operation {
  filter_of : MagneticFilters;
  invert_of : bool;
  log_of : bool;
  required_of : bool;
  weight_of : Q
}.

(** json::at: the value of a key of an object, an exception when it is missing or the value is not an
    object. *)
Definition json_at (j : json) (k : string) : outcome json :=
  match j with
  | JObj l =>
      match List.find (fun p => String.eqb (fst p) k) l with
      | Some p => Ok (snd p)
      | None => Throw "out_of_range"
      end
  | _ => Throw "type_error"
  end.

(** json::get<bool>: booleans only. *)
Definition get_bool (j : json) : outcome bool :=
  match j with JBool b => Ok b | _ => Throw "type_error" end.

(** json::get<double>: numbers only. *)
Definition get_double (j : json) : outcome Q :=
  match j with JNum q => Ok q | _ => Throw "type_error" end.

(** src/Definitions.h:663-669 [from_json] of a MagneticFilterOperation. *)
Definition read_operation (j : json) : outcome operation :=
  (f <- json_at j "filter" ;; f' <- read_MagneticFilters f ;;
   i <- json_at j "invert" ;; i' <- get_bool i ;;
   l <- json_at j "log" ;; l' <- get_bool l ;;
   r <- json_at j "strictlyRequired" ;; r' <- get_bool r ;;
   w <- json_at j "weight" ;; w' <- get_double w ;;
   Ok (Operation f' i' l' r' w')).

(** src/Definitions.h:671-678 [to_json] of a MagneticFilterOperation; an object keeps its keys sorted. *)
Definition write_operation (x : operation) : json :=
  JObj [("filter", JStr (write_MagneticFilters (filter_of x)));
        ("invert", JBool (invert_of x));
        ("log", JBool (log_of x));
        ("strictlyRequired", JBool (required_of x));
        ("weight", JNum (weight_of x))].

(** The elements a range-for over a JSON value visits: those of an array, the values of an object, none of
    null, the value itself otherwise. *)
Definition json_elements (j : json) : list json :=
  match j with
  | JArr l => l
  | JObj l => map snd l
  | JNull => []
  | _ => [j]
  end.

(** src/Definitions.h:680-691 [from_json] of a list of operations: the operations read are appended to what
    the destination already holds, and those read before an exception stay in it.
    Simplified: when several fields of one element are wrong, C++ leaves open which exception is thrown. *)
Fixpoint read_operations_from (v : list operation) (l : list json) : list operation * outcome unit :=
  match l with
  | [] => (v, Ok tt)
  | e :: rest =>
      match read_operation e with
      | Ok x => read_operations_from (v ++ [x])%list rest
      | Throw m => (v, Throw m)
      | UB m => (v, UB m)
      | OutOfFuel => (v, OutOfFuel)
      end
  end.

Definition read_operations (v : list operation) (j : json) : list operation * outcome unit :=
  read_operations_from v (json_elements j).

(** src/Definitions.h:693-704 [to_json] of a list of operations. *)
Definition write_operations (v : list operation) : json := JArr (map write_operation v).
