# Formal model of OpenMagnetics/MKF in Rocq (Coq 8.16.1)

The code under study is `/repo` (C++20, read as text, never built here). The
properties are in `properties.jsonl`; which theorem establishes which property
is in `MANIFEST.json`; the wrong programs the theorems were tried against are in
`seeded/LOG.jsonl`.

## 1. Trusted base

* Coq's kernel (`coqc`, re-checked by `coqchk`). No kernel check is switched
  off, there are no axioms of our own, no `Admitted`, no functors or module
  types.
* What `Print Assumptions` lists for each theorem. Every `*Properties.v` file
  ends with a `Print Assumptions` per theorem, so the build log shows it. All
  theorems over Z, N, nat, Q, lists and strings are *closed under the global
  context*. Only the modules that need real numbers (square roots, logarithms,
  reluctance networks) depend on the standard library's axioms for the reals
  (section 5 lists them).
* The reading of the C++ text into the model. Every definition carries a
  comment with file and lines, and the simplification made, if any. This step
  is by hand and is not checked by a machine.

## 2. Modelling conventions

* One Coq definition per C++ function or per loop body. Loops become structural
  recursion when the bound is evident; otherwise fuel, with running out of fuel
  a distinct outcome that theorems exclude.
* `Outcome`: `Ok v`, `Throw kind`, `UB` (out of range index, division by zero
  on integers, iterator past the end), `OutOfFuel`. A theorem that says a
  function succeeds says `= Ok v`.
* `double` is modelled in one of three ways, chosen per function and stated in
  its comment:
  - *Q*: rational arithmetic, exact. Used where the C++ does field operations,
    comparisons and rounding. Idealisation: no rounding error, no overflow, no
    NaN/infinity.
  - *R*: where sqrt/log/trigonometry appear. Same idealisation.
  - *SpecFloat* or an explicit NaN constructor: where the behaviour on NaN is
    the property.
* `int64_t`, `size_t`, `uint64_t` are Z or nat; where wrap-around is possible
  and relevant (unsigned subtraction), the model makes it explicit.
* `std::round` is round half away from zero; `roundFloat(v,d)` is
  `round(v*10^d)/10^d` as in the source.
* When the faithful model contradicts the English property the theorem proved
  is the negation (`..._refuted`, with a concrete witness), next to the
  strongest true version (`..._partial`).

## 3. Files

`XModel.v` definitions only; `XSpec.v` (when not inside the properties file)
the independent vocabulary; `XProofs.v` lemmas; `XProperties.v` theorem
statements, closed by `exact`, non-vacuity examples and `Print Assumptions`.

## 4. Plan per property

| Property | What is modelled | How it is proved |
|---|---|---|
| C01 | `get_parallels_proportions` (three branches) over Q and the slot loop of sections/layers | loop invariant: remaining proportions are whole turns; at slot i what remains is what was not given; last slot takes all |
| C02 | forced-count branches of the same function | invariant of the round-robin loop |
| C03 | turn loops of `wind_by_rectangular_turns` (names, parallel, counters) | induction over layers with counters as ghost state; the N-filar branch with unequal proportions is a candidate refutation |
| C04 | `compute_spread_turn_stations` over Q | closed form of the station of turn i, then order/edge lemmas |
| C05, C06 | `get_ordered_sections`, `add_insulation_to_sections` over Q | induction over repetitions/pattern and over the list |
| C07 | `get_patterns` with `next_permutation` | correctness of next_permutation; list surgery; index arithmetic with wrap-around (candidate UB) |
| C08 | `check_pattern_and_repetitions_integrity` | counting lemma |
| C09 | virtualization maps and (de)virtualization | partition invariant; counting |
| C10 | `get_number_layers_needed_and_number_physical_turns` | invariant of the correction loop |
| C11 | `get_proportion_per_winding_based_on_wires` | sum of quotients |
| C12 | max-fold of the coordinator | fold invariants |
| C13 | `linear_table_interpolation` | induction on the table |
| C14 | `electric_field_strength_is_valid` and the search loop | termination measure over Q; minimality invariant; monotonicity |
| C15 | layer count arithmetic of `calculate_coil_section_interface_layers` | rounding bounds; refutation witness |
| C16 | combination step of each model's `calculate_creepage_distance` | arithmetic over arbitrary table results; refutation witnesses |
| C17, C18 | `get_solid_insulation_requirements_for_wires` state threading, `needs_margin` | case analysis with explicit caller state; induction on pattern |
| C19-C21 | `Cache<T>`, `MagneticsCache`, freeze flag | abstract map refinement over operation histories |
| C22, C23 | `LibraryContext::Scope` constructor/destructor over a global catalog state | induction on nesting; lookup lemmas; core lookup refutation |
| C24, C25 | `check_requirement`, `resolve_dimensional_values` | case analysis |
| C26 | `normalize_scoring` linear over Q, logarithmic over R | order lemmas |
| C27, C28, C30, C41 | string/byte functions over lists of bytes | induction on the string |
| C29 | rounding helpers over Q | Qfloor/Qceiling lemmas |
| C31 | `NumberTurns` over Q ratios | loop invariant with fuel |
| C32 | `MagneticCombinator` | induction over generation levels |
| C33, C34 | `ReluctanceNetwork` over R or Q | chain elimination, diagonal dominance; reciprocity |
| C35 | JSON tree rewrite | induction on trees |
| C36 | `Settings` record | record equality; cache effects |
| C37 | enumeration tables | finite case analysis plus string quantification |
| C38-C40 | `WaveformProcessor` | induction on samples |
| C42, C43, C44 | small list/decision functions | induction, arithmetic |
| C45, C46 | `linear_spaced_array`, `is_power_of_two` | induction; bit lemma |
| C47 | `get_patterns` for three sides | enumeration of the sides' orders after the general lemma of C07 |
| C48 | subcircuit names over bytes | induction on the string |
| C49 | `Settings` setters and getters, 105 members | table of members, history induction |
| C50-C54 | catalogs, `LibraryContext`, loading, freezing | invariants over operation histories |
| C55 | the four standards over arbitrary monotone tables | monotonicity of the interpolation and of each combination step |
| C56 | wire coverage of the voltage | case analysis, symmetry of the fold |
| C57-C59 | `ReluctanceNetwork`, column attribution | elimination lemmas, Rayleigh monotonicity (minimum of the energy) |
| C60-C64 | `WaveformProcessor` creation, sampling, compression, recognition | closed form per shape, induction on samples |
| C65-C68 | the FFT (bit reversal, butterflies), harmonics, figures, over R | loop invariant: after stage s the array holds the transforms of the blocks; Parseval |
| C69 | `MagneticCombinator` way back | induction over the groups |
| C70-C74 | `wind_by_*_sections`, `_layers`, `_turns` (rectangular), toroidal turns | loop invariants over the placed elements; end-to-end composition |
| C75-C82 | `CoreAdviser*` with the measurements as parameters, doubles with NaN and infinities | stability and permutation lemmas of the sort, specification of each filter, composition of the pipelines |
| C83-C88 | `Logger`, sinks, `read_log` as a small-step semantics with any number of threads | inductive invariants over steps; ghost list of accepted entries; lock ownership; decreasing measure; refinement of a queue for one thread |
| C89-C96 | `WindingOhmicLosses`, `WindingLosses`, the loops of `WindingSkinEffectLosses` and `WindingProximityEffectLosses` | loop invariants over turns and conductors, exchange of sums, completing the square; skin and field models are parameters |
| C97-C99 | `get_main_harmonic_indexes`, `prune_harmonics`, `CoilMesher` up to the fields, with the square root and the points of a turn as parameters | characterisation of the kept set, uniqueness of sorted lists, invariant of the walk over the growing map, bound on the growing threshold |
| C100-C101 | `LeakageInductance` matrix inversion, `ExtendedCantilever` | invariant of Gauss-Jordan elimination on rows; nodal analysis of the reported circuit |
| C102-C105 | leakage, mutual and inductance matrices, coupling coefficients | the field energy is a quadratic form of the currents; restricting it to a column keeps it semidefinite; sums over windings |
| C106-C109 | `Temperature::solveThermalCircuit`, its solver and its figures, cooling options, radiation; the convection correlations are parameters | correctness and uniqueness of the elimination, discrete minimum principle, invariant of the iteration, energy argument for reciprocity |
| C110-C113 | `Reluctance.cpp`: the six gap models, ungapped and gapped core, fringing factors, stored energy, over the reals | monotonicity of logarithms, exponentials and quotients, sums over gaps and permutations |
| C114-C117 | sizing functions of `MagnetizingInductance.cpp`, gap for a fringing factor; inductance, reluctance and fringing as functions are parameters | one-step convergence of the square law, distance invariant of the step-halving search, bracketing and intermediate values, rounding bounds |
| C118-C124 | `CorePiece.cpp` (shape families, windings, effective parameters) and the assembled core of `Core.cpp` | algebra of sums over sections, homogeneity, positivity from admissible dimensions, field identities per family |
| C125-C129 | Steinmetz ranges, temperature correction, the Steinmetz, iGSE, ciGSE, Albach, MSE, NSE and Barg models over the reals with NaN | induction over ranges and samples, power laws, Bernoulli and power-mean inequalities |
| C130-C131 | agreement of the models on triangles, waveforms of several cycles | closed forms of the integrals, truncation to one period |
| C132-C137 | choice and fallback of the model, bias correction, semi-shielded drums, inverses (Steinmetz, manufacturers, grid searches) | case analysis of the choice, inversion of powers, monotony, best-so-far invariants of the searches |
| C138 | the Roshen model: branches, shift, loop, eddies | the discriminant of the closing condition is a square completed, intermediate monotony, filters of monotone functions |
| C139-C140 | loss factor with its table per name, series resistance, guard of the filters | sorting and uniqueness of sorted lists, invariant of the table over any history, rounding bounds |
| C141-C146 | `Wire.cpp`: effective area, parallels, litz bundles, interpolated sizes and filling factors of coatings | counting arguments on concentric layers, monotone interpolation in sorted tables, algebra of dimensions |
| C147-C148 | labels of wire coatings in `Wire.cpp` | round trips of encoders and decoders on text, by cases on the coating and its grade |
| C149-C151 | choice of wires from the catalogue (`Wire.cpp`) | best-so-far invariants of the scans over the catalogue, exactness of membership |
| C152 | `InitialPermeability.cpp`: formulas of the makers, modifiers of a family | monotony of powers, products, splitting and trimming of text |
| C153-C155 | measured points, search for a drop, caches by name; splines, amplitude permeability and sampling frequencies are parameters | specification of the sweeps, sorting, intermediate values, invariant of the caches under any history |
| C156-C159 | gaps of a core: layout, factories, heights, limits (`Core.cpp`) | induction on columns and gaps, arithmetic on the nanometre grid, error bounds of the roundings |
| C160-C162 | gaps processed again, cores without gaps, stacks | closest column, fixed point of the second pass, independence of what former passes left |
| C163-C164 | core losses of switched currents at their carrier (`Inputs.cpp`), plateau of Barg (`CoreLosses.cpp`) | specification of the strongest harmonic by induction on the spectrum, prefix of the record, highest value |
| C165-C166 | outer dimensions and fitting in a volume (`Magnetic.cpp`, `Core.cpp`, `Coil.cpp`, `Bobbin.cpp`) | permutations of three dimensions, fold of maxima over the turns, the memo as state |
| C167-C170 | verdicts and scores of the filters of the advisers (`MagneticFilter*.cpp`) | induction on operating points and windings against specifications of what each point must meet |
| C171-C175 | published limits, solid insulation, area product with its memory, room for wires and shared scores (`MagneticFilterDatasheet.cpp`, `MagneticFilter.cpp`, `MagneticFilterArea.cpp`, `Utils.cpp`) | limits as an inductive relation, folds of minima and maxima, invariant of the memory over every history |
| C176-C178 | figures of the material at a temperature, saturation current, rated current (RatingModel.v) | uniqueness of sorted permutations, linear arithmetic, invariants of the doubling and of the bisection, contraction of the passes |
| C179 | the five core temperature models (CoreHeatModel.v) | monotony of powers and roots over the reals |
| C180-C182 | resolving, memoising and changing the material of a core, applications (MaterialModel.v) | induction on histories with a coherence invariant; case analysis with exact characterisations |
| C183-C184 | the impedance over frequency, its attenuation series, wideband and biased figures (ImpedanceModel.v) | complex arithmetic over the reals, telescoping bound on the series weights with a lower bound on PI, sums in a commutative monoid |
| C185-C188 | least turns, coils without turns, self resonance, permittivity interpolation (ImpedanceModel.v) | induction on the search, case analysis, sorted permutations are unique, logarithms |
| C189-C190 | the complex permeability, derived from the initial one or interpolated, and the interpolators kept by name (CpermModel.v) | hyperbolic against circular functions by the mean value theorem, induction on the drop table, invariant of the memory over any history, sorted permutations are unique |
| C191-C192 | the hysteresis loop of a material and its amplitude permeability (LoopModel.v) | rational functions by cross multiplication, sorted and thinned grids by induction, invariant of the shifting loop |
| C193-C195 | ladder capacitances of a one layer winding, two dielectrics in series (LadderModel.v) | induction on the rungs, contraction of the rung map, sums of squares in closed form |
| C196-C199 | voltages of the turns, table among turns, floating core, settling of a pair (StrayModel.v) | induction on the turns, invariant of the table, completing the square, bounded recursion |
| C200-C202 | tables among windings, Maxwell matrix, equivalent circuits, tables over turns (StrayModel.v) | invariant of the table over the pairs, double sums, closed form of the sum over the pieces |
| C203-C204 | the reader of simulation files: splitting, guessing the separator, header and rows (`CsvModel.v`) | induction over the line with the state of quotes and parentheses; induction over cells and lines |
| C205-C206 | time axis, repeated times, window of one period and its memory (`SignalModel.v`) | induction over samples, specification of the three searches, invariant of the window memory |
| C207-C208 | windings from names, voltage or current, rolling filter (`SignalModel.v`) | sorted lists without repetition, permutations, a relation between scaled signals, exchange of double sums |
| C209 | the operating point from named columns (`ExcitationModel.v`) | induction over columns and windings; membership in the list of assigned columns |
| C210-C213 | wire adviser: catalogue, gates, scores, ranking, planar wires (`WireAdviseModel.v`, `WireAdviseProofs.v`, `WireAdviseProperties.v`) | each filter characterised once (validity, range and monotony of its term, permutation), composed; sorting lemmas; arithmetic of the fit |
| C214-C217 | core cross referencer: candidates, widening, memory, scores, report (`CrossModel.v`, `CrossProofs.v`, `CrossProperties.v`) | the filters with memory equal the filters without as long as the memory is faithful, which widening keeps; each filter characterised once (who stays, range and monotony of its term), composed |
| C218-C219 | material cross referencer: candidates, ranking, scores (`MatCrossModel.v`, `MatCrossProperties.v`) | induction over the filters, each characterised by who stays and by range and monotony of its term |

## 5. Axioms

What `Print Assumptions` lists, for the theorems named in `MANIFEST.json`
(checked with one file that prints all of them):

* 846 theorems: *Closed under the global context*. These are all theorems of all files except those named below.
* `ClassicalDedekindReals.sig_forall_dec`:
  - `WireChoiceProperties.v`: `C151_minimum_refuted`
* `ClassicalDedekindReals.sig_forall_dec`, `FunctionalExtensionality.functional_extensionality_dep`:
  - `GapCoreProperties.v`: `C113_permeability`, `C113_peak`, `C113_required`, `C113_required_order`, `C113_missing_current`
  - `SizingProperties.v`: `C115_gap`, `C115_gap_residual`, `C115_rounding_refuted`, `C115_unreachable_refuted`
  - `SizingVoltageProperties.v`: `C116_volt_seconds`, `C117_unbiased`, `C117_bias_lowers`, `C117_bias_monotone`, `C117_faraday`, `C117_linkage_refuted`
  - `ShapeCoreProperties.v`: `C124_e_tiles_its_width`, `C124_e_windows_clear_of_columns`, `C124_u_window_clear_of_columns_refuted`, `C124_c_window_clear_of_columns_refuted`, `C124_unequal_legs_refuted`
  - `CoreLossProperties.v`: `C125_found`, `C125_refused_in_gaps`, `C125_inside`, `C125_order`, `C125_gap_refuted`, `C125_order_refuted`
  - `CoreLossBiasProperties.v`: `C133_factor_range`, `C133_no_bias`, `C133_no_data`, `C133_sign`, `C133_ratio`, `C133_monotone`
  - `CoreLossSearchProperties.v`: `C137_frequency_best`, `C137_frequency_near`, `C137_frequency_exact`, `C137_flux_best`, `C137_flux_near`, `C137_flux_exact`, `C137_refused`, `C137_out_of_reach_refuted`, `C137_no_losses_refuted`, `C137_not_growing_refuted`
  - `RoshenProperties.v`: `C138_characteristic_points`, `C138_branches`, `C138_sweep`, `C138_resistivity`
  - `LossFactorProperties.v`: `C139_points`, `C139_repeated`, `C139_outside`, `C139_two_points`, `C139_order`, `C139_history`, `C139_same_name_refuted`, `C139_no_frequency_refuted`, `C139_turns`, `C139_no_current_refuted`, `C140_filters`
  - `WireProperties.v`: `C144_equivalent_layers`, `C144_given`, `C144_without`, `C144_cut`, `C144_foil_area_refuted`
  - `WireChoiceProperties.v`: `C149_nearest`, `C149_same`, `C149_incomplete`, `C149_none_refuted`, `C149_litz_refuted`, `C151_extremes`
  - `CoreLossCarrierProperties.v`: `C163_carrier`, `C163_own`, `C163_amplitude`, `C163_whole`
  - `ImpedanceProperties.v`: `C184_first_column`
  - `ImpedanceBuildProperties.v`: `C185_least`, `C185_none`, `C185_total`, `C185_limit_refuted`, `C185_ratios`, `C185_order`, `C185_missing`, `C186_wound`, `C187_model_refuted`
  - `CpermProperties.v`: `C190_history`, `C190_name_refuted`, `C190_value`, `C190_missing`, `C190_empty_refuted`, `C190_nan_refuted`, `C190_order`, `C190_beyond`
* `ClassicalDedekindReals.sig_forall_dec`, `ClassicalDedekindReals.sig_not_dec`, `FunctionalExtensionality.functional_extensionality_dep`:
  - `FftProperties.v`: `C65_transform`, `C65_energy`, `C65_other_lengths_refused`, `C66_harmonics`, `C66_power`, `C66_no_power_invented`, `C66_sinusoid`, `C66_scale`, `C66_time_shift`, `C66_half_sampling_refuted`
  - `FftFigureProperties.v`: `C67_what_is_kept`, `C67_only_when_asked`, `C67_trimmed_of_full`, `C67_zero_threshold`, `C67_two_samples_refuted`, `C68_effective_frequency_within`, `C68_ac_not_below`, `C68_average_rms_peak`, `C68_rms_from_harmonics`, `C68_distortion`, `C68_scale`, `C68_sinusoid`, `C68_sinusoid_rms`, `C68_missing_fundamental_refuted`
  - `GapCoreProperties.v`: `C112_air`
  - `SizingProperties.v`: `C114_at_least_one`, `C114_unspecified`, `C114_minimum`, `C114_nominal`, `C114_round_trip`, `C114_minimum_biased`, `C114_minimum_refuted`, `C114_least_refuted`, `C114_no_operating_point_refuted`, `C115_saturation`, `C115_saturation_refuted`
  - `SizingVoltageProperties.v`: `C116_voltage`, `C116_faraday`, `C116_nothing_refuted`, `C116_ungapped`, `C116_gapped`, `C116_without_fringing`, `C116_rejected`, `C116_correction_refuted`
  - `RoshenProperties.v`: `C138_loop_closed`, `C138_low_flux_refuted`, `C138_hysteresis`, `C138_hysteresis_grows`
  - `LossFactorProperties.v`: `C139_never_negative`, `C139_losses`, `C139_core`, `C140_turns`, `C140_resistance`, `C140_grows`, `C140_small_inductance_refuted`
  - `WireProperties.v`: `C141_round_conductors`, `C141_flat_conductor`, `C141_bounds`, `C141_frequency`, `C141_temperature`, `C141_no_material`, `C141_flat_conductors_refuted`, `C142_least`, `C142_direct`, `C142_monotone`, `C142_points`, `C142_missing`, `C143_filling`, `C143_more_strands`, `C143_served`, `C143_insulated`, `C143_side_by_side`, `C143_side_by_side_refuted`, `C143_single_strand_refuted`
  - `WireTableProperties.v`: `C145_sizes`, `C145_filling_partial`, `C145_filling_refuted`, `C145_packing_refuted`, `C145_catalogue_refuted`, `C145_insulated_refused`, `C146_catalogue_size`, `C146_coated`, `C146_beyond`, `C146_litz_filling`, `C146_litz_packing`
  - `WireChoiceProperties.v`: `C150_area`, `C150_frequency`, `C150_resistance`, `C150_litz_count`, `C150_litz_refuted`, `C150_round_instead`
  - `ImpedanceProperties.v`: `C184_leakage_arm`
  - `ImpedanceBuildProperties.v`: `C187_of_the_tank_partial`, `C187_fast_refuted`, `C187_ignored_refuted`
* `ClassicalDedekindReals.sig_forall_dec`, `ClassicalDedekindReals.sig_not_dec`, `Classical_Prop.classic`, `FunctionalExtensionality.functional_extensionality_dep`:
  - `StationProperties.v`: `C10_toroid`, `C10_toroid_with_leads`, `C10_turns_fit_on_their_ring`, `C10_with_leads_refuted`
  - `GapProperties.v`: `C110_zhang`, `C110_zhang_paths`, `C110_closed`, `C110_effective_area`, `C110_effective_length`, `C110_classic`, `C110_partridge`, `C110_partridge_refuses`, `C110_balakrishnan`, `C110_balakrishnan_refuses`, `C110_muehlethaler`, `C110_muehlethaler_round`, `C110_stenglein`, `C110_muehlethaler_round_factor_refuted`, `C110_muehlethaler_negative_refuted`, `C110_missing_area`, `C110_missing_area_refuted`, `C110_stenglein_negative_refuted`
  - `GapShapeProperties.v`: `C111_longer_gap`, `C111_longer_gap_refuted`, `C111_more_room`, `C111_similarity`, `C111_stenglein_similarity_refuted`
  - `GapCoreProperties.v`: `C112_total`, `C112_gaps_raise`, `C112_monotone`, `C112_order`, `C112_fringing`, `C112_method_refuted`, `C112_opening_refuted`, `C112_saturation_irrelevant`, `C113_gap_energy`, `C113_given_factor`, `C113_core_energy`, `C113_proportion_refuted`, `C113_saturation_length`
  - `SizingProperties.v`: `C115_fringing_range`, `C115_fringing_thin`, `C115_fringing`, `C115_fringing_closest`
  - `ShapeProperties.v`: `C118_parameters_consistent`, `C118_core_parameters_consistent`, `C118_e_refused_iff`, `C118_u_refused_iff`, `C118_ring_refused_iff`, `C118_every_bad_drawing_is_refused_refuted`, `C118_wide_piece_refuted`, `C119_minimum_not_above_effective_partial`, `C119_e_areas`, `C119_u_areas`, `C119_pot_core_refuted`
  - `ShapeSectionProperties.v`: `C119_etd_areas`, `C119_plate_areas`, `C119_ur_uniform`, `C119_el_yoke`, `C119_rm_leg`, `C121_pm_default_opening`
  - `ShapeScaleProperties.v`: `C120_parameters_scale`, `C120_small_letters_refuted`, `C121_ui_is_two_u`, `C121_ei_is_two_e`, `C121_pqi_is_two_pq`, `C121_ut_is_ui`, `C121_powder_plates_refuted`
  - `ShapeCoreProperties.v`: `C122_other_families_agree`, `C122_e_parameters_ordered`, `C122_ring_parameters_ordered`, `C122_core_independent_of_setting`, `C122_setting_is_honoured_refuted`, `C123_assembled`, `C123_parameters_idempotent`, `C123_refused_changes_nothing`, `C123_gaps_grow`, `C123_single_stack_stable`, `C123_processing_idempotent_refuted`
  - `CoreLossProperties.v`: `C126_nonnegative`, `C126_zero`, `C126_monotone`, `C126_temperature`, `C126_refused`, `C126_mirror_refuted`, `C126_temperature_refuted`
  - `CoreLossScaleProperties.v`: `C127_flux_density`, `C127_frequency`
  - `CoreLossShapeProperties.v`: `C128_moves`, `C128_delay_bias_mirror`, `C128_backwards`, `C128_started_elsewhere`, `C128_straight_line`, `C128_vertical_edge_refuted`, `C129_triangle_least`
  - `CoreLossAgreeProperties.v`: `C130_albach_is_mse`, `C130_igse_is_nse`, `C130_cigse_is_igse`, `C130_cigse_loaded_refuted`, `C130_igse_of_a_sinusoid`, `C131_two_cycles`, `C131_more_cycles`, `C131_more_cycles_refuted`, `C131_over_counted_refuted`, `C131_nse_counts_all_refuted`
  - `CoreLossBiasProperties.v`: `C132_reported`, `C133_applied`, `C133_never_less`, `C133_same_density`, `C133_roshen_refuted`
  - `CoreLossChoiceProperties.v`: `C132_other_variant_refuted`, `C132_points_and_mass_refuted`, `C132_own_data_refuted`
  - `CoreLossDrumProperties.v`: `C134_sections`, `C134_reported`, `C134_one_material`, `C134_peak_models`, `C134_waveform_refuted`, `C134_not_finite_refuted`
  - `CoreLossInverseProperties.v`: `C135_flux_density`, `C135_flux_density_back`, `C135_frequency`, `C135_frequency_losses`, `C135_one_range`, `C135_frequency_back`, `C135_same_exponent_refuted`, `C135_negative_correction_refuted`, `C135_datum`
  - `CoreLossMakerProperties.v`: `C136_equation`, `C136_no_flux`, `C136_positive`, `C136_frequency_strict`, `C136_flux_strict`, `C136_frequency`, `C136_frequency_back`, `C136_mass`, `C136_bias_refuted`, `C136_no_eddies_refuted`, `C136_tdg_refuted`
  - `RoshenProperties.v`: `C138_eddies`, `C138_total`, `C138_nonnegative`, `C138_eddies_scale`, `C138_volumetric_refuted`
  - `PermeabilityFamilyProperties.v`: `C152_default_required`, `C152_negative_refuted`, `C152_zero_flux_refuted`, `C152_no_method_refuted`
  - `PermeabilityProperties.v`: `C152_bias_sign`, `C152_curie`, `C152_bias_falls`, `C152_no_modifiers`, `C152_magnetics_bias`, `C152_micrometals_bias`, `C152_micrometals_frequency`, `C152_micrometals_temperature`, `C152_poco_corner`, `C152_poco_frequency`, `C152_micrometals_flux`, `C152_tdg_bias`, `C152_fair_rite_temperature`, `C152_magnetics_temperature`, `C152_magnetics_frequency`, `C152_product`
  - `PermeabilityPointProperties.v`: `C153_point`, `C153_product`, `C153_product_bias`, `C153_independent`, `C153_saturation`, `C153_curie`, `C153_at_least_one`, `C153_ambient`, `C153_constant`, `C153_empty`, `C153_corner_refuted`, `C153_bias_sign_refuted`, `C153_missing_figure_refuted`, `C154_drop`, `C154_crossing`, `C154_no_dependency`, `C154_more_than_all_refuted`
  - `PermeabilityCacheProperties.v`: `C155_history`, `C155_curie`, `C155_same_name_refuted`
  - `CoreLossCarrierProperties.v`: `C163_one_cycle`, `C164_plateau`
  - `CoreHeatProperties.v`: `C179_report`, `C179_ambient`, `C179_losses`, `C179_larger`, `C179_surface_models`, `C179_surface_law`, `C179_negative_refuted`, `C179_no_window_refuted`, `C179_no_column_refuted`, `C179_tdk`, `C179_unit_resistance`
  - `ImpedanceProperties.v`: `C183_effective_loss`, `C183_passive`, `C183_lossy_finite`, `C183_order`, `C183_single_tank`, `C183_turned_column`, `C183_series`, `C184_one_winding`, `C184_windings_add`, `C184_no_bias`, `C184_bias_scales`, `C184_q`
  - `ImpedanceBuildProperties.v`: `C186_impedance`, `C186_wideband_unwound_refuted`, `C187_sign`, `C188_value`, `C188_between`, `C188_order`, `C188_zero_refuted`, `C188_none_counts`
  - `CpermProperties.v`: `C189_infer`, `C189_factors`, `C189_lossy`, `C189_magnitude`, `C189_tail`, `C189_slope`

`ClassicalDedekindReals.sig_forall_dec`, `sig_not_dec` and
`functional_extensionality_dep` come with Coq's real numbers;
`Classical_Prop.classic` comes with the standard library's lemmas on `asin`.

`coqchk` also lists, because it lists whole libraries and not single theorems,
the sealed constants of `Coq.Reals.Rdefinitions` (`RbaseSymbolsImpl.*`,
`RinvImpl.*`: definitions hidden behind a module signature, not assumptions) and
`Coq.ssr.ssrunder.Under_rel.*` (the same, loaded with ssreflect by a library we
import).

## 6. What is modelled and what is not

| Model | C++ | Left out |
|---|---|---|
| `Base.v`, `UtilsNumModel.v` | numeric helpers of `support/Utils.cpp`, `Definitions.h` | elliptic integrals, Bessel functions |
| `TextModel.v` | strings, NDJSON, file names of `support/Utils.cpp`; `MasMigration.cpp` | `json::parse` (a parameter), file access |
| `EnumModel.v` | text forms of the enumerations of `Definitions.h`, `Models.h`, `CoreAdviser.h`, `CircuitSimulatorInterface.h` | the generated `MAS.hpp` |
| `SettingsModel.v` | `support/Settings.*` | |
| `CatalogModel.v` | `support/Cache.*`, `support/LibraryContext.*`, loading and lookup of `support/Utils.cpp` | contents of the catalogs (parameters), compressed files |
| `CoilSplitModel.v`, `CoilPatternModel.v`, `StationModel.v`, `WindModel.v` | `constructive_models/Coil.cpp`: shares, patterns, groups of windings, insulation between sections, sections, layers and turns of rectangular windows, turns of toroids, stations | `wind_by_round_layers`, foil and planar turns, turn-slot blocking by leads, delimit and compact, painters |
| `NumberTurnsModel.v` | `constructive_models/NumberTurns.*` | wrap-around past 2^64 |
| `InsulationModel.v`, `InsulationData.v` | `constructive_models/Insulation.*`, bundled tables | |
| `NetworkModel.v` | `physical_models/ReluctanceNetwork.cpp`, the functions of `Core.cpp` it calls | gap reluctance formulas (parameters) |
| `WaveModel.v`, `FftModel.v` | `processors/WaveformProcessor.cpp` | rounding of doubles; `sin` values are parameters in `WaveModel.v` |
| `CombinatorModel.v` | `advisers/MagneticCombinator.cpp` | |
| `AdviserModel.v` | `advisers/CoreAdviser*.cpp`: scoring, filters, pipelines, batches, dataset | what a filter measures (parameters) |
| `LossModel.v` | `physical_models/WindingOhmicLosses.cpp`, `WindingLosses.cpp` (losses, combination, resistance matrix), loops of `WindingSkinEffectLosses.cpp`, `WindingProximityEffectLosses.cpp` | skin effect and field formulas (parameters), rounding of doubles |
| `HarmonicModel.v` | `get_main_harmonic_indexes` of `support/Utils.cpp`, `prune_harmonics` of `processors/Inputs.cpp`, fields per harmonic of `support/CoilMesher.cpp` | meshes of a single turn and shares (parameters), grids, images in the core |
| `CantileverModel.v` | `invert_matrix` and `ExtendedCantilever` of `physical_models/LeakageInductance.cpp` and of the inductance model | |
| `InductanceModel.v` | leakage by field energy, `physical_models/Inductance.cpp` | field of the windings (a parameter), grid of points |
| `ThermalModel.v` | `physical_models/Temperature.cpp`: network solver, iteration, figures of the result, heat sink, cold plate; radiation and conductivity of `physical_models/ThermalResistance.cpp` | construction of the network from the geometry, convection correlations (parameters), forced convection option |
| `GapModel.v` | gap reluctance and fringing models and core totals of `physical_models/Reluctance.cpp` | core shapes (areas, lengths and permeability are parameters), drum and open cores |
| `SizingModel.v` | turns, gaps, flux densities and joint sizing of `physical_models/MagnetizingInductance.cpp`, `get_gapping_by_fringing_factor` of `physical_models/Reluctance.cpp` | distributed gaps during the search, windings off the main column, air inductance, low-frequency bias |
| `ShapeModel.v` | the families of `constructive_models/CorePiece.cpp` that are not drums or moulded, and the joining of pieces and stacks of `constructive_models/Core.cpp` | drums, moulded and custom pieces; area product and labels |
| `CoreLossModel.v` | the Steinmetz family of `physical_models/CoreLosses.cpp` and the getters of `processors/Inputs.cpp` it uses | completion of waveforms without time; harmonics computed from waveforms |
| `CoreLossChoiceModel.v` | choice of the model and its data, bias correction, semi-shielded drums of `physical_models/CoreLosses.cpp` | the databases behind the data |
| `CoreLossInverseModel.v` | frequency and flux density from losses, models of the manufacturers | obfuscated material names |
| `RoshenModel.v` | the Roshen model of `physical_models/CoreLosses.cpp` | interpolation over temperature of the coercive force, remanence and saturation |
| `LossFactorModel.v` | the loss-factor model, the series resistance of the others, the guard of `advisers/MagneticFilterInternal.h` | the splines (library `tk::spline`, a parameter), initial permeability, reluctance |
| `WireModel.v`, `WireTableModel.v`, `WireLabelModel.v`, `WireChoiceModel.v` | the conducting and outer dimensions, litz bundles, interpolated filling factors, labels of coatings and choices of `constructive_models/Wire.cpp` | coating thickness, the JSON of wires, the catalogue's contents (a parameter) |
| `PermeabilityModel.v` | `physical_models/InitialPermeability.cpp` except the printed equations | `tk::spline`, `AmplitudePermeability`, `logarithmic_spaced_array` (parameters), infinite results |
| `GappingModel.v` | `constructive_models/Core.cpp` 597-651, 674-682, 713-1304 and the stacks and gaps of 28-43 and `process_data` | floating point rounding other than to the nanometre, `pi` as the double it is, the settings and materials `process_data` touches |
| `FitModel.v` | `constructive_models/Magnetic.cpp` 54-174, `Core.cpp` 2290-2408, `Coil.cpp` 13741-13781, `Bobbin.cpp` 1092-1114, the dimension, volume, area and height filters of `advisers/MagneticFilterGeometry.cpp` | NaN dimensions |
| `FilterModel.v` | `advisers/MagneticFilterPhysical.cpp`, `MagneticFilterEnergyCost.cpp` 28-63, `MagneticFilterGeometry.cpp` 94-117, `MagneticFilter.cpp` 289-383, `MagneticFilterInternal.h` 34-189 | the physical models the filters call, their caches and the outputs they fill |
| `GateModel.v` | `advisers/MagneticFilterDatasheet.cpp`, `MagneticFilter.cpp` 159-271, `MagneticFilterArea.cpp` 104-364, scores of `support/Utils.cpp` 178-205 and `MagneticFilterGeometry.cpp` 150-202 | loss models and skin depth behind the flux density and wire share, the constructor's products, patterns behind the combinations |
| `RatingModel.v` | `constructive_models/Core.cpp` 198-243, 1865-1886, `Magnetic.cpp` 175-341 | tk::spline, the inductance, the ohmic losses and the thermal network (any function) |
| `CoreHeatModel.v` | `physical_models/CoreTemperature.cpp` | the factory, the name and origin of the result |
| `MaterialModel.v` | `constructive_models/Core.cpp` 1310-1439, 2145-2280, `Core.h` 31 | the catalogue (any function), the rest of the record of a material, the shape memo |
| `ImpedanceModel.v` | `physical_models/Impedance.cpp` | stray capacitance, leakage inductance, winding resistances, winding a coil, complex permeability (parameters of the section); the slab formula `tan(x)/x` (a parameter) |
| `CpermModel.v` | `physical_models/ComplexPermeability.cpp` | `calculate_frequency_for_initial_permeability_drop`, `InitialPermeability` and `tk::spline` (parameters); the choice of the anchor frequency and of the relative frequencies of the derived table |
| `LoopModel.v` | `physical_models/AmplitudePermeability.cpp` | saturation, coercive force and remanence of a material at a temperature (given); divisions by zero |
| `LadderModel.v` | `StrayCapacitance.cpp` (one layer: `cab`, `cas`, `calculate_capacitance`, effective permittivity) | the turn to turn and turn to shield elements |
| `StrayModel.v` | `StrayCapacitance.cpp` (voltages, tables among turns and windings, core, Maxwell matrix, six capacitors, tripoles) | geometry of surrounding turns, capacitance of one pair (Massarini, Koch, Albach, Duerdoth, plates), turn to core element |
| `CsvModel.v` | `CircuitSimulatorInterface.cpp` (reader, lines to columns) | opening the file, `std::stod` (any function), overflow of the depth of parentheses |
| `SignalModel.v` | `CircuitSimulatorInterface.cpp` (reader, columns to signals) | the resampling of a period, types guessed from names, maps of column names, frequencies of zero |
| `ExcitationModel.v` | `CircuitSimulatorInterface.cpp` (reader, operating point with named columns) | resampling, harmonics and processed data (any function); the operating conditions |
| `WireAdviseModel.v` | `src/advisers/WireAdviser.cpp` | the wires synthesized as litz (part of the list given), the suffix of planar names, logging; resistance, skin losses, sizes, insulation and the parallels needed are arbitrary functions of the wire |
| `CrossModel.v` | `src/advisers/CoreCrossReferencer.cpp`, `src/advisers/CrossReferencerCommon.h` | the figures of a core (permeance, losses, areas) are given; logarithmic or not inverted filter configurations; the scored values kept for display; logging |
| `MatCrossModel.v` | `src/advisers/CoreMaterialCrossReferencer.cpp` | the figures of a material at a temperature are given (averaging of losses over flux densities and frequencies included); the scores and values kept for display; logging |
| `LogModel.v` | `support/Logger.h`, `read_log`, `logEntry` | weak memory, failing writes, `flush` |

Nothing is modelled of: the capacitance and magnetic
field models in `physical_models/` other than those named above, the converter
models, the circuit simulator exporters, the painters, the JSON library, the file
system. Rounding of doubles is not modelled anywhere; overflow of integers only
where a comment says so.
