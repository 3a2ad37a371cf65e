{
 "claims": [
  {
   "property": "C01",
   "status": "proved",
   "theorems": [
    "C01_split_hands_out_every_turn_once",
    "C01_coil_winds_every_turn_once",
    "C01_interleaved_coil_winds_every_turn_once",
    "C01_round_overlapping_refuted",
    "C01_round_overlapping_one_section_each",
    "C01_even_sharing"
   ],
   "note": "Proved for rectangular windows, contiguous round windows, and any relative sizes whose last section per winding is not scaled down. C01_round_overlapping_refuted: interleaved windings in overlapping rings throw, because only the globally last section is topped up (Coil.cpp:6727-6731)."
  },
  {
   "property": "C02",
   "status": "proved",
   "theorems": [
    "C02_forced_counts_respected",
    "C02_round_robin_is_fair",
    "C02_overcommitted_slot_refuted",
    "C02_consecutive_turns_in_order"
   ],
   "note": "Holds when the forced counts fit what remains. C02_overcommitted_slot_refuted shows the out-of-range read otherwise."
  },
  {
   "property": "C03",
   "status": "partial",
   "theorems": [
    "C03_whole_coil",
    "C03_real_geometry_refuted",
    "C03_uneven_parallels_refuted",
    "C03_rectangular_all_or_nothing",
    "C03_turns_laid_once",
    "C03_toroid_all_or_nothing"
   ],
   "note": "Proved for rectangular windows and toroids whenever a layer wound by consecutive parallels has parallels with as many turns as each other, and end to end (C03_whole_coil) for every coil wound from its sections without the real winding geometry. Refuted otherwise: C03_uneven_parallels_refuted, C03_real_geometry_refuted."
  },
  {
   "property": "C04",
   "status": "partial",
   "theorems": [
    "C04_spread",
    "C04_edges_met",
    "C04_contiguous",
    "C04_inside",
    "C04_symmetric",
    "C04_symmetric_refuted",
    "C04_degenerate",
    "C04_stations_in_order"
   ],
   "note": "Proved for all sizes, counts and bundles. Pointwise symmetry holds with whole bundles only (C04_symmetric); C04_symmetric_refuted: a last bundle that is not full breaks it for the inner turns, while the outer surfaces stay symmetric (C04_spread)."
  },
  {
   "property": "C05",
   "status": "proved",
   "theorems": [
    "C05_sections_follow_the_pattern",
    "C05_sections_use_the_space",
    "C05_unknown_winding_refused",
    "C05_share_above_one_refused"
   ],
   "note": ""
  },
  {
   "property": "C06",
   "status": "proved",
   "theorems": [
    "C06_insulation_is_carved_out",
    "C06_wrap_around"
   ],
   "note": ""
  },
  {
   "property": "C07",
   "status": "proved",
   "theorems": [
    "C07_patterns_are_legal",
    "C07_toroid_with_eight_sides_refuted",
    "C07_surplus_sides_refuted"
   ],
   "note": "Proved for every assignment of sides with one side per winding; for toroids up to seven isolation sides. C07_toroid_with_eight_sides_refuted: with eight or more the iterator arithmetic leaves the list. C07_surplus_sides_refuted: with more sides than windings a pattern repeats."
  },
  {
   "property": "C08",
   "status": "proved",
   "theorems": [
    "C08_never_more_sections_than_turns",
    "C08_repeated_winding_refuted"
   ],
   "note": "For patterns that mention each winding once (all patterns of C07). C08_repeated_winding_refuted shows that a pattern mentioning a winding twice is not corrected."
  },
  {
   "property": "C09",
   "status": "proved",
   "theorems": [
    "C09_grouping_is_a_partition",
    "C09_groups_are_the_companions",
    "C09_chain_of_companions_refuted",
    "C09_virtual_winding_has_all_turns",
    "C09_equal_windings_can_be_merged",
    "C09_different_parallels_refused",
    "C09_every_member_gets_its_turns",
    "C09_wrong_number_of_turns_refused",
    "C09_virtual_pattern",
    "C09_shares_are_kept"
   ],
   "note": "C09_chain_of_companions_refuted: companions that name each other are split when their lists are not transitively complete."
  },
  {
   "property": "C10",
   "status": "proved",
   "theorems": [
    "C10_counts_add_up",
    "C10_no_empty_ring",
    "C10_toroid",
    "C10_toroid_with_leads",
    "C10_turns_fit_on_their_ring",
    "C10_with_leads_refuted",
    "C10_degenerate"
   ],
   "note": "Proved for every geometry. C10_with_leads_refuted: with slots taken by connection leads the counts still add up, but a ring can be given a negative number of turns."
  },
  {
   "property": "C11",
   "status": "proved",
   "theorems": [
    "C11_shares_partition_the_window"
   ],
   "note": ""
  },
  {
   "property": "C12",
   "status": "proved",
   "theorems": [
    "C12_covers_every_standard",
    "C12_answers_when_all_do",
    "C12_nothing_asked_nothing_required",
    "C12_adding_standards_never_lowers",
    "C12_only_the_set_matters",
    "C12_summary"
   ],
   "note": ""
  },
  {
   "property": "C13",
   "status": "proved",
   "theorems": [
    "C13_on_the_line_between_rows",
    "C13_exact_at_rows",
    "C13_first_value_below_the_table",
    "C13_last_slope_above_the_table",
    "C13_monotone",
    "C13_every_abscissa_is_covered",
    "C13_single_row_refuted"
   ],
   "note": "For tables of at least two rows. C13_single_row_refuted: a table with one row answers DBL_MAX at the row itself."
  },
  {
   "property": "C14",
   "status": "proved",
   "theorems": [
    "C14_valid_and_minimal",
    "C14_monotone",
    "C14_requirement_withstands"
   ],
   "note": "The repeated addition of one micrometre is exact in the model."
  },
  {
   "property": "C15",
   "status": "partial",
   "theorems": [
    "C15_thickest_tape_is_used",
    "C15_single_insulation_partial",
    "C15_double_insulation_partial",
    "C15_no_interface_only_for_lack_of_margin",
    "C15_exactly_covered_refuted"
   ],
   "note": "Holds up to one twentieth of a tape layer (the quotient is rounded to one decimal before the ceiling); C15_exactly_covered_refuted gives 2450 V of tape for 2500 V. Missing: the exact claim, which is false of the code."
  },
  {
   "property": "C16",
   "status": "partial",
   "theorems": [
    "C16_creepage_covers_clearance_62368",
    "C16_creepage_covers_clearance_61558",
    "C16_creepage_covers_clearance_60335_partial",
    "C16_creepage_covers_clearance_60664_partial",
    "C16_below_clearance_60664_refuted",
    "C16_rounding_60335_refuted"
   ],
   "note": "IEC 62368 and 61558 exactly; 60335, and 60664 at pollution degree 3, up to the rounding of 5 um. C16_below_clearance_60664_refuted: at pollution degree 2 and 5000 m the creepage is 2 mm and the clearance 2.22 mm."
  },
  {
   "property": "C17",
   "status": "partial",
   "theorems": [
    "C17_inputs_unchanged_partial",
    "C17_one_requirement_per_winding",
    "C17_basic_becomes_double_refuted",
    "C17_sides_filled_in_refuted"
   ],
   "note": "Unchanged when every winding has its isolation side and the type is not raised. C17_basic_becomes_double_refuted and C17_sides_filled_in_refuted show the two ways the inputs change."
  },
  {
   "property": "C18",
   "status": "partial",
   "theorems": [
    "C18_margin_decision",
    "C18_margin_iff_neighbours_uncovered",
    "C18_single_repetition_refuted",
    "C18_same_winding_refuted"
   ],
   "note": "Exact for two repetitions or more, apart from sections of the same winding. C18_single_repetition_refuted and C18_same_winding_refuted show the deviations."
  },
  {
   "property": "C19",
   "status": "proved",
   "theorems": [
    "C19_read_one",
    "C19_evict_one",
    "C19_evict_many",
    "C19_read_many",
    "C19_references_size_and_contents"
   ],
   "note": ""
  },
  {
   "property": "C20",
   "status": "partial",
   "theorems": [
    "C20_nothing_changes_while_frozen",
    "C20_changes_are_refused",
    "C20_eviction_refuted",
    "C20_scope_end_refuted"
   ],
   "note": "Proved for every history without an eviction from the magnetics cache or the end of a library scope; C20_eviction_refuted and C20_scope_end_refuted show that these two are not guarded."
  },
  {
   "property": "C21",
   "status": "proved",
   "theorems": [
    "C21_filter_sound_and_complete",
    "C21_maximum",
    "C21_recomputing_sees_changes",
    "C21_caches_are_sorted"
   ],
   "note": ""
  },
  {
   "property": "C22",
   "status": "proved",
   "theorems": [
    "C22_scope_restores",
    "C22_moved_scope_restores",
    "C22_empty_library_changes_nothing",
    "C22_nested_scopes_restore",
    "C22_not_nested_refuted",
    "C22_reassigned_scope_refuted"
   ],
   "note": "Proved for any number of scopes ended in reverse order, with any calls in between, and for moved scopes. C22_not_nested_refuted and C22_reassigned_scope_refuted (reusing a scope variable) show where the catalogs are not restored."
  },
  {
   "property": "C23",
   "status": "partial",
   "theorems": [
    "C23_library_entries_win",
    "C23_library_cores_partial",
    "C23_core_merge_refuted",
    "C23_micro_sign_refuted",
    "C23_wire_list_refuted"
   ],
   "note": "Proved for the six catalogs kept by name and, for cores, in Replace mode or without a built-in core of the name. Refuted: a built-in core wins in Merge mode, material names with the Latin-1 micro sign, the memoised list of wires."
  },
  {
   "property": "C24",
   "status": "partial",
   "theorems": [
    "C24_consistent_requirement_decided",
    "C24_contradictory_rejected_partial",
    "C24_contradictory_rejected_refuted",
    "C24_accepted_values_are_an_interval",
    "C24_negative_nominal_refuted",
    "C24_nonnegative_nominal_accepts_itself"
   ],
   "note": "C24_contradictory_rejected_refuted and C24_negative_nominal_refuted show where the code does not do what the claim says; the partial theorem gives the cases that hold."
  },
  {
   "property": "C25",
   "status": "proved",
   "theorems": [
    "C25_missing_iff_error",
    "C25_total",
    "C25_resolution_within_tolerance",
    "C25_resolutions_are_ordered",
    "C25_preferred_value_first",
    "C25_fallbacks"
   ],
   "note": ""
  },
  {
   "property": "C26",
   "status": "partial",
   "theorems": [
    "C26_log_normalised_scores",
    "C26_log_nan_rejected",
    "C26_log_zero_refuted",
    "C26_nan_is_refused",
    "C26_normalised_scores",
    "C26_candidates_keep_their_positions"
   ],
   "note": "Linear mode for all scores, logarithmic mode for positive scores and any strictly increasing logarithm; refuted for zero scores in logarithmic mode (1e-10 floor applied to some terms only)."
  },
  {
   "property": "C27",
   "status": "proved",
   "theorems": [
    "C27_split_and_join",
    "C27_empty_delimiter_never_ends"
   ],
   "note": "The empty delimiter, which the claim excludes, never ends (C27_empty_delimiter_never_ends)."
  },
  {
   "property": "C28",
   "status": "partial",
   "theorems": [
    "C28_closest_index_partial",
    "C28_present_element_found",
    "C28_closest_index_refuted"
   ],
   "note": "C28_closest_index_refuted: the code does not return the closest element in general; the partial theorem states what it does return."
  },
  {
   "property": "C29",
   "status": "proved",
   "theorems": [
    "C29_round",
    "C29_round_ties_away_from_zero",
    "C29_ceil",
    "C29_floor",
    "C29_idempotent",
    "C29_monotone"
   ],
   "note": ""
  },
  {
   "property": "C30",
   "status": "proved",
   "theorems": [
    "C30_both_encodings_become_one",
    "C30_other_texts_unchanged",
    "C30_idempotent",
    "C30_other_letters_refuted"
   ],
   "note": "C30_other_letters_refuted: texts whose UTF-8 bytes contain B5 in another letter are changed; the claim holds for texts without the byte B5 and for names whose B5 bytes are micro signs."
  },
  {
   "property": "C31",
   "status": "partial",
   "theorems": [
    "C31_combinations_are_good_and_increase",
    "C31_no_combination_is_skipped_partial",
    "C31_starts_at_the_first",
    "C31_constant_multiple_skips_nothing",
    "C31_gives_up_only_after_999_multiples",
    "C31_first_multiple_refuted",
    "C31_range_skips_refuted",
    "C31_error_loses_and_corrupts_refuted"
   ],
   "note": "Validity, strict increase, multiples, first answer and exhaustiveness proved for requirements given by one number. Refuted: with a range of ratios only the rounded secondary is tried; the step from a primary that is not a multiple passes over multiples; a search that gives up discards the current combination and leaves an incomplete one that a later call returns."
  },
  {
   "property": "C32",
   "status": "partial",
   "theorems": [
    "C32_combinations",
    "C32_singles_offered",
    "C32_pairs_offered",
    "C32_virtual_magnetics",
    "C32_recorded_partial",
    "C32_references_distinct",
    "C32_series_parallel_confused_refuted",
    "C32_groupings_confused_refuted",
    "C32_parallels_unlimited_refuted",
    "C32_no_manufacturer_refuted"
   ],
   "note": "Proved of every offered combination and virtual magnetic: wirings that can be made, no winding twice, turns, strands, narrowest wire, inductance and ratios met, references distinct, record of the same physical windings. Not true of the code: series and parallel of the same windings share one name on record, groupings are confused by their flattened list, parallels are not limited, missing manufacturer information is undefined behaviour (the _refuted theorems)."
  },
  {
   "property": "C33",
   "status": "proved",
   "theorems": [
    "C33_solver_never_fails",
    "C33_flux_conserved",
    "C33_window_law",
    "C33_single_column",
    "C33_unique",
    "C33_linear",
    "C33_order_of_columns",
    "C33_flux_density"
   ],
   "note": "Any number of columns. A single-column core is C33_single_column (flux is not conserved among columns there)."
  },
  {
   "property": "C34",
   "status": "proved",
   "theorems": [
    "C34_total",
    "C34_symmetric",
    "C34_flux_linkage",
    "C34_currents_total",
    "C34_passive",
    "C34_diagonal",
    "C34_coupling",
    "C34_core_and_coil"
   ],
   "note": "C34_core_and_coil starts from the core, its reluctances and the coil; column heights are assumed positive and gap reluctances not negative."
  },
  {
   "property": "C35",
   "status": "proved",
   "theorems": [
    "C35_values_are_renamed",
    "C35_keys_are_kept",
    "C35_nothing_old_is_left",
    "C35_costs_become_amounts",
    "C35_idempotent",
    "C35_free_text_refuted"
   ],
   "note": "C35_free_text_refuted: free text equal to an old spelling is changed as well."
  },
  {
   "property": "C36",
   "status": "proved",
   "theorems": [
    "C36_reset_drops_other_selections",
    "C36_frozen_refuted",
    "C36_reset_restores_every_setting",
    "C36_reset_after_any_history",
    "C36_debug_flag_refuted"
   ],
   "note": "All 105 getters, every history; catalogs dropped when the selection differs. C36_debug_flag_refuted: the public member _debug survives; C36_frozen_refuted: a reset on frozen databases resets the settings, throws and keeps the catalogs."
  },
  {
   "property": "C37",
   "status": "proved",
   "theorems": [
    "C37_DimensionalValues",
    "C37_GappingType",
    "C37_CoreCrossReferencerFilters",
    "C37_CoreMaterialCrossReferencerFilters",
    "C37_OrderedIsolationSide",
    "C37_PainterModes",
    "C37_MagneticFilters",
    "C37_MagneticFieldStrengthModels",
    "C37_MagneticFieldStrengthFringingEffectModels",
    "C37_ReluctanceModels",
    "C37_CoreLossesModels",
    "C37_CoreThermalResistanceModels",
    "C37_CoreTemperatureModels",
    "C37_WindingSkinEffectLossesModels",
    "C37_WindingProximityEffectLossesModels",
    "C37_StrayCapacitanceModels",
    "C37_CoreAdviserFilters",
    "C37_CoreAdviserModes",
    "C37_CircuitSimulatorExporterModels",
    "C37_any_case",
    "C37_any_case_refuted",
    "C37_operation",
    "C37_operations",
    "C37_operations_any_text"
   ],
   "note": "All 19 enumerations of src/Definitions.h, CoreAdviser.h and CircuitSimulatorInterface.h that have a text form, and the lists of filter operations. C37_any_case_refuted lists the enumerations whose names are not read in lower or upper case."
  },
  {
   "property": "C38",
   "status": "partial",
   "theorems": [
    "C38_share_meaning",
    "C38_measured",
    "C38_between_0_and_1",
    "C38_between_0_and_1_untimed",
    "C38_scale_and_shift",
    "C38_time_shift_and_stretch",
    "C38_fraction_above_partial",
    "C38_exact_without_crossings",
    "C38_fraction_above_refuted"
   ],
   "note": "Always a fraction in [0,1], invariant under positive scaling, offset, time shift and stretch; equals the time above the middle level exactly when no segment crosses it, and within the crossing segments' length otherwise. Exact equality to the time fraction is refuted (C38_fraction_above_refuted): crossings are not interpolated."
  },
  {
   "property": "C39",
   "status": "proved",
   "theorems": [
    "C39_average_exists",
    "C39_between_extremes",
    "C39_scale_and_offset",
    "C39_constant",
    "C39_superposition",
    "C39_time_shift_and_stretch",
    "C39_added_sample"
   ],
   "note": "Timed waveforms, exact rational arithmetic in place of doubles."
  },
  {
   "property": "C40",
   "status": "partial",
   "theorems": [
    "C40_first_and_closing",
    "C40_only_samples_in_order",
    "C40_corner_kept_iff",
    "C40_lossless_on_straight_stretches",
    "C40_average_kept",
    "C40_last_sample_refuted",
    "C40_drift_refuted"
   ],
   "note": "First sample and closing sample kept, only original samples in order, corner kept iff slope changes by more than the threshold, lossless on straight stretches. The last sample is dropped (C40_last_sample_refuted) and slow drifts below the threshold are lost (C40_drift_refuted)."
  },
  {
   "property": "C41",
   "status": "proved",
   "theorems": [
    "C41_lines_in_order",
    "C41_windows_line_endings",
    "C41_every_catalog_has_a_verdict",
    "C41_blank_windows_line_refuted"
   ],
   "note": "json::parse is a parameter. C41_blank_windows_line_refuted: a blank line with Windows line ending is an error except on Windows."
  },
  {
   "property": "C42",
   "status": "proved",
   "theorems": [
    "C42_compression",
    "C42_compression_is_determined"
   ],
   "note": ""
  },
  {
   "property": "C43",
   "status": "proved",
   "theorems": [
    "C43_no_empty_section",
    "C43_few_turns_override_ignored",
    "C43_override_obeyed",
    "C43_sections_and_layers_agree",
    "C43_no_slots"
   ],
   "note": ""
  },
  {
   "property": "C44",
   "status": "proved",
   "theorems": [
    "C44_accepts_what_is_listed",
    "C44_accepts_enumerators",
    "C44_text_and_enumerator_agree",
    "C44_case_refuted",
    "C44_empty_filter_accepts_all",
    "C44_core_constraints",
    "C44_wire_constraints"
   ],
   "note": "Text comparison is exact, enumerator comparison ignores case (C44_case_refuted); they agree for texts spelt as the enumerators."
  },
  {
   "property": "C45",
   "status": "proved",
   "theorems": [
    "C45_linear_spacing"
   ],
   "note": ""
  },
  {
   "property": "C46",
   "status": "proved",
   "theorems": [
    "C46_power_of_two_iff"
   ],
   "note": ""
  },
  {
   "property": "C47",
   "status": "proved",
   "theorems": [
    "C47_three_sides_cover_every_order",
    "C47_first_winding_not_on_lowest_side_refuted"
   ],
   "note": "C47_first_winding_not_on_lowest_side_refuted shows that the hypothesis on the first winding is needed."
  },
  {
   "property": "C48",
   "status": "proved",
   "theorems": [
    "C48_names_are_identifiers",
    "C48_idempotent",
    "C48_distinct_references_can_clash_refuted"
   ],
   "note": "C48_distinct_references_can_clash_refuted: the result is not injective."
  },
  {
   "property": "C49",
   "status": "proved",
   "theorems": [
    "C49_last_write_wins",
    "C49_every_history_has_a_result",
    "C49_preferred_core_loss_model_first"
   ],
   "note": ""
  },
  {
   "property": "C50",
   "status": "partial",
   "theorems": [
    "C50_merge_keeps_other_entries_partial",
    "C50_not_loaded_yet_refuted"
   ],
   "note": "Proved for catalogs that are loaded when the scope begins; C50_not_loaded_yet_refuted: a catalog that is not loaded yet is never loaded."
  },
  {
   "property": "C51",
   "status": "partial",
   "theorems": [
    "C51_replaced_kinds_show_the_library_only_partial",
    "C51_missing_kind_refuted"
   ],
   "note": "Proved for the kinds the library provides; C51_missing_kind_refuted: other kinds are filled with the built-in data on the first lookup."
  },
  {
   "property": "C52",
   "status": "partial",
   "theorems": [
    "C52_impossible_shapes_are_never_served",
    "C52_refused_core_is_served_refuted"
   ],
   "note": "Proved for shapes; C52_refused_core_is_served_refuted: a refused core stays in the catalog."
  },
  {
   "property": "C53",
   "status": "partial",
   "theorems": [
    "C53_loading_twice_is_loading_once",
    "C53_cores_are_doubled_refuted",
    "C53_core_lookups_are_stable"
   ],
   "note": "Proved for the six catalogs kept by name; C53_cores_are_doubled_refuted: cores are appended again, though lookups by name answer the same."
  },
  {
   "property": "C54",
   "status": "proved",
   "theorems": [
    "C54_lookups_work_while_frozen",
    "C54_without_internal_data_refuted"
   ],
   "note": "For loaded catalogs. C54_without_internal_data_refuted: after load_databases without internal data, load_all_databases leaves catalogs empty and every lookup is refused once frozen."
  },
  {
   "property": "C55",
   "status": "partial",
   "theorems": [
    "C55_bundled_tables_are_regular",
    "C55_withstand_voltage_never_falls",
    "C55_distance_through_insulation_never_falls",
    "C55_distances_never_fall_partial",
    "C55_clearance_61558_refuted"
   ],
   "note": "Withstand voltage and distance through insulation for all four standards; distances for IEC 62368, IEC 61558 creepage without clearance and IEC 60664 clearance of wound parts up to 30 kHz. C55_clearance_61558_refuted shows a clearance that falls."
  },
  {
   "property": "C56",
   "status": "proved",
   "theorems": [
    "C56_symmetric",
    "C56_higher_voltage_is_covered_less",
    "C56_counted_only_above_the_voltage"
   ],
   "note": ""
  },
  {
   "property": "C57",
   "status": "proved",
   "theorems": [
    "C57_gap_on_closest_column",
    "C57_gaps_in_series",
    "C57_calibrated",
    "C57_main_column_windings"
   ],
   "note": "Exact rationals; column heights positive and gap reluctances not negative."
  },
  {
   "property": "C58",
   "status": "proved",
   "theorems": [
    "C58_gap_lowers_inductance",
    "C58_ungapped_bound"
   ],
   "note": "Self-inductances; by Rayleigh's monotonicity over the whole network."
  },
  {
   "property": "C59",
   "status": "proved",
   "theorems": [
    "C59_main_column",
    "C59_column_of_window",
    "C59_one_column_each",
    "C59_default_main",
    "C59_window_column",
    "C59_accepts",
    "C59_non_main"
   ],
   "note": "An out-of-range window in a section is ignored by the code when the winding itself names a valid window; the statements say so."
  },
  {
   "property": "C60",
   "status": "partial",
   "theorems": [
    "C60_covers_one_period_partial",
    "C60_bipolar_refuted",
    "C60_peak_to_peak",
    "C60_average",
    "C60_dead_time_unbalanced_refuted"
   ],
   "note": "Missing: bipolar rectangle above duty 1/2 (times go back: C60_bipolar_refuted); dead-time rectangle is unbalanced (C60_dead_time_unbalanced_refuted). Skew and phase are outside the theorems."
  },
  {
   "property": "C61",
   "status": "partial",
   "theorems": [
    "C61_size_and_times",
    "C61_on_the_curve",
    "C61_between_extremes",
    "C61_exact_value",
    "C61_succeeds_partial",
    "C61_shifted_refuted",
    "C61_frequency_not_used",
    "C61_untimed"
   ],
   "note": "Success proved for waveforms starting at time zero whose rounded period stays within the last time; a waveform not starting at zero cannot be sampled (C61_shifted_refuted)."
  },
  {
   "property": "C62",
   "status": "partial",
   "theorems": [
    "C62_reads_back_partial",
    "C62_rebuild",
    "C62_rectangle_offset_refuted",
    "C62_dead_time_refuted",
    "C62_duty_cut_refuted"
   ],
   "note": "Proved for the shapes listed in `recoverable`; refuted for rectangles with offset, dead time shapes and duty above 1/2 of the unipolar rectangle."
  },
  {
   "property": "C63",
   "status": "partial",
   "theorems": [
    "C63_recognised_partial",
    "C63_units_refuted"
   ],
   "note": "Proved for the shapes listed in `recognisable`; the rectangular/unipolar choice compares the mean with one unit, so it changes with the amplitude (C63_units_refuted)."
  },
  {
   "property": "C64",
   "status": "partial",
   "theorems": [
    "C64_peaks",
    "C64_peaks_sampled_partial",
    "C64_duty_is_a_fraction",
    "C64_reported_duty",
    "C64_sampled_average",
    "C64_slow_peak_refuted"
   ],
   "note": "Proved: peaks of unsampled waveforms are the extremes of the points; of sampled ones too provided consecutive slopes are resolved by compression (C64_slow_peak_refuted shows a waveform whose slope is below the 1e-9 tolerance losing its peak); duty cycle always a fraction; sampled average is the mean of the samples. Missing: average of unsampled custom waveforms."
  },
  {
   "property": "C65",
   "status": "proved",
   "theorems": [
    "C65_transform",
    "C65_energy",
    "C65_other_lengths_refused"
   ],
   "note": "Over the reals (no rounding). Bit reversal, butterflies and twiddle updates modelled as written."
  },
  {
   "property": "C66",
   "status": "proved",
   "theorems": [
    "C66_harmonics",
    "C66_power",
    "C66_no_power_invented",
    "C66_sinusoid",
    "C66_scale",
    "C66_time_shift",
    "C66_half_sampling_refuted"
   ],
   "note": "Over the reals. The component at half the sampling frequency is not reported (C66_half_sampling_refuted); the power identity states the loss exactly."
  },
  {
   "property": "C67",
   "status": "proved",
   "theorems": [
    "C67_what_is_kept",
    "C67_only_when_asked",
    "C67_trimmed_of_full",
    "C67_zero_threshold",
    "C67_two_samples_refuted"
   ],
   "note": "Two samples with trimming read out of range (C67_two_samples_refuted), the only case where it fails."
  },
  {
   "property": "C68",
   "status": "proved",
   "theorems": [
    "C68_effective_frequency_within",
    "C68_ac_not_below",
    "C68_average_rms_peak",
    "C68_rms_from_harmonics",
    "C68_distortion",
    "C68_scale",
    "C68_sinusoid",
    "C68_sinusoid_rms",
    "C68_missing_fundamental_refuted"
   ],
   "note": "Over the reals. C68_missing_fundamental_refuted: with no fundamental the distortion is reported as 0 whatever the other harmonics."
  },
  {
   "property": "C69",
   "status": "partial",
   "theorems": [
    "C69_one_each",
    "C69_excitations_partial",
    "C69_series_current_refuted",
    "C69_parallel_current_refuted",
    "C69_unused_winding_refuted"
   ],
   "note": "Proved: one excitation per winding, unchanged for lone and equal-turn windings, and exactly how series ones are scaled. The physical claim is false of the code: current instead of voltage is divided in series, the full current is given to each parallel winding, unused windings get a sinusoid, and an unused first winding is undefined behaviour (the _refuted theorems)."
  },
  {
   "property": "C70",
   "status": "proved",
   "theorems": [
    "C70_turns_apart",
    "C70_toroid_turns_apart"
   ],
   "note": "Rectangular windows exactly (positions are not rounded to less than a wire); toroids to the rounding of the angle."
  },
  {
   "property": "C71",
   "status": "partial",
   "theorems": [
    "C71_coil_in_layers",
    "C71_preset_layers_refuted",
    "C71_section_in_layers"
   ],
   "note": "Proved for every section without a preset number of layers; C71_preset_layers_refuted: a preset number can leave a layer without turns, and winding throws."
  },
  {
   "property": "C72",
   "status": "proved",
   "theorems": [
    "C72_sections_tile",
    "C72_sections_inside"
   ],
   "note": "Foil and planar wires cut to the section are not modelled."
  },
  {
   "property": "C73",
   "status": "proved",
   "theorems": [
    "C73_turns_on_their_layer"
   ],
   "note": ""
  },
  {
   "property": "C74",
   "status": "proved",
   "theorems": [
    "C74_to_and_fro",
    "C74_same_end"
   ],
   "note": ""
  },
  {
   "property": "C75",
   "status": "partial",
   "theorems": [
    "C75_available_best_first",
    "C75_suppression_best_first",
    "C75_standard_suppression_best_first",
    "C75_standard_at_most",
    "C75_standard_order_refuted"
   ],
   "note": "Proved for the two pipelines over cores in stock and for standard suppression; for standard power the count is proved and the order refuted: gapped cores come before toroids whatever the scores. Measurements are parameters of the model."
  },
  {
   "property": "C76",
   "status": "proved",
   "theorems": [
    "C76_power_gates",
    "C76_suppression_gates",
    "C76_standard_gates"
   ],
   "note": "For the three pipelines; the filters' measurements are parameters (any function of the candidate)."
  },
  {
   "property": "C77",
   "status": "partial",
   "theorems": [
    "C77_weights_only_reorder_partial",
    "C77_missing_weight_refuted"
   ],
   "note": "Proved for pruning off and the same sign of the efficiency weight; a missing weight means 0 in one pipeline and 1 in another (refuted)."
  },
  {
   "property": "C78",
   "status": "partial",
   "theorems": [
    "C78_nothing_is_lost_partial",
    "C78_pruning_refuted"
   ],
   "note": "Proved without pruning and without unique shapes; refuted with the default pruning, whose cut before the losses filter stays in the second pass."
  },
  {
   "property": "C79",
   "status": "partial",
   "theorems": [
    "C79_batches_best_first",
    "C79_batches_end",
    "C79_batch_of_none_never_ends_refuted",
    "C79_batch_size_changes_advice_refuted"
   ],
   "note": "Order, count and cover proved; the split ends for a positive batch size. Refuted: batch size 0 never ends, and the batch size changes the advice because scores are normalised per batch."
  },
  {
   "property": "C80",
   "status": "partial",
   "theorems": [
    "C80_always_an_answer_partial",
    "C80_one_candidate_ends_the_call_refuted"
   ],
   "note": "Proved under the stated conditions on the measurements and a strictly increasing logarithm. Refuted without them: exceptions of the gap check and of the winding correction are not caught, equal logarithms or negative scores lead to NaN in std::stable_sort."
  },
  {
   "property": "C81",
   "status": "partial",
   "theorems": [
    "C81_cores_untouched_partial",
    "C81_stacked_catalog_refuted"
   ],
   "note": "Proved without stacks; refuted with stacks on: the loop over the caller's cores writes through the reference, the catalog is left with 4 stacks and renamed."
  },
  {
   "property": "C82",
   "status": "proved",
   "theorems": [
    "C82_unique_shapes"
   ],
   "note": "All four pipelines."
  },
  {
   "property": "C83",
   "status": "proved",
   "theorems": [
    "C83_whole_lines"
   ],
   "note": "Any number of threads, any interleaving of single fragments; sinks may be added and cleared on the way."
  },
  {
   "property": "C84",
   "status": "proved",
   "theorems": [
    "C84_one_order",
    "C84_nothing_lost",
    "C84_errors_on_stderr"
   ],
   "note": "Fixed sinks and level; dynamic sinks are covered by C83."
  },
  {
   "property": "C85",
   "status": "partial",
   "theorems": [
    "C85_read_log_partial",
    "C85_entry_lost_refuted",
    "C85_entry_read_twice_refuted",
    "C85_deaf_after_clear_refuted"
   ],
   "note": "Proved for one thread without clearSinks (refinement of a queue); refuted for concurrent logging, concurrent reading and after clearSinks."
  },
  {
   "property": "C86",
   "status": "partial",
   "theorems": [
    "C86_below_the_level_nothing_partial",
    "C86_late_entry_refuted",
    "C86_read_log_lowers_the_level_refuted"
   ],
   "note": "Proved from any quiescent state; refuted for a log call in progress when setLevel returns, and because read_log lowers the level."
  },
  {
   "property": "C87",
   "status": "proved",
   "theorems": [
    "C87_no_deadlock",
    "C87_every_call_returns"
   ],
   "note": ""
  },
  {
   "property": "C88",
   "status": "proved",
   "theorems": [
    "C88_no_data_race"
   ],
   "note": "Locations: the vector of sinks and the text of each stream. The level is an atomic."
  },
  {
   "property": "C89",
   "status": "proved",
   "theorems": [
    "C89_equal_drop",
    "C89_shares_add_up",
    "C89_no_current"
   ],
   "note": "Distinct winding names are needed throughout (the code looks windings up by name)."
  },
  {
   "property": "C90",
   "status": "proved",
   "theorems": [
    "C90_winding",
    "C90_turn",
    "C90_total",
    "C90_same_resistance",
    "C90_turns_and_leads",
    "C90_ideal",
    "C90_turns_at_most"
   ],
   "note": ""
  },
  {
   "property": "C91",
   "status": "proved",
   "theorems": [
    "C91_least_dissipation",
    "C91_below_each_conductor",
    "C91_leads_never_help",
    "C91_hotter"
   ],
   "note": ""
  },
  {
   "property": "C92",
   "status": "partial",
   "theorems": [
    "C92_accepted",
    "C92_refused",
    "C92_missing_turns_refuted",
    "C92_conductor_without_turns_refuted",
    "C92_stray_conductor_refuted",
    "C92_no_conductors_refuted"
   ],
   "note": "Proved for coils whose turns are in place. Refuted: a coil with fewer turns than declared is accepted (C92_missing_turns_refuted); a conductor without turns is accepted when its winding has leads; a turn of a conductor the winding does not have is written out of bounds; a winding with no conductors gets a resistance that is not finite."
  },
  {
   "property": "C93",
   "status": "partial",
   "theorems": [
    "C93_layers",
    "C93_sections",
    "C93_windings",
    "C93_turn_names",
    "C93_total",
    "C93_turns_at_most",
    "C93_ohmic_kept",
    "C93_elements_total",
    "C93_operating_point_kept",
    "C93_leads_in_no_winding_refuted",
    "C93_empty_layer_refuted"
   ],
   "note": "Proved for turns, layers and sections; by winding for the turns. Refuted with real geometry: what the leads dissipate is in the total and in no winding (C93_leads_in_no_winding_refuted); a conduction layer without turns gets an element nobody computed."
  },
  {
   "property": "C94",
   "status": "proved",
   "theorems": [
    "C94_lead_lengths",
    "C94_given_charged_once",
    "C94_ideal_or_planar"
   ],
   "note": ""
  },
  {
   "property": "C95",
   "status": "proved",
   "theorems": [
    "C95_symmetric",
    "C95_recovers",
    "C95_predicts",
    "C95_shared_name_refuted"
   ],
   "note": "The loss calculation is a parameter; C95_shared_name_refuted shows that distinct names are needed."
  },
  {
   "property": "C97",
   "status": "proved",
   "theorems": [
    "C97_signal",
    "C97_heaviest_kept",
    "C97_idempotent",
    "C97_accepted",
    "C97_excitation",
    "C97_no_lines_refuted"
   ],
   "note": "The square root is a parameter. C97_no_lines_refuted: harmonics without a line are read out of range."
  },
  {
   "property": "C98",
   "status": "proved",
   "theorems": [
    "C98_untouched",
    "C98_lines",
    "C98_aligned",
    "C98_same_frequencies",
    "C98_accepted",
    "C98_idle_winding_refuted"
   ],
   "note": "C98_idle_winding_refuted: one winding without AC keeps every harmonic of all windings."
  },
  {
   "property": "C99",
   "status": "partial",
   "theorems": [
    "C99_harmonics",
    "C99_any_windings",
    "C99_ends",
    "C99_inducing",
    "C99_induced",
    "C99_aligned",
    "C99_zero_threshold_refuted",
    "C99_heaviest_dropped_refuted"
   ],
   "note": "The points of a turn and its share are parameters. Missing: images in the core walls, which are added to the inducing fields afterwards. Refuted: with a threshold of zero the search may never end; with more heavy harmonics than the first winding has lines the heaviest can be dropped."
  },
  {
   "property": "C96",
   "status": "proved",
   "theorems": [
    "C96_turn_skin",
    "C96_turn_proximity",
    "C96_total"
   ],
   "note": "The skin model, the losses of the field and the pruning are parameters."
  },
  {
   "property": "C100",
   "status": "proved",
   "theorems": [
    "C100_inverse",
    "C100_singular",
    "C100_answers",
    "C100_unique",
    "C100_symmetric",
    "C100_positive"
   ],
   "note": "Gauss-Jordan with partial pivoting over exact rationals, any size; rounding is not modelled."
  },
  {
   "property": "C101",
   "status": "proved",
   "theorems": [
    "C101_built",
    "C101_refuses",
    "C101_symmetric",
    "C101_diagonal",
    "C101_short_circuit",
    "C101_index",
    "C101_diagonal_refuted"
   ],
   "note": "The diagonal is characterised exactly (iff), with C101_diagonal_refuted as the concrete wrong case."
  },
  {
   "property": "C102",
   "status": "proved",
   "theorems": [
    "C102_accepts",
    "C102_energy",
    "C102_symmetric",
    "C102_passive",
    "C102_bound",
    "C102_refuses"
   ],
   "note": "The field of a filament at a point is a parameter, so the result holds for every field model that is linear in the currents; the mesh is given."
  },
  {
   "property": "C103",
   "status": "proved",
   "theorems": [
    "C103_same_column",
    "C103_nonnegative",
    "C103_referral",
    "C103_other_column",
    "C103_other_column_referral",
    "C103_accepts",
    "C103_by_name",
    "C103_zero_diagonal",
    "C103_turns_referral_refuted"
   ],
   "note": "Turns-squared referral across columns refuted by an example."
  },
  {
   "property": "C104",
   "status": "proved",
   "theorems": [
    "C104_main_column",
    "C104_several_columns",
    "C104_single",
    "C104_symmetric",
    "C104_passive",
    "C104_coupling",
    "C104_diagonal",
    "C104_accepts",
    "C104_cantilever",
    "C104_cantilever_model",
    "C104_cantilever_refused",
    "C104_short_circuit",
    "C104_cantilever_columns_refuted",
    "C104_cantilever_single_refuted"
   ],
   "note": "Magnetizing inductance and reluctances are inputs. Disagreement with the extended cantilever model across columns and for one winding is shown by examples."
  },
  {
   "property": "C105",
   "status": "proved",
   "theorems": [
    "C105_mutual",
    "C105_mutual_columns",
    "C105_itself",
    "C105_bounded",
    "C105_value",
    "C105_symmetric",
    "C105_mutual_entry_refuted"
   ],
   "note": "The square root is a parameter with an accuracy hypothesis that an explicit rational root meets."
  },
  {
   "property": "C106",
   "status": "proved",
   "theorems": [
    "C106_last_node_pinned_without_ambient_refuted",
    "C106_boundaries_keep_their_temperature",
    "C106_no_node_below_its_boundaries",
    "C106_no_node_above_its_boundaries_without_losses",
    "C106_unpowered_component_is_at_ambient",
    "C106_converged_heat_balance",
    "C106_heat_reaches_the_boundaries",
    "C106_resistances_match_temperatures",
    "C106_network_keeps_its_links",
    "C106_convergence_is_reported",
    "C106_isolated_part_is_refused"
   ],
   "note": "Convection correlations are universally quantified parameters. Exact rational arithmetic. A network without an ambient node has its last node held at ambient temperature instead (refuted theorem)."
  },
  {
   "property": "C107",
   "status": "proved",
   "theorems": [
    "C107_constant_network_converges",
    "C107_exact_heat_balance",
    "C107_all_losses_reach_the_boundaries",
    "C107_temperatures_are_unique",
    "C107_monotone",
    "C107_superposition",
    "C107_reciprocity"
   ],
   "note": "Exact rational arithmetic."
  },
  {
   "property": "C108",
   "status": "proved",
   "theorems": [
    "C108_result_keeps_the_nodes",
    "C108_maximum_is_the_hottest_node",
    "C108_named_temperatures",
    "C108_distinct_names_list_every_node",
    "C108_total_resistance_times_power",
    "C108_no_power_no_resistance",
    "C108_averages",
    "C108_averages_below_the_maximum",
    "C108_bulk_resistance_agrees",
    "C108_component_temperatures",
    "C108_turn_temperatures",
    "C108_turn_halves_share_a_key"
   ],
   "note": "The agreement of the bulk resistance needs at most one ambient node."
  },
  {
   "property": "C109",
   "status": "partial",
   "theorems": [
    "C109_radiation_law",
    "C109_radiation_is_mutual",
    "C109_radiation_positive",
    "C109_radiation_increases",
    "C109_view_factor_takes_a_share",
    "C109_conductivity_within_the_table",
    "C109_conductivity_of_the_table",
    "C109_conductivity_below_the_table",
    "C109_conductivity_above_the_table",
    "C109_cooling_precedence",
    "C109_heatsink_never_heats",
    "C109_cold_plate_never_heats",
    "C109_heatsink_interface",
    "C109_cold_plate_ignores_its_interface_refuted",
    "C109_heatsink_without_ambient_refuted"
   ],
   "note": "An interface resistance given for a cold plate without a thickness is ignored, and a heat sink on a network without ambient node never uses its resistance (refuted theorems). Comparison with and without heat sink or cold plate is for constant resistances; forced convection and its correlations are not modelled."
  },
  {
   "property": "C110",
   "status": "partial",
   "theorems": [
    "C110_zhang",
    "C110_zhang_paths",
    "C110_closed",
    "C110_effective_area",
    "C110_effective_length",
    "C110_classic",
    "C110_partridge",
    "C110_partridge_refuses",
    "C110_balakrishnan",
    "C110_balakrishnan_refuses",
    "C110_muehlethaler",
    "C110_muehlethaler_round",
    "C110_stenglein",
    "C110_muehlethaler_round_factor_refuted",
    "C110_muehlethaler_negative_refuted",
    "C110_missing_area",
    "C110_missing_area_refuted",
    "C110_stenglein_negative_refuted"
   ],
   "note": "Real arithmetic. Muehlethaler reports a factor that does not belong to its reluctance on round columns, returns negative factors out of range and dereferences a missing area; Stenglein returns negative reluctances out of range (refuted theorems). Logarithmic models need a gap short against the room around it."
  },
  {
   "property": "C111",
   "status": "partial",
   "theorems": [
    "C111_longer_gap",
    "C111_longer_gap_refuted",
    "C111_more_room",
    "C111_similarity",
    "C111_stenglein_similarity_refuted"
   ],
   "note": "Effective area and effective length only increase up to the width of the column (refuted beyond); Stenglein is not scale invariant because of a fixed millimetre (refuted); monotony in the length is not proved for Muehlethaler and Stenglein."
  },
  {
   "property": "C112",
   "status": "partial",
   "theorems": [
    "C112_total",
    "C112_gaps_raise",
    "C112_monotone",
    "C112_order",
    "C112_fringing",
    "C112_method_refuted",
    "C112_opening_refuted",
    "C112_saturation_irrelevant",
    "C112_air"
   ],
   "note": "An ungapped return column is left out of the parallel, so opening a gap in it lowers the reluctance, and the model used is reported as Default always (refuted theorems). Coordinates are already processed; drum clearances are not modelled."
  },
  {
   "property": "C113",
   "status": "partial",
   "theorems": [
    "C113_gap_energy",
    "C113_given_factor",
    "C113_permeability",
    "C113_core_energy",
    "C113_proportion_refuted",
    "C113_saturation_length",
    "C113_peak",
    "C113_required",
    "C113_required_order",
    "C113_missing_current"
   ],
   "note": "The saturation proportion is not passed on to the ungapped part of the core energy (refuted theorem). The core energy is for gaps on the main column with the area of the core."
  },
  {
   "property": "C114",
   "status": "partial",
   "theorems": [
    "C114_at_least_one",
    "C114_unspecified",
    "C114_minimum",
    "C114_nominal",
    "C114_round_trip",
    "C114_minimum_biased",
    "C114_minimum_refuted",
    "C114_least_refuted",
    "C114_no_operating_point_refuted"
   ],
   "note": "Proved for every square-law inductance and every seed, and for every nondecreasing inductance whose minimum is reached with up to 101 turns. Refuted beyond: after a hundred single steps a minimum is missed without a word (C114_minimum_refuted), under bias the number need not be the least (C114_least_refuted), and without an operating point a minimum is only rounded to (C114_no_operating_point_refuted)."
  },
  {
   "property": "C115",
   "status": "partial",
   "theorems": [
    "C115_gap",
    "C115_gap_residual",
    "C115_rounding_refuted",
    "C115_unreachable_refuted",
    "C115_saturation",
    "C115_saturation_refuted",
    "C115_fringing_range",
    "C115_fringing_thin",
    "C115_fringing",
    "C115_fringing_closest"
   ],
   "note": "Convergence proved for every increasing reluctance and every continuous fringing factor. Refuted: the default of four decimals rounds gaps of tens of micrometres away (C115_rounding_refuted), unreachable inductances are answered with a gap (C115_unreachable_refuted), and the gap against saturation is returned unchecked after fifteen steps when a single turn is too many (C115_saturation_refuted; C115_saturation proves the other case). Distributed gaps are not modelled."
  },
  {
   "property": "C116",
   "status": "partial",
   "theorems": [
    "C116_volt_seconds",
    "C116_voltage",
    "C116_faraday",
    "C116_nothing_refuted",
    "C116_ungapped",
    "C116_gapped",
    "C116_without_fringing",
    "C116_rejected",
    "C116_correction_refuted"
   ],
   "note": "Proved, except that fringing breaks the limit of the joint sizing: the correction recomputes the same gap with no fewer turns, so the density that failed the check is returned or raised (C116_correction_refuted, with a concrete case). The two turn counts disagree when there is nothing to size (C116_nothing_refuted)."
  },
  {
   "property": "C117",
   "status": "partial",
   "theorems": [
    "C117_unbiased",
    "C117_bias_lowers",
    "C117_bias_monotone",
    "C117_faraday",
    "C117_linkage_refuted"
   ],
   "note": "Both iteration limits are one, so the flux density comes from the reluctance before the bias while the inductance comes from the one after: the outputs agree without bias (C117_unbiased) and contradict each other with it (C117_linkage_refuted). Monotonicity and Faraday's law proved."
  },
  {
   "property": "C118",
   "status": "partial",
   "theorems": [
    "C118_parameters_consistent",
    "C118_core_parameters_consistent",
    "C118_e_refused_iff",
    "C118_u_refused_iff",
    "C118_ring_refused_iff",
    "C118_every_bad_drawing_is_refused_refuted",
    "C118_wide_piece_refuted",
    "C118_unknown_subtype_refuted"
   ],
   "note": "Consistency proved for every accepted piece and core; refusal characterised exactly for E, U and rings. Refuted in general: a pot core without a base, and an ETD deeper than its window is wide, are accepted with values that are not numbers, and a UR with an unknown subtype reads uninitialised values (C118_*_refuted). Drum and moulded families are not modelled."
  },
  {
   "property": "C119",
   "status": "partial",
   "theorems": [
    "C119_minimum_not_above_effective_partial",
    "C119_e_areas",
    "C119_u_areas",
    "C119_pot_core_refuted",
    "C119_etd_areas",
    "C119_plate_areas",
    "C119_ur_uniform",
    "C119_el_yoke",
    "C119_rm_leg"
   ],
   "note": "Proved for the fourteen families whose sections have a length and an area, with the exact bounds for E, U. Refuted for pot cores: the radial section is left out of the minimum (C119_pot_core_refuted). EP, RM and PM are not covered."
  },
  {
   "property": "C120",
   "status": "partial",
   "theorems": [
    "C120_parameters_scale",
    "C120_small_letters_refuted"
   ],
   "note": "Proved for all families and both standards when no optional letter is within a nanometre of zero; a letter below half a nanometre is read as absent, which breaks the law there (C120_small_letters_refuted)."
  },
  {
   "property": "C121",
   "status": "partial",
   "theorems": [
    "C121_ui_is_two_u",
    "C121_ei_is_two_e",
    "C121_pqi_is_two_pq",
    "C121_ut_is_ui",
    "C121_powder_plates_refuted",
    "C121_pm_default_opening"
   ],
   "note": "Proved under IEC 60205. Under the standard used for powder an E pair and an EI disagree, by more than a factor of ten in a concrete case (C121_powder_plates_refuted)."
  },
  {
   "property": "C122",
   "status": "partial",
   "theorems": [
    "C122_other_families_agree",
    "C122_e_parameters_ordered",
    "C122_ring_parameters_ordered",
    "C122_core_independent_of_setting",
    "C122_setting_is_honoured_refuted"
   ],
   "note": "Orderings and independence of the previous setting proved. Refuted: processing overwrites the standard the user had set, so a bare piece answers differently after a powder core (C122_setting_is_honoured_refuted)."
  },
  {
   "property": "C123",
   "status": "partial",
   "theorems": [
    "C123_assembled",
    "C123_parameters_idempotent",
    "C123_refused_changes_nothing",
    "C123_gaps_grow",
    "C123_single_stack_stable",
    "C123_processing_idempotent_refuted"
   ],
   "note": "Assembly, idempotence of the parameters and the effect of a refusal proved. Refuted for the gaps: their depths and areas are multiplied by the number of stacks again each time (C123_gaps_grow, C123_processing_idempotent_refuted)."
  },
  {
   "property": "C124",
   "status": "partial",
   "theorems": [
    "C124_e_tiles_its_width",
    "C124_e_windows_clear_of_columns",
    "C124_u_window_clear_of_columns_refuted",
    "C124_c_window_clear_of_columns_refuted",
    "C124_unequal_legs_refuted"
   ],
   "note": "Proved for E. Refuted for U and C: the window reaches half a leg into the lateral column, and with unequal legs both columns take the width of one (C124_*_refuted). Other families are not modelled."
  },
  {
   "property": "C125",
   "status": "partial",
   "theorems": [
    "C125_found",
    "C125_refused_in_gaps",
    "C125_inside",
    "C125_order",
    "C125_gap_refuted",
    "C125_order_refuted"
   ],
   "note": "Proved for every list of ranges: which range answers, when it is refused, that only the order of overlapping ranges matters. C125_gap_refuted and C125_order_refuted show that a frequency in a gap between ranges is refused and that overlapping ranges make the order count."
  },
  {
   "property": "C126",
   "status": "partial",
   "theorems": [
    "C126_nonnegative",
    "C126_zero",
    "C126_monotone",
    "C126_temperature",
    "C126_refused",
    "C126_mirror_refuted",
    "C126_temperature_refuted"
   ],
   "note": "Proved for every excitation. C126_mirror_refuted: mirroring a waveform with an offset changes the losses, as peak is unsigned and offset is not. C126_temperature_refuted: where the quadratic is not positive the losses jump back to the uncorrected value."
  },
  {
   "property": "C127",
   "status": "proved",
   "theorems": [
    "C127_flux_density",
    "C127_frequency"
   ],
   "note": "Both laws for the six models, for every excitation, also when the value is not finite."
  },
  {
   "property": "C128",
   "status": "partial",
   "theorems": [
    "C128_moves",
    "C128_delay_bias_mirror",
    "C128_backwards",
    "C128_started_elsewhere",
    "C128_straight_line",
    "C128_vertical_edge_refuted"
   ],
   "note": "Proved for every waveform integrated whole. C128_vertical_edge_refuted: two samples at the same time always give a value that is not finite."
  },
  {
   "property": "C129",
   "status": "proved",
   "theorems": [
    "C129_triangle_least"
   ],
   "note": "By the inequality of power means, for waveforms of any number of samples."
  },
  {
   "property": "C130",
   "status": "partial",
   "theorems": [
    "C130_albach_is_mse",
    "C130_igse_is_nse",
    "C130_cigse_is_igse",
    "C130_cigse_loaded_refuted",
    "C130_igse_of_a_sinusoid"
   ],
   "note": "The four agreements are proved. C130_cigse_loaded_refuted: ciGSE ignores coefficients loaded by the user, which iGSE uses."
  },
  {
   "property": "C131",
   "status": "partial",
   "theorems": [
    "C131_two_cycles",
    "C131_more_cycles",
    "C131_more_cycles_refuted",
    "C131_over_counted_refuted",
    "C131_nse_counts_all_refuted"
   ],
   "note": "Proved for two cycles of any number of samples (C131_two_cycles). From three cycles on only the first m samples of m intervals are integrated (C131_more_cycles), so the last interval is lost; C131_more_cycles_refuted, C131_over_counted_refuted and C131_nse_counts_all_refuted show the errors."
  },
  {
   "property": "C132",
   "status": "partial",
   "theorems": [
    "C132_reported",
    "C132_methods",
    "C132_first_offered",
    "C132_preferred",
    "C132_some_model",
    "C132_no_data",
    "C132_default_data",
    "C132_nse_refuted",
    "C132_other_variant_refuted",
    "C132_points_and_mass_refuted",
    "C132_own_data_refuted"
   ],
   "note": "Choice, fallback, refusal and default data proved. False of the code: NSE is never used as fallback (C132_nse_refuted), methods of another variant are offered but their data are not found (C132_other_variant_refuted), volumetric points with mass data (C132_points_and_mass_refuted), and the database wins over the data in the core itself (C132_own_data_refuted)."
  },
  {
   "property": "C133",
   "status": "partial",
   "theorems": [
    "C133_factor_range",
    "C133_no_bias",
    "C133_no_data",
    "C133_sign",
    "C133_ratio",
    "C133_monotone",
    "C133_applied",
    "C133_never_less",
    "C133_same_density",
    "C133_roshen_refuted"
   ],
   "note": "All proved except that the components of Roshen's losses and the volumetric losses by Roshen are not scaled (C133_roshen_refuted)."
  },
  {
   "property": "C134",
   "status": "partial",
   "theorems": [
    "C134_sections",
    "C134_reported",
    "C134_one_material",
    "C134_peak_models",
    "C134_waveform_refuted",
    "C134_not_finite_refuted"
   ],
   "note": "Proved for the models that read the peak (C134_peak_models, C134_one_material). The waveform is not rescaled, so the models that integrate it are wrong (C134_waveform_refuted), and losses that are not numbers are returned (C134_not_finite_refuted)."
  },
  {
   "property": "C135",
   "status": "partial",
   "theorems": [
    "C135_flux_density",
    "C135_flux_density_back",
    "C135_frequency",
    "C135_frequency_losses",
    "C135_one_range",
    "C135_frequency_back",
    "C135_same_exponent_refuted",
    "C135_negative_correction_refuted",
    "C135_datum"
   ],
   "note": "Flux density exact both ways. Frequency exact when no two ranges share their exponent (or within a millionth of one whose range was used); with a shared exponent the losses can be twice those asked for (C135_same_exponent_refuted). The inverse for a single datum does not guard the temperature correction (C135_negative_correction_refuted)."
  },
  {
   "property": "C136",
   "status": "partial",
   "theorems": [
    "C136_equation",
    "C136_no_flux",
    "C136_positive",
    "C136_frequency_strict",
    "C136_flux_strict",
    "C136_frequency",
    "C136_frequency_back",
    "C136_mass",
    "C136_bias_refuted",
    "C136_no_eddies_refuted",
    "C136_tdg_refuted"
   ],
   "note": "Proved for positive coefficients. The inverse ignores the bias (C136_bias_refuted), returns NaN when Micrometals has no eddy coefficient (C136_no_eddies_refuted) and does not exist for TDG (C136_tdg_refuted)."
  },
  {
   "property": "C137",
   "status": "partial",
   "theorems": [
    "C137_frequency_best",
    "C137_frequency_near",
    "C137_frequency_exact",
    "C137_flux_best",
    "C137_flux_near",
    "C137_flux_exact",
    "C137_refused",
    "C137_out_of_reach_refuted",
    "C137_no_losses_refuted",
    "C137_not_growing_refuted"
   ],
   "note": "Proved for positive losses. Losses out of reach give the end of the range without a warning (C137_out_of_reach_refuted), no losses give -1 or nothing (C137_no_losses_refuted), and losses that do not grow stop the flux density search too early (C137_not_growing_refuted)."
  },
  {
   "property": "C138",
   "status": "partial",
   "theorems": [
    "C138_characteristic_points",
    "C138_branches",
    "C138_loop_closed",
    "C138_low_flux_refuted",
    "C138_hysteresis",
    "C138_sweep",
    "C138_hysteresis_grows",
    "C138_eddies",
    "C138_total",
    "C138_nonnegative",
    "C138_eddies_scale",
    "C138_resistivity",
    "C138_volumetric_refuted"
   ],
   "note": "Below half of what the upper branch gives at the coercive force the code does not shift the branches and the loop is not closed (C138_low_flux_refuted); the losses per volume of the material use the column of a T 10/6/4 ring (C138_volumetric_refuted). The sum over strips is exact for the model's sweep; its distance to the integral is not bounded."
  },
  {
   "property": "C139",
   "status": "partial",
   "theorems": [
    "C139_points",
    "C139_repeated",
    "C139_outside",
    "C139_two_points",
    "C139_order",
    "C139_never_negative",
    "C139_losses",
    "C139_history",
    "C139_same_name_refuted",
    "C139_no_frequency_refuted",
    "C139_turns",
    "C139_core",
    "C139_no_current_refuted"
   ],
   "note": "The interpolants are kept by name, so a second material of the same name gets the points of the first (C139_same_name_refuted); optional frequencies are dereferenced (C139_no_frequency_refuted); a zero current is cast to an integer (C139_no_current_refuted). With three or more points the spline is an external library: assumed to pass by its points, as a hypothesis."
  },
  {
   "property": "C140",
   "status": "partial",
   "theorems": [
    "C140_turns",
    "C140_resistance",
    "C140_grows",
    "C140_small_inductance_refuted",
    "C140_filters"
   ],
   "note": "Below the inductance of one turn the resistance is that of no flux (C140_small_inductance_refuted)."
  },
  {
   "property": "C141",
   "status": "partial",
   "theorems": [
    "C141_round_conductors",
    "C141_flat_conductor",
    "C141_bounds",
    "C141_frequency",
    "C141_temperature",
    "C141_no_material",
    "C141_flat_conductors_refuted"
   ],
   "note": "Refuted for flat wires with several conductors, whose idle area is counted with the number of conductors twice (C141_flat_conductors_refuted)."
  },
  {
   "property": "C142",
   "status": "proved",
   "theorems": [
    "C142_least",
    "C142_direct",
    "C142_monotone",
    "C142_points",
    "C142_missing"
   ],
   "note": ""
  },
  {
   "property": "C143",
   "status": "partial",
   "theorems": [
    "C143_filling",
    "C143_more_strands",
    "C143_served",
    "C143_insulated",
    "C143_side_by_side",
    "C143_side_by_side_refuted",
    "C143_single_strand_refuted"
   ],
   "note": "Refuted for the standards other than IEC 60317 with two and three strands (C143_side_by_side_refuted) and for single strands (C143_single_strand_refuted)."
  },
  {
   "property": "C144",
   "status": "partial",
   "theorems": [
    "C144_equivalent_layers",
    "C144_given",
    "C144_without",
    "C144_cut",
    "C144_foil_area_refuted"
   ],
   "note": "The area kept by a cut foil is the old one (C144_foil_area_refuted)."
  },
  {
   "property": "C145",
   "status": "partial",
   "theorems": [
    "C145_sizes",
    "C145_filling_partial",
    "C145_filling_refuted",
    "C145_packing_refuted",
    "C145_catalogue_refuted",
    "C145_insulated_refused"
   ],
   "note": "Sizes are proved independent of history; filling and packing factors depend on the first question and a replaced catalogue is not noticed (C145_*_refuted)."
  },
  {
   "property": "C146",
   "status": "proved",
   "theorems": [
    "C146_catalogue_size",
    "C146_coated",
    "C146_beyond",
    "C146_litz_filling",
    "C146_litz_packing"
   ],
   "note": "The spline is any interpolator through its points (size) or bounded below by its points (coating)."
  },
  {
   "property": "C147",
   "status": "partial",
   "theorems": [
    "C147_insulated",
    "C147_exact",
    "C147_enamelled",
    "C147_served_and_bare",
    "C147_refused",
    "C147_refuted",
    "C147_unserved"
   ],
   "note": "The stated round trips are proved; the remaining coatings are refuted (C147_refuted)."
  },
  {
   "property": "C148",
   "status": "partial",
   "theorems": [
    "C148_plain",
    "C148_enamel_refuted",
    "C148_both"
   ],
   "note": "Labels of enamel without a grade are undefined behaviour (C148_enamel_refuted)."
  },
  {
   "property": "C149",
   "status": "partial",
   "theorems": [
    "C149_nearest",
    "C149_same",
    "C149_incomplete",
    "C149_none_refuted",
    "C149_litz_refuted"
   ],
   "note": "Without a candidate an empty wire is returned (C149_none_refuted, C149_litz_refuted)."
  },
  {
   "property": "C150",
   "status": "partial",
   "theorems": [
    "C150_area",
    "C150_frequency",
    "C150_resistance",
    "C150_litz_count",
    "C150_litz_refuted",
    "C150_round_instead"
   ],
   "note": "The litz instead of a solid wire may have no strands or another area (C150_litz_refuted)."
  },
  {
   "property": "C151",
   "status": "partial",
   "theorems": [
    "C151_cost",
    "C151_layers_refuted",
    "C151_extremes",
    "C151_minimum_refuted"
   ],
   "note": "Refuted for layers of insulation and for rectangular wires on edge."
  },
  {
   "property": "C152",
   "status": "partial",
   "theorems": [
    "C152_family_key",
    "C152_family_key_form",
    "C152_family",
    "C152_default_required",
    "C152_negative_refuted",
    "C152_zero_flux_refuted",
    "C152_no_method_refuted",
    "C152_bias_sign",
    "C152_curie",
    "C152_bias_falls",
    "C152_no_modifiers",
    "C152_magnetics_bias",
    "C152_micrometals_bias",
    "C152_micrometals_frequency",
    "C152_micrometals_temperature",
    "C152_poco_corner",
    "C152_poco_frequency",
    "C152_micrometals_flux",
    "C152_tdg_bias",
    "C152_fair_rite_temperature",
    "C152_magnetics_temperature",
    "C152_magnetics_frequency",
    "C152_product"
   ],
   "note": "Proved of every maker's formula with real arithmetic. Refuted: the result may fall below 1 or be negative (C152_negative_refuted), is zero without flux density when Micrometals corrects for it (C152_zero_flux_refuted), and a modifier without method is read unchecked (C152_no_method_refuted)."
  },
  {
   "property": "C153",
   "status": "partial",
   "theorems": [
    "C153_point",
    "C153_product",
    "C153_product_bias",
    "C153_independent",
    "C153_saturation",
    "C153_curie",
    "C153_at_least_one",
    "C153_ambient",
    "C153_constant",
    "C153_empty",
    "C153_corner_refuted",
    "C153_bias_sign_refuted",
    "C153_missing_figure_refuted"
   ],
   "note": "The points of a sweep are reproduced when only its axis is asked for, given splines that pass by their points. Refuted when temperature and frequency are asked for together and no point was measured at 25 degrees (C153_corner_refuted), for the sign of the bias with points along the bias (C153_bias_sign_refuted), and points without a figure (C153_missing_figure_refuted). Not covered: sweeps of two frequencies or two biases, where the spline library is given fewer points than it asks for."
  },
  {
   "property": "C154",
   "status": "partial",
   "theorems": [
    "C154_drop",
    "C154_crossing",
    "C154_no_dependency",
    "C154_more_than_all_refuted"
   ],
   "note": "Bracket and crossing proved for every material. Refuted: a drop of more than everything gives the middle of the range (C154_more_than_all_refuted)."
  },
  {
   "property": "C155",
   "status": "partial",
   "theorems": [
    "C155_history",
    "C155_curie",
    "C155_same_name_refuted"
   ],
   "note": "Any history over materials whose name determines their data. Refuted when two materials share a name (C155_same_name_refuted)."
  },
  {
   "property": "C156",
   "status": "proved",
   "theorems": [
    "C156_down",
    "C156_ungapped",
    "C156_few",
    "C156_each",
    "C156_many"
   ],
   "note": "All five layouts. Cores of the families of C161 are covered there."
  },
  {
   "property": "C157",
   "status": "proved",
   "theorems": [
    "C157_distributed",
    "C157_ground",
    "C157_spacer",
    "C157_residual"
   ],
   "note": "All four factories."
  },
  {
   "property": "C158",
   "status": "partial",
   "theorems": [
    "C158_ground",
    "C158_spread",
    "C158_distance",
    "C158_distance_refuted"
   ],
   "note": "Heights proved with explicit error bounds, distances for gaps of the length of the first one. Refuted for gaps of other lengths (C158_distance_refuted)."
  },
  {
   "property": "C159",
   "status": "partial",
   "theorems": [
    "C159_accepted",
    "C159_limits_partial",
    "C159_inside_refuted",
    "C159_overlap_refuted",
    "C159_length_refuted"
   ],
   "note": "Gaps that fit are accepted. The limits actually enforced are proved (C159_limits_partial), but accepted gaps may reach beyond the column (C159_inside_refuted), overlap (C159_overlap_refuted) and have any length after the first (C159_length_refuted)."
  },
  {
   "property": "C160",
   "status": "partial",
   "theorems": [
    "C160_nothing_moves",
    "C160_settles",
    "C160_ground_refuted",
    "C160_refused_refuted",
    "C160_middle",
    "C160_coordinates",
    "C160_laid_out"
   ],
   "note": "Places, lengths and sections never change and the second result is a fixed point; distances of gaps in the middle of a column at height 0 stay to half a nanometre. Refuted for ground gaps: the distance changes (C160_ground_refuted), and a gap accepted the first time can be refused the second (C160_refused_refuted)."
  },
  {
   "property": "C161",
   "status": "partial",
   "theorems": [
    "C161_solid",
    "C161_ring",
    "C161_refused",
    "C161_throws",
    "C161_length",
    "C161_toroid_refuted",
    "C161_stale_refuted",
    "C161_flanges"
   ],
   "note": "Refusals and lengths proved. Refuted: setting a length on a toroid gives it gaps it then refuses (C161_toroid_refuted); a length that does not fit is kept with the old place and distance (C161_stale_refuted)."
  },
  {
   "property": "C162",
   "status": "partial",
   "theorems": [
    "C162_read_back",
    "C162_stacked",
    "C162_again_refuted",
    "C162_columns"
   ],
   "note": "Proved for a core made from a description. Refuted for data processed again: the areas of the gaps are multiplied by the stacks once more (C162_again_refuted)."
  },
  {
   "property": "C163",
   "status": "proved",
   "theorems": [
    "C163_carrier",
    "C163_own",
    "C163_amplitude",
    "C163_whole",
    "C163_one_cycle"
   ],
   "note": "For any spectrum with a mean, a main and further harmonics."
  },
  {
   "property": "C164",
   "status": "proved",
   "theorems": [
    "C164_plateau"
   ],
   "note": "For waveforms whose peak is not below their offset; the spline through the table is a parameter."
  },
  {
   "property": "C165",
   "status": "partial",
   "theorems": [
    "C165_as_it_stands",
    "C165_turned",
    "C165_turning_helps",
    "C165_drawing",
    "C165_monotone",
    "C165_filter_partial",
    "C165_open_limit_refuted"
   ],
   "note": "Proved for the magnetic and the core. The filter agrees when all three limits are stated (C165_filter_partial); with a limit left open it throws (C165_open_limit_refuted)."
  },
  {
   "property": "C166",
   "status": "partial",
   "theorems": [
    "C166_core_and_bobbin",
    "C166_bobbin_size",
    "C166_bobbin",
    "C166_no_larger",
    "C166_turns_partial",
    "C166_turns_refuted",
    "C166_settles",
    "C166_stale_refuted",
    "C166_scores_grow"
   ],
   "note": "Core and bobbin proved, and the size is the smallest that encloses them. Turns of round windows are enclosed only by twice the dimensions, for their reach from the centre is compared with full widths (C166_turns_partial, C166_turns_refuted). The remembered dimensions do not follow a change of the core or coil (C166_stale_refuted)."
  },
  {
   "property": "C167",
   "status": "partial",
   "theorems": [
    "C167_kept",
    "C167_dropped",
    "C167_order",
    "C167_margin",
    "C167_score",
    "C167_no_point_refuted",
    "C167_choke_refuted",
    "C167_unknown_voltage_refuted",
    "C167_sizing"
   ],
   "note": "Proved as stated for lists with a point, physical candidates and points that are not exempt. Refuted for tagged chokes with equal currents, which are kept whatever their flux (C167_choke_refuted); for transformers whose voltage cannot be had, which get the best score (C167_unknown_voltage_refuted); and the score over no point is NaN (C167_no_point_refuted)."
  },
  {
   "property": "C168",
   "status": "partial",
   "theorems": [
    "C168_verdict",
    "C168_parallels",
    "C168_score",
    "C168_short_point_refuted"
   ],
   "note": "Proved whenever there is a verdict. Only the first point's number of excitations is checked: a later point with fewer is read past its end (C168_short_point_refuted)."
  },
  {
   "property": "C169",
   "status": "partial",
   "theorems": [
    "C169_one_point_partial",
    "C169_later_points_refuted",
    "C169_order_refuted",
    "C169_kept_partial"
   ],
   "note": "Holds for one operating point. The largest energy so far, not the point's own, is compared, so the points after the first never change the verdict and the order decides (C169_later_points_refuted, C169_order_refuted)."
  },
  {
   "property": "C170",
   "status": "proved",
   "theorems": [
    "C170_one_mind",
    "C170_one_side",
    "C170_ratios",
    "C170_inductance"
   ],
   "note": "The inductances themselves are given; requirements that are empty or not positive and suppression designs are passed by the code and excluded from C170_inductance."
  },
  {
   "property": "C171",
   "status": "partial",
   "theorems": [
    "C171_verdict",
    "C171_score",
    "C171_dropped",
    "C171_unpublished",
    "C171_entry",
    "C171_zero_limit_refuted"
   ],
   "note": "A published limit that is not positive counts as full headroom in the score while still dropping the part (C171_zero_limit_refuted); everything else proved, with non-negative saturation current for the verdict and positive limits for the score."
  },
  {
   "property": "C172",
   "status": "partial",
   "theorems": [
    "C172_enamelled",
    "C172_layered",
    "C172_foil_refuted",
    "C172_coil",
    "C172_no_ranking_refuted"
   ],
   "note": "Foils and planar conductors pass without any check (C172_foil_refuted) and every kept coil scores nought, so better insulation is never ranked (C172_no_ranking_refuted). Enamelled and layered coatings and the search over combinations are proved; coatings with both grade and layers take the grade first and are covered only by the coil theorem."
  },
  {
   "property": "C173",
   "status": "partial",
   "theorems": [
    "C173_verdict",
    "C173_history",
    "C173_margin",
    "C173_toroid",
    "C173_order_refuted",
    "C173_name_refuted"
   ],
   "note": "The flux density of the first operating point is used for all of them (C173_order_refuted), and shapes of equal names share the filling factor of the first (C173_name_refuted). With names that tell the cores apart the verdict and score do not depend on the history (C173_history)."
  },
  {
   "property": "C174",
   "status": "partial",
   "theorems": [
    "C174_single",
    "C174_relaxed",
    "C174_monotone",
    "C174_coil",
    "C174_first_section_refuted",
    "C174_no_sections",
    "C174_no_windings",
    "C174_sector"
   ],
   "note": "Only the first section of a winding is measured (C174_first_section_refuted)."
  },
  {
   "property": "C175",
   "status": "partial",
   "theorems": [
    "C175_lookup",
    "C175_own",
    "C175_nameless_refuted",
    "C175_stale_refuted"
   ],
   "note": "Holds when equal references mean equal scores. Candidates without a reference share one name and use each other's losses (C175_nameless_refuted); a score of -1 or NaN leaves the former one in place (C175_stale_refuted)."
  },
  {
   "property": "C176",
   "status": "partial",
   "theorems": [
    "C176_order",
    "C176_line",
    "C176_line_repeated",
    "C176_none",
    "C176_constant",
    "C176_repeated",
    "C176_finite_refuted",
    "C176_missing",
    "C176_proportion"
   ],
   "note": "Exact rationals; tk::spline (three temperatures or more) is any function, so only the order of the data and repeated temperatures are settled there. The full claim of finiteness is false and refuted (C176_finite_refuted)."
  },
  {
   "property": "C177",
   "status": "partial",
   "theorems": [
    "C177_flux",
    "C177_refused",
    "C177_hotter",
    "C177_negative_refuted"
   ],
   "note": "Inductance and area are given. Never negative is false and refuted (C177_negative_refuted)."
  },
  {
   "property": "C178",
   "status": "partial",
   "theorems": [
    "C178_rated",
    "C178_within",
    "C178_refused",
    "C178_settled",
    "C178_steady",
    "C178_monotone",
    "C178_runaway_refuted"
   ],
   "note": "The losses and the thermal network are any function that answers or throws. Settling at the current given is false for large rises and refuted (C178_runaway_refuted)."
  },
  {
   "property": "C179",
   "status": "partial",
   "theorems": [
    "C179_report",
    "C179_ambient",
    "C179_losses",
    "C179_larger",
    "C179_surface_models",
    "C179_surface_law",
    "C179_negative_refuted",
    "C179_no_window_refuted",
    "C179_no_column_refuted",
    "C179_tdk",
    "C179_unit_resistance"
   ],
   "note": "Real numbers; a double that is not finite is None. Finite for every input is false and refuted."
  },
  {
   "property": "C180",
   "status": "partial",
   "theorems": [
    "C180_latest",
    "C180_const",
    "C180_frozen",
    "C180_permeability_refuted",
    "C180_assigned_refuted",
    "C180_permeability_only",
    "C180_dummy",
    "C180_const_writes_refuted"
   ],
   "note": "The claim for the const resolver is false after set_material_initial_permeability or an assignment of the description, and refuted."
  },
  {
   "property": "C181",
   "status": "partial",
   "theorems": [
    "C181_kept",
    "C181_pieces",
    "C181_empty",
    "C181_collapsed_refuted"
   ],
   "note": "Keeping the closing pieces under every query is false and refuted (C181_collapsed_refuted)."
  },
  {
   "property": "C182",
   "status": "partial",
   "theorems": [
    "C182_methods",
    "C182_guess",
    "C182_check",
    "C182_resolved",
    "C182_guess_accepted_partial",
    "C182_guess_refuted",
    "C182_tagging_refuted"
   ],
   "note": "Acceptance of the guessed application holds for untagged materials that publish losses; in general it is false and refuted."
  },
  {
   "property": "C183",
   "status": "partial",
   "theorems": [
    "C183_effective_loss",
    "C183_passive",
    "C183_lossy_finite",
    "C183_order",
    "C183_single_tank",
    "C183_turned_column",
    "C183_series"
   ],
   "note": "Real numbers. Sections with one positive size only (the slab formula) are left out of the passivity theorems; columns have two."
  },
  {
   "property": "C184",
   "status": "proved",
   "theorems": [
    "C184_one_winding",
    "C184_leakage_arm",
    "C184_first_column",
    "C184_windings_add",
    "C184_no_bias",
    "C184_bias_scales",
    "C184_q"
   ],
   "note": "Stray capacitances, leakages and resistances are parameters; the theorems hold for all of them."
  },
  {
   "property": "C185",
   "status": "partial",
   "theorems": [
    "C185_least",
    "C185_none",
    "C185_total",
    "C185_limit_refuted",
    "C185_ratios",
    "C185_order",
    "C185_missing"
   ],
   "note": "A number above 201 is missed (C185_limit_refuted); minimality for lists with turns ratios is over the combinations the generator gives, see C31."
  },
  {
   "property": "C186",
   "status": "partial",
   "theorems": [
    "C186_impedance",
    "C186_wound",
    "C186_wideband_unwound_refuted",
    "C186_differential_unwound_refuted",
    "C186_differential"
   ],
   "note": "False for the wideband model with the default capacitance and for the differential-mode parameters of coils without turns, both refuted."
  },
  {
   "property": "C187",
   "status": "partial",
   "theorems": [
    "C187_sign",
    "C187_of_the_tank_partial",
    "C187_fast_refuted",
    "C187_ignored_refuted",
    "C187_model_refuted"
   ],
   "note": "The agreement with the tank fails with the estimated capacitance, for other capacitance models and temperatures, all refuted."
  },
  {
   "property": "C188",
   "status": "partial",
   "theorems": [
    "C188_value",
    "C188_between",
    "C188_order",
    "C188_single",
    "C188_zero_refuted",
    "C188_none_counts"
   ],
   "note": "Needs points of positive frequency; refuted otherwise (C188_zero_refuted)."
  },
  {
   "property": "C189",
   "status": "proved",
   "theorems": [
    "C189_infer",
    "C189_factors",
    "C189_lossy",
    "C189_magnitude",
    "C189_tail",
    "C189_slope"
   ],
   "note": "For a positive initial permeability at 10 kHz. The initial permeability over frequency and the two drop frequencies are parameters, so the theorems hold for all of them."
  },
  {
   "property": "C190",
   "status": "partial",
   "theorems": [
    "C190_history",
    "C190_name_refuted",
    "C190_value",
    "C190_missing",
    "C190_empty_refuted",
    "C190_nan_refuted",
    "C190_order",
    "C190_beyond"
   ],
   "note": "tk::spline is any function. Refuted: another material of the same name gets the curves of the first (C190_name_refuted), a real part that is not a number is answered as 1 (C190_nan_refuted), an imaginary table without points is undefined behaviour (C190_empty_refuted)."
  },
  {
   "property": "C191",
   "status": "partial",
   "theorems": [
    "C191_through",
    "C191_branches",
    "C191_minor",
    "C191_minor_open",
    "C191_minor_crossed_refuted"
   ],
   "note": "Peaks up to saturation only. Refuted without enough remanence: the minor loop is crossed (C191_minor_crossed_refuted)."
  },
  {
   "property": "C192",
   "status": "partial",
   "theorems": [
    "C192_slope",
    "C192_none",
    "C192_neither",
    "C192_density",
    "C192_peak_refuted",
    "C192_missing_refuted",
    "C192_ratio_refuted"
   ],
   "note": "Refuted: the loop for a flux density need not reach it (C192_peak_refuted), below saturation there may be no answer (C192_missing_refuted), and the answer is not the ratio of the peaks (C192_ratio_refuted)."
  },
  {
   "property": "C193",
   "status": "proved",
   "theorems": [
    "C193_cas_answers",
    "C193_cab_answers",
    "C193_cas_network",
    "C193_cab_network",
    "C193_bounds",
    "C193_monotone",
    "C193_grows_with_elements",
    "C193_converges",
    "C193_geometric_mean_refuted"
   ],
   "note": "The elements are inputs; the network theorems give the series and parallel laws of each rung. Bounds cover the claim; the geometric mean claim of the comment is refuted."
  },
  {
   "property": "C194",
   "status": "proved",
   "theorems": [
    "C194_positive",
    "C194_single_turn",
    "C194_refuses",
    "C194_toroid_energy",
    "C194_toroid_low",
    "C194_larger_is_more_refuted"
   ],
   "note": "Monotonicity is refuted at the 0.1 pF threshold."
  },
  {
   "property": "C195",
   "status": "proved",
   "theorems": [
    "C195_series",
    "C195_symmetric",
    "C195_nothing_between_refuted"
   ],
   "note": "The tie at zero thickness is refuted."
  },
  {
   "property": "C196",
   "status": "proved",
   "theorems": [
    "C196_every_turn",
    "C196_ends",
    "C196_chain",
    "C196_between",
    "C196_parallels_agree",
    "C196_single",
    "C196_default_voltages"
   ],
   "note": "Rank is the number of earlier turns of the same winding and parallel."
  },
  {
   "property": "C197",
   "status": "proved",
   "theorems": [
    "C197_symmetric",
    "C197_answers"
   ],
   "note": "The capacitance of one pair is an input."
  },
  {
   "property": "C198",
   "status": "proved",
   "theorems": [
    "C198_charge_balance",
    "C198_least_energy",
    "C198_floats",
    "C198_one_turn",
    "C198_through_core_bounds",
    "C198_series",
    "C198_scale"
   ],
   "note": "Turn to core elements are inputs."
  },
  {
   "property": "C199",
   "status": "proved",
   "theorems": [
    "C199_terminates",
    "C199_shift",
    "C199_energy",
    "C199_shift_reached",
    "C199_core_between",
    "C199_nonnegative",
    "C199_floating_refuted"
   ],
   "note": "The fuel is shown sufficient, so no result depends on it. The floating claim is refuted."
  },
  {
   "property": "C200",
   "status": "proved",
   "theorems": [
    "C200_every_pair",
    "C200_ends",
    "C200_core_left_out_refuted"
   ],
   "note": "Holds also with repeated names. The chain plus core claim is refuted."
  },
  {
   "property": "C201",
   "status": "proved",
   "theorems": [
    "C201_entries",
    "C201_row_sum",
    "C201_energy",
    "C201_semidefinite",
    "C201_of_coil"
   ],
   "note": "Distinct names are needed and assumed."
  },
  {
   "property": "C202",
   "status": "proved",
   "theorems": [
    "C202_six_network",
    "C202_six_equipotential",
    "C202_tripole",
    "C202_tripole_reversed_refuted",
    "C202_turn_energy",
    "C202_turn_symmetry"
   ],
   "note": "The reversed tripole is refuted."
  },
  {
   "property": "C203",
   "status": "proved",
   "theorems": [
    "C203_lossless",
    "C203_fields",
    "C203_round_trip",
    "C203_cells",
    "C203_count",
    "C203_guess",
    "C203_order",
    "C203_open_parenthesis_refuted"
   ],
   "note": "Lines are lists of bytes; the depth of parentheses does not overflow. C203_open_parenthesis_refuted: a field with an open parenthesis swallows the rest of the line."
  },
  {
   "property": "C204",
   "status": "proved",
   "theorems": [
    "C204_row",
    "C204_refused",
    "C204_comments",
    "C204_carriage_returns",
    "C204_skipped",
    "C204_cell",
    "C204_padded_quotes_refuted",
    "C204_mark",
    "C204_table",
    "C204_blank_name_refuted",
    "C204_rows_kept_refuted",
    "C204_lines",
    "C204_no_columns"
   ],
   "note": "std::stod is any function from text to an optional number. C204_blank_name_refuted and C204_rows_kept_refuted show two ways numbers are misplaced without an error."
  },
  {
   "property": "C205",
   "status": "proved",
   "theorems": [
    "C205_time",
    "C205_empty",
    "C205_found",
    "C205_repeated"
   ],
   "note": "Exact numbers."
  },
  {
   "property": "C206",
   "status": "proved",
   "theorems": [
    "C206_period",
    "C206_short_refuted",
    "C206_aligned",
    "C206_frequency_refuted",
    "C206_import",
    "C206_refused"
   ],
   "note": "Exact numbers, positive frequencies; the resampling of the period is not modelled. C206_short_refuted and C206_frequency_refuted are the parts of the claim that are false."
  },
  {
   "property": "C207",
   "status": "proved",
   "theorems": [
    "C207_windings",
    "C207_again",
    "C207_number",
    "C207_label",
    "C207_long_number_refuted",
    "C207_precedence"
   ],
   "note": "C207_long_number_refuted: names with a number above 2147483647."
  },
  {
   "property": "C208",
   "status": "proved",
   "theorems": [
    "C208_unit",
    "C208_offset",
    "C208_two_levels",
    "C208_constant",
    "C208_filter",
    "C208_levels"
   ],
   "note": "Exact numbers; the quotient 0/0 is replaced by the difference as in the code."
  },
  {
   "property": "C209",
   "status": "proved",
   "theorems": [
    "C209_named",
    "C209_tail",
    "C209_again_refuted",
    "C209_one_window",
    "C209_unknown_name_refuted"
   ],
   "note": "For the operating point with the columns named; resampling and the figures taken from a waveform are any function that may fail. C209_again_refuted and C209_unknown_name_refuted are the parts of the claim that are false."
  },
  {
   "property": "C210",
   "status": "proved",
   "theorems": [
    "C210_ranking",
    "C210_only_eligible",
    "C210_carries",
    "C210_no_frequency",
    "C210_proportion",
    "C210_rectangular_density_refuted",
    "C210_one_parallel_refuted"
   ],
   "note": "Over rationals; what the physics says of a wire is any function. The two _refuted theorems are the exceptions named in the statement."
  },
  {
   "property": "C211",
   "status": "proved",
   "theorems": [
    "C211_bounds",
    "C211_dominance",
    "C211_parallels_preferred_refuted",
    "C211_proximity_frequency_refuted"
   ],
   "note": "Over rationals; figures that are NaN or infinite make the search throw. The _refuted theorems show the preference for fewer parallels and the independence of the frequency."
  },
  {
   "property": "C212",
   "status": "proved",
   "theorems": [
    "C212_penalty",
    "C212_offers",
    "C212_complete",
    "C212_spread_refuted",
    "C212_ranking",
    "C212_bounds",
    "C212_proportion_refuted"
   ],
   "note": "Over rationals. Completeness is C212_complete; the two defects are C212_spread_refuted and C212_proportion_refuted."
  },
  {
   "property": "C213",
   "status": "proved",
   "theorems": [
    "C213_considered",
    "C213_advised",
    "C213_constraint_refuted",
    "C213_no_system_refuted"
   ],
   "note": "The two defects are the _refuted theorems."
  },
  {
   "property": "C214",
   "status": "proved",
   "theorems": [
    "C214_results",
    "C214_complete",
    "C214_ends",
    "C214_limit_refuted",
    "C214_losses_complete_refuted"
   ],
   "note": "C214_results, C214_complete and C214_ends prove the claim for names that identify cores; C214_limit_refuted and C214_losses_complete_refuted prove the two defects."
  },
  {
   "property": "C215",
   "status": "proved",
   "theorems": [
    "C215_no_trace",
    "C215_memory_refuted"
   ],
   "note": "C215_no_trace; C215_memory_refuted is the defect, two searches on one object."
  },
  {
   "property": "C216",
   "status": "proved",
   "theorems": [
    "C216_bounds",
    "C216_dominance",
    "C216_saturation_refuted"
   ],
   "note": "C216_bounds, C216_dominance; C216_saturation_refuted proves the defect with a weight for saturation."
  },
  {
   "property": "C217",
   "status": "proved",
   "theorems": [
    "C217_agrees",
    "C217_bounds_refuted",
    "C217_equal_refuted"
   ],
   "note": "C217_agrees; the two C217_*_refuted theorems prove the differences at small distances. The population of the report (all cores remembered) is taken equal to that of the ranking."
  },
  {
   "property": "C218",
   "status": "proved",
   "theorems": [
    "C218_ranking",
    "C218_missing_refuted"
   ],
   "note": "C218_ranking; C218_missing_refuted shows the consequence of missing losses for every positive weight."
  },
  {
   "property": "C219",
   "status": "proved",
   "theorems": [
    "C219_bounds",
    "C219_dominance"
   ],
   "note": "C219_bounds, C219_dominance."
  }
 ]
}