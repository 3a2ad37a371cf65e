{"id": "C01", "title": "Splitting a winding over sections or layers conserves its turns", "statement": "When a winding of N turns and P parallels is distributed over S slots (sections or layers), with either winding style, every slot receives a whole non-negative number of turns of every parallel, and over the S slots each parallel receives exactly the turns it had to distribute: no turn is lost or invented, and the reported physical-turn count of a slot is the sum of what was put in it.", "quantifier": "every number of turns, number of parallels, number of slots, winding style, and every starting distribution made of whole turns", "why_tests_cant": "turn counts, parallels and slot counts are unbounded and the remaining proportions are threaded through the loop; a finite set of winding examples cannot cover the ceil/round arithmetic", "anchors": ["src/constructive_models/Coil.cpp:get_parallels_proportions", "src/constructive_models/Coil.cpp:Coil::wind_by_rectangular_sections", "src/constructive_models/Coil.cpp:Coil::wind_by_rectangular_layers"]}
{"id": "C02", "title": "A forced per-layer turn count is honoured exactly", "statement": "When connection blocking forces the number of physical turns of a layer, the layer receives exactly that many turns as long as that many remain, never more than what remains in each parallel, the parallels of an N-filar layer stay balanced (they differ by at most one turn while both still have turns left), and the computation never indexes outside the parallels.", "quantifier": "every forced count, number of parallels and remaining distribution", "why_tests_cant": "round-robin placement with exhaustion of individual parallels has unboundedly many interleavings of full and empty parallels", "anchors": ["src/constructive_models/Coil.cpp:get_parallels_proportions", "src/constructive_models/Coil.cpp:Coil::wind_by_rectangular_layers"]}
{"id": "C03", "title": "Every turn of every parallel is wound exactly once and numbered consecutively", "statement": "After turns are placed for the layers of a coil, the turns of each parallel of each winding are named with indexes 0..n-1 without gaps or repetitions, where n is the number of turns the layers allot to that parallel, and each layer contains exactly the turns allotted to it.", "quantifier": "every sequence of layers, allotments per parallel and winding style", "why_tests_cant": "the numbering state is carried across an arbitrary number of layers and interleaved windings", "anchors": ["src/constructive_models/Coil.cpp:Coil::wind_by_rectangular_turns"]}
{"id": "C04", "title": "Turns spread inside a layer never overlap and never leave it", "statement": "The turn positions computed to spread n turns over a layer are n strictly ordered positions, adjacent ones at least one wire apart, bundles of parallels touch, the positions are symmetric about the layer centre, and if the turns fit in the layer the outer surfaces of the first and last turns lie on the layer edges (or the stack is centred when there is a single bundle).", "quantifier": "every layer centre and size, wire size, turn count and bundle size", "why_tests_cant": "real-valued geometry with unbounded turn counts and partial last bundles", "anchors": ["src/constructive_models/Coil.cpp:compute_spread_turn_stations", "src/constructive_models/Coil.cpp:take_next_spread_station"]}
{"id": "C05", "title": "Sections follow the requested interleaving and use exactly the requested space", "statement": "The ordered sections produced for a pattern and a number of repetitions are the pattern repeated that many times in order, all sections of a winding have the same size, and the sizes of the sections of a winding add up to its share of the available space (so all sections add up to the space when the shares add up to one).", "quantifier": "every available space, share per winding, pattern and repetitions", "why_tests_cant": "pattern length, repetitions and shares are unbounded", "anchors": ["src/constructive_models/Coil.cpp:Coil::get_ordered_sections"]}
{"id": "C06", "title": "Insulation between sections is carved out of its neighbours without changing the total", "statement": "Inserting the inter-section insulation between the ordered sections keeps the conduction sections in order, puts between consecutive sections an insulation section of exactly the configured thickness for that pair of windings, and preserves the total space when no wrap-around insulation is added.", "quantifier": "every list of sections and every configured insulation thickness table", "why_tests_cant": "each section is reduced from both sides, and the interaction of neighbouring insulations over lists of any length cannot be enumerated", "anchors": ["src/constructive_models/Coil.cpp:Coil::add_insulation_to_sections"]}
{"id": "C07", "title": "Proposed interleaving patterns are legal", "statement": "Every pattern proposed for a magnetic mentions every winding of the coil, only windings of the coil, and none twice; the number of patterns is bounded by the configured maximum and no pattern is proposed twice; and the proposal never reads outside its own list.", "quantifier": "every number of windings, assignment of windings to isolation sides, and core type", "why_tests_cant": "the number of permutations is factorial in the number of isolation sides", "anchors": ["src/constructive_models/Coil.cpp:Coil::get_patterns"]}
{"id": "C08", "title": "Interleaving never asks a winding to be split in more sections than it has turns", "statement": "After the integrity check of a pattern and repetitions, the returned pattern repeated the returned number of times contains every winding of the pattern at least once, and at most as many times as it has physical turns; if nothing had to change the pattern and the repetitions are returned untouched.", "quantifier": "every pattern, repetitions and turns per winding", "why_tests_cant": "unbounded patterns and turn counts", "anchors": ["src/constructive_models/Coil.cpp:Coil::check_pattern_and_repetitions_integrity"]}
{"id": "C09", "title": "Windings wound together are grouped and ungrouped without losing turns", "statement": "Grouping windings that are wound together partitions the windings (each in exactly one group), the virtual winding of a group has as many turns as its members together, and ungrouping the wound turns gives each member exactly its turns per parallel.", "quantifier": "every set of windings, wound-together relation, turns and parallels", "why_tests_cant": "the grouping relation is an arbitrary graph over arbitrarily many windings", "anchors": ["src/constructive_models/Coil.cpp:Coil::create_virtualization_map", "src/constructive_models/Coil.cpp:Coil::virtualize_functional_description", "src/constructive_models/Coil.cpp:Coil::devirtualize_turns_description"]}
{"id": "C10", "title": "Turns assigned to the layers of a toroidal section add up to the section", "statement": "The per-layer turn counts computed for a toroidal section are as many as the layers needed, and add up to exactly the physical turns of the section.", "quantifier": "every section geometry, wire size and number of turns", "why_tests_cant": "the layer capacity shrinks with every layer and the excess is taken back round robin; the number of layers is unbounded", "anchors": ["src/constructive_models/Coil.cpp:Coil::get_number_layers_needed_and_number_physical_turns"]}
{"id": "C11", "title": "Winding shares are a partition of the window", "statement": "The share of the winding window given to each winding on the basis of its wires is non-negative and the shares add up to one whenever any winding needs space.", "quantifier": "every list of windings and wire areas", "why_tests_cant": "number of windings and sizes unbounded", "anchors": ["src/constructive_models/Coil.cpp:Coil::get_proportion_per_winding_based_on_wires"]}
{"id": "C12", "title": "Insulation coordination covers every applicable standard", "statement": "The withstand voltage, clearance, creepage distance and distance through insulation returned for a design are at least the value of each of the standards requested, equal to one of them (or 0 if none), do not depend on the order in which the standards are listed, and never decrease when a standard is added.", "quantifier": "every list of standards and every value returned by each of them", "why_tests_cant": "lists of standards and values are unbounded", "anchors": ["src/constructive_models/Insulation.cpp:InsulationCoordinator::calculate_withstand_voltage", "src/constructive_models/Insulation.cpp:InsulationCoordinator::calculate_clearance", "src/constructive_models/Insulation.cpp:InsulationCoordinator::calculate_creepage_distance", "src/constructive_models/Insulation.cpp:InsulationCoordinator::calculate_distance_through_insulation"]}
{"id": "C13", "title": "Table interpolation is exact at the rows, monotone and bounded", "statement": "Interpolating in a standard's table returns the tabulated value at every row, lies between the two neighbouring rows in between, never goes below the first row under it, extends the last slope above it, is monotone for a monotone table and always finds a bracket for a number.", "quantifier": "every table with strictly increasing abscissae and every abscissa", "why_tests_cant": "continuous abscissa and arbitrary table length", "anchors": ["src/constructive_models/Insulation.cpp:linear_table_interpolation"]}
{"id": "C14", "title": "Solid insulation found for high frequency satisfies the field-strength limit and is minimal", "statement": "The distance through insulation returned for high-frequency stress satisfies the standard's field-strength limit for the requested voltage, no smaller positive multiple of the micrometre does, every larger one does too, the search ends for every voltage, and a higher voltage never needs less insulation.", "quantifier": "every voltage", "why_tests_cant": "the search loop runs for an unbounded number of steps", "anchors": ["src/constructive_models/Insulation.cpp:InsulationIEC60664Model::electric_field_strength_is_valid", "src/constructive_models/Insulation.cpp:InsulationIEC60664Model::calculate_distance_through_insulation_over_30kHz"]}
{"id": "C15", "title": "Insulation layers placed between sections withstand the required voltage", "statement": "When solid insulation layers are proposed between two sections, the layers together withstand the required voltage and are at least as thick as the required distance through insulation.", "quantifier": "every required voltage, distance, tape thickness and dielectric strength", "why_tests_cant": "rounding before the ceiling under-provisions on a set of inputs of small measure that sampled tests miss", "anchors": ["src/constructive_models/Insulation.cpp:InsulationCoordinator::calculate_coil_section_interface_layers"]}
{"id": "C16", "title": "Creepage distance is never smaller than clearance", "statement": "When the clearance is to be included, the creepage distance returned by a standard's model is at least the clearance it returns for the same design.", "quantifier": "every table content and design input", "why_tests_cant": "depends on the relation between table rows and rounding for arbitrary voltages", "anchors": ["src/constructive_models/Insulation.cpp:InsulationIEC60664Model::calculate_creepage_distance", "src/constructive_models/Insulation.cpp:InsulationIEC61558Model::calculate_creepage_distance", "src/constructive_models/Insulation.cpp:InsulationIEC62368Model::calculate_creepage_distance", "src/constructive_models/Insulation.cpp:InsulationIEC60335Model::calculate_creepage_distance"]}
{"id": "C17", "title": "Asking for wire insulation requirements does not change the design", "statement": "Computing the solid insulation requirements of the wires leaves the inputs given by the caller unchanged, and returns combinations with one requirement per winding.", "quantifier": "every insulation type, margin setting and design", "why_tests_cant": "the mutation happens only on one combination of settings and insulation type, after which later results silently change", "anchors": ["src/constructive_models/Insulation.cpp:InsulationCoordinator::get_solid_insulation_requirements_for_wires"]}
{"id": "C18", "title": "Margin is requested exactly when adjacent windings are not covered by their wires", "statement": "A margin is required by an interleaving pattern exactly when some pair of sections that become neighbours (including across repetitions) belong to different windings whose wires do not provide the required insulation.", "quantifier": "every pattern, number of repetitions and requirement per winding", "why_tests_cant": "adjacency across repetitions for arbitrary patterns", "anchors": ["src/constructive_models/Insulation.cpp:InsulationCoordinator::needs_margin"]}
{"id": "C19", "title": "The caches behave as maps", "statement": "Reading a reference returns the last value loaded under it, other references are unaffected, evicting returns and removes exactly the requested present entries, clearing removes everything, the size is the number of distinct references, and reading a missing reference is an error.", "quantifier": "every finite history of load, evict, clear and read operations", "why_tests_cant": "histories are unbounded", "anchors": ["src/support/Cache.h:Cache"]}
{"id": "C20", "title": "A frozen database does not change until it is unfrozen", "statement": "Between freezing and unfreezing the databases, no history of API operations changes the contents of the loaded catalogs or of the magnetics cache: each operation that would change them is refused.", "quantifier": "every history of operations between freeze and unfreeze", "why_tests_cant": "histories are unbounded and the guard has to be present in every mutator", "anchors": ["src/support/Utils.cpp:freeze_databases", "src/support/Cache.h:MagneticsCache", "src/support/LibraryContext.cpp:LibraryContext::Scope"]}
{"id": "C21", "title": "Filtering cached magnetics by energy is sound and complete", "statement": "Right after the energy cache is computed, filtering by energy returns exactly the references whose stored energy lies in the inclusive interval, and the maximum is the largest stored energy and attained; an entry loaded or evicted later is seen by the filter only after recomputing.", "quantifier": "every cache content, interval and history of loads and evictions after the computation", "why_tests_cant": "histories are unbounded", "anchors": ["src/support/Cache.cpp:MagneticsCache::compute_energy_cache", "src/support/Cache.cpp:MagneticsCache::filter_magnetics_by_energy"]}
{"id": "C22", "title": "Library scopes restore the catalogs they replace", "statement": "When the lifetime of a library scope ends the global catalogs are exactly what they were before it began, whatever happened to the catalogs meanwhile, for any number of properly nested scopes, and a scope over an empty library changes nothing.", "quantifier": "every initial catalog state, library content, mode, nesting depth and intermediate modifications", "why_tests_cant": "nesting depth and intermediate histories are unbounded", "anchors": ["src/support/LibraryContext.cpp:LibraryContext::Scope"]}
{"id": "C23", "title": "Custom library entries win over built-in ones while their scope is active", "statement": "While a library scope is active, looking up a name defined by the library returns the library's entry, for every kind of catalog.", "quantifier": "every initial catalog and library content", "why_tests_cant": "arbitrary catalog contents, with or without name clashes", "anchors": ["src/support/LibraryContext.cpp:LibraryContext::Scope", "src/support/Utils.cpp:find_core_by_name"]}
{"id": "C24", "title": "Requirement check is the documented interval test", "statement": "A value passes a requirement with minimum and maximum iff it lies between them inclusively; with only a nominal value iff it is within 25 % of it; contradictory requirements (maximum below minimum, nominal outside) are rejected with an error rather than answered.", "quantifier": "every requirement and every value, including missing fields", "why_tests_cant": "continuous value space with eight presence combinations", "anchors": ["src/support/Utils.cpp:check_requirement"]}
{"id": "C25", "title": "Resolving a dimension with tolerance stays within its tolerance", "statement": "Resolving a dimension returns a value between its minimum and maximum whenever the dimension is consistent, the three resolutions are ordered (minimum <= nominal <= maximum), and it is an error only when no value is present.", "quantifier": "every combination of present fields and values", "why_tests_cant": "continuous values, all presence combinations", "anchors": ["src/Definitions.h:resolve_dimensional_values"]}
{"id": "C26", "title": "Adviser scoring is normalised and order preserving", "statement": "Normalising scorings maps every score into [0, weight], the best raw score gets the extreme value, the order of any two candidates after normalisation is the order of their raw scores (reversed when inverted), and candidates keep their positions.", "quantifier": "every list of scores, weight and filter configuration", "why_tests_cant": "lists of any length with arbitrary real scores, ties and logarithmic mode", "anchors": ["src/support/Utils.cpp:normalize_scoring"]}
{"id": "C27", "title": "Splitting and rejoining a string loses nothing", "statement": "Splitting a string by a non-empty delimiter and joining the pieces with it gives back the string, and no piece contains the delimiter.", "quantifier": "every string and every non-empty delimiter", "why_tests_cant": "strings are unbounded; overlapping delimiters are easily missed", "anchors": ["src/support/Utils.cpp:split"]}
{"id": "C28", "title": "Finding the closest index returns the nearest element", "statement": "The index returned for a sorted list and a value designates an element whose distance to the value is minimal.", "quantifier": "every non-empty sorted list and value", "why_tests_cant": "lists and values unbounded; off by one errors appear only between particular elements", "anchors": ["src/support/Utils.cpp:find_closest_index"]}
{"id": "C29", "title": "Decimal rounding helpers round to the grid in the announced direction", "statement": "Rounding a number to d decimals gives a multiple of 10^-d at distance at most half of it, ceiling gives the smallest such multiple not below the number, floor the greatest not above it; they are idempotent and monotone.", "quantifier": "every number and number of decimals", "why_tests_cant": "continuous domain, ties and negative numbers", "anchors": ["src/support/Utils.cpp:roundFloat", "src/support/Utils.cpp:ceilFloat", "src/support/Utils.cpp:floorFloat"]}
{"id": "C30", "title": "Micro sign normalisation is canonical and harmless", "statement": "Normalising the micro sign in a name replaces both Unicode encodings of the micro sign by one, leaves every text without them unchanged, and is idempotent.", "quantifier": "every byte string", "why_tests_cant": "byte strings are unbounded and the scan looks at bytes out of character context", "anchors": ["src/support/Utils.cpp:normalize_micro_sign"]}
{"id": "C31", "title": "Turn combinations enumerate valid designs in increasing order", "statement": "Successive numbers of turns have a strictly increasing number of primary turns that is a multiple of the requested one, every secondary is at least one turn and makes each turns ratio satisfy its requirement, and no valid smaller primary in between is skipped.", "quantifier": "every list of turns ratio requirements, starting number of turns and multiple", "why_tests_cant": "the enumeration is unbounded", "anchors": ["src/constructive_models/NumberTurns.cpp:NumberTurns::increment_number_turns", "src/constructive_models/NumberTurns.cpp:NumberTurns::get_next_number_turns_combination"]}
{"id": "C32", "title": "Winding combinations use each physical winding at most once", "statement": "Every combination of the windings of a catalog magnetic that is offered for a requirement assigns to each requested winding a non-empty set of physical windings, no physical winding is used twice, series combinations add turns, parallel ones require equal turns and keep them, and every resulting turns ratio satisfies its requirement.", "quantifier": "every list of windings, connections and requirements", "why_tests_cant": "the combinations are exponential in the number of windings", "anchors": ["src/advisers/MagneticCombinator.cpp:calculate_coil_combinations", "src/advisers/MagneticCombinator.cpp:calculate_combinations", "src/advisers/MagneticCombinator.cpp:calculate_virtual_magnetics"]}
{"id": "C33", "title": "The multi-column reluctance network conserves flux and solves its circuit", "statement": "The column fluxes computed for a core sum to zero, satisfy Kirchhoff's magnetomotive force law in every window, are linear in the applied magnetomotive forces, and the solver never fails for positive reluctances.", "quantifier": "every number of columns, positive reluctances and magnetomotive forces", "why_tests_cant": "arbitrary number of columns and real values; pivoting order depends on data", "anchors": ["src/physical_models/ReluctanceNetwork.cpp:solve_column_fluxes"]}
{"id": "C34", "title": "Inductance matrices are symmetric and passive", "statement": "The inductance matrix derived from the reluctance network is symmetric, its quadratic form (the stored energy) is never negative, and its diagonal equals the square of the turns over the driving reluctance.", "quantifier": "every core, turns and assignment of windings to columns", "why_tests_cant": "arbitrary number of windings and columns, real values", "anchors": ["src/physical_models/ReluctanceNetwork.cpp:calculate_inductance_matrix"]}
{"id": "C35", "title": "Migrating a document to the current schema is idempotent and structure preserving", "statement": "Migrating a migrated document changes nothing, and migration keeps the shape of the document: same arrays and lengths, and only the listed keys and values renamed.", "quantifier": "every JSON document", "why_tests_cant": "documents are arbitrarily deep trees", "anchors": ["src/constructive_models/MasMigration.cpp:migrate_pre_1_0"]}
{"id": "C36", "title": "Resetting the settings restores every default", "statement": "After a reset every setting reads as in a freshly started program whatever was set before, and catalogs loaded under a different core selection are dropped so that they are reloaded under the defaults.", "quantifier": "every history of setter calls before the reset", "why_tests_cant": "there are more than a hundred settings and any subset can have been changed", "anchors": ["src/support/Settings.cpp:Settings::reset"]}
{"id": "C37", "title": "Enumerations survive a round trip through their text form", "statement": "Reading back the text written for any value of an adviser or model enumeration gives the same value, different values have different texts, and an unknown text is an error or a documented default, never another value.", "quantifier": "every value of every enumeration and every text", "why_tests_cant": "texts are unbounded; a duplicated literal would silently merge values", "anchors": ["src/Definitions.h"]}
{"id": "C38", "title": "Duty cycle measured from samples is a fraction of the period", "statement": "The duty cycle measured from any sampled waveform lies between 0 and 1, equals the fraction of the time spent above the mid level, and does not change when the waveform is scaled by a positive factor or shifted vertically or in time.", "quantifier": "every sampled waveform", "why_tests_cant": "waveforms have unbounded length and real values", "anchors": ["src/processors/WaveformProcessor.cpp:measure_duty_cycle_from_samples"]}
{"id": "C39", "title": "The average of a waveform lies between its extremes", "statement": "The average computed for a waveform lies between its smallest and largest sample, commutes with scaling and with adding a constant, and of a constant waveform is that constant.", "quantifier": "every waveform with increasing time", "why_tests_cant": "unbounded length, real values", "anchors": ["src/processors/WaveformProcessor.cpp:calculate_waveform_average"]}
{"id": "C40", "title": "Waveform compression keeps the waveform", "statement": "Compressing a waveform keeps its first and last samples, keeps the order of the samples, keeps only samples of the original (plus the closing one) and keeps every sample where the slope changes beyond the tolerance.", "quantifier": "every sampled waveform", "why_tests_cant": "unbounded length", "anchors": ["src/processors/WaveformProcessor.cpp:compress_waveform"]}
{"id": "C41", "title": "NDJSON catalogs parse line by line whatever the line ending", "statement": "Parsing a catalog text gives one entry per non-blank line in order, the same for Unix and Windows line endings, and malformed lines are reported rather than skipped.", "quantifier": "every text", "why_tests_cant": "texts unbounded", "anchors": ["src/support/Utils.cpp:parse_ndjson", "src/support/Utils.cpp:strip_cr"]}
{"id": "C42", "title": "Compressing an interleaving pattern removes only adjacent repetitions", "statement": "A compressed pattern has no two equal neighbours, is unchanged when compressed again, mentions the same windings in the same order, and is the original one when it had no equal neighbours.", "quantifier": "every pattern", "why_tests_cant": "patterns are unbounded", "anchors": ["src/constructive_models/Coil.cpp:Coil::compress_pattern"]}
{"id": "C43", "title": "The winding style chooser always gives a style under which every slot gets turns", "statement": "The style chosen for a winding with at least as many physical turns as slots gives every slot at least one turn, and asking with no slots is an error.", "quantifier": "every number of turns, parallels and slots", "why_tests_cant": "divisibility conditions over unbounded integers", "anchors": ["src/constructive_models/Coil.cpp:Coil::wind_by_consecutive_turns"]}
{"id": "C44", "title": "Type filters accept what they list", "statement": "A type filter accepts everything when it is empty, otherwise exactly the listed types, the same whether asked by text or by enumeration value.", "quantifier": "every set of listed types and every query", "why_tests_cant": "texts unbounded, case variations", "anchors": ["src/support/LibraryContext.h:TypeFilterSet"]}
{"id": "C45", "title": "Linearly spaced arrays hit both ends in equal steps", "statement": "A linearly spaced array of n>=2 points has n entries, starts at the first bound, ends at the last one, and consecutive entries differ by the same amount.", "quantifier": "every pair of bounds and every number of points", "why_tests_cant": "all bounds and counts", "anchors": ["src/support/Utils.cpp:linear_spaced_array"]}
{"id": "C46", "title": "The power-of-two test is exact", "statement": "The size test accepts exactly the powers of two, for every size.", "quantifier": "every size", "why_tests_cant": "sizes are unbounded", "anchors": ["src/support/Utils.cpp:is_size_power_of_2"]}
{"id": "C47", "title": "Proposed patterns cover every order of three isolation sides", "statement": "For windings on three isolation sides, the first winding being on the lowest of them, every order of the sides is visited by some proposed pattern, read in one of the two directions (an ideal winding is symmetric under reversal), unless the core is a toroid.", "quantifier": "every number of windings and every assignment of them to three isolation sides", "why_tests_cant": "the permutations start from whatever order the sides are first used in, and any number of windings can share a side", "anchors": ["src/constructive_models/Coil.cpp:Coil::get_patterns"]}
{"id": "C48", "title": "References become safe subcircuit names", "statement": "Sanitising a reference gives a name of the same length made only of letters, digits and underscores, keeps every character that was already allowed, and sanitising again changes nothing.", "quantifier": "every byte string", "why_tests_cant": "a test fixes a handful of names; the exporters use it for arbitrary user references in any encoding", "anchors": ["src/support/Utils.cpp: fix_filename", "src/processors/CircuitSimulatorNgspice.cpp", "src/processors/CircuitSimulatorLtspice.cpp"]}
{"id": "C49", "title": "A setting reads as it was last set", "statement": "After any sequence of setter calls every setting reads as the value of the last call of its own setter that was not refused, or its previous value if there was none; the two checked setters refuse values below their bound and change nothing.", "quantifier": "every setting and every sequence of setter calls with any values", "why_tests_cant": "more than a hundred settings, and any of them could be written by the wrong setter or read by the wrong getter", "anchors": ["src/support/Settings.cpp:Settings"]}
{"id": "C50", "title": "Merging a library keeps the built-in entries it does not redefine", "statement": "While a library scope in Merge mode is active, every built-in entry that could be found before and that the library does not redefine can still be found.", "quantifier": "every catalog state, library and sequence of lookups", "why_tests_cant": "catalog contents and the order of loading and scoping are arbitrary", "anchors": ["src/support/LibraryContext.cpp:LibraryContext::Scope::Scope", "src/support/Utils.cpp:find_wire_by_name"]}
{"id": "C51", "title": "A library in Replace mode is the only source of entries", "statement": "While a library scope in Replace mode is active, lookups return entries of the library only; kinds it does not provide are empty.", "quantifier": "every catalog state, library and sequence of lookups", "why_tests_cant": "arbitrary catalog contents and lookups that load on demand", "anchors": ["src/support/LibraryContext.cpp:LibraryContext::Scope::Scope", "src/support/LibraryContext.h:LibraryContext::Scope::anyActive"]}
{"id": "C52", "title": "Records refused while loading are not served", "statement": "A core or core shape that loading refuses as corrupt is never returned by a later lookup, whatever sequence of loading, clearing and lookups follows.", "quantifier": "every file content and history of calls, failing calls included", "why_tests_cant": "histories are unbounded and include calls that fail half way", "anchors": ["src/support/Utils.cpp:load_cores", "src/support/Utils.cpp:load_core_shapes"]}
{"id": "C53", "title": "Loading the same file twice is loading it once", "statement": "Loading a catalog file a second time leaves the catalogs as after the first time, and lookups answer the same.", "quantifier": "every file content and catalog state", "why_tests_cant": "arbitrary file contents, with repeated names and aliases", "anchors": ["src/support/Utils.cpp:load_cores", "src/support/Utils.cpp:load_core_shapes", "src/support/Utils.cpp:load_wires"]}
{"id": "C54", "title": "After preloading, frozen databases answer every lookup", "statement": "Once all databases have been loaded, freezing them makes no difference to the answer of any lookup, and no lookup is refused because of the freeze.", "quantifier": "every catalog content and lookup", "why_tests_cant": "every lookup function has to be free of lazy loading in this state", "anchors": ["src/support/Utils.cpp:load_all_databases", "src/support/Utils.cpp:set_databases_frozen"]}
{"id": "C55", "title": "Higher working voltages never ask for less insulation", "statement": "Raising the working voltages of a design, everything else equal, never lowers the withstand voltage, the distance through insulation, the clearance or the creepage distance required.", "quantifier": "every design, every pair of ordered working voltages, every table whose values do not decrease (the bundled tables are shown to be so)", "why_tests_cant": "the requirement is a maximum over several tables with their own ends and branches over continuous voltages; a fall happens only where one table ends", "anchors": ["src/constructive_models/Insulation.cpp:InsulationCoordinator::calculate_withstand_voltage", "src/constructive_models/Insulation.cpp:InsulationCoordinator::calculate_clearance", "src/constructive_models/Insulation.cpp:InsulationIEC61558Model::calculate_clearance_over_30kHz"]}
{"id": "C56", "title": "Voltage coverage by the wires is symmetric, falls with the voltage and needs a sufficient breakdown voltage", "statement": "The number of times two wires cover a voltage does not depend on their order, never increases with the voltage, and is positive only if one of the wires has a breakdown voltage above it.", "quantifier": "every pair of wires, coating, voltage and permission of fully insulated wire", "why_tests_cant": "two copies of the same code, one per wire, over optional coatings, strands, layers and grades", "anchors": ["src/constructive_models/Insulation.cpp:times_withstand_voltage_is_covered_by_wires"]}
{"id": "C57", "title": "The multi-column network reproduces the lumped core", "statement": "When every gap is on the main column, the network shows a winding on the main column exactly the lumped reluctance of the core plus its gaps, so windings that are all on the main column are coupled ideally: L_ij = N_i N_j / (R_core + sum of gaps).", "quantifier": "every core geometry, number of columns, core reluctance, gap reluctances and turns", "why_tests_cant": "the calibration has to be exact for every geometry; tests compare a few shapes within a tolerance", "anchors": ["src/physical_models/ReluctanceNetwork.cpp:ReluctanceNetwork", "src/physical_models/ReluctanceNetwork.cpp:calculate_magnetizing_inductance_matrix"]}
{"id": "C58", "title": "More reluctance never gives more inductance", "statement": "Raising the reluctance of any gap, or of the core, on any column never raises the self-inductance of any winding, and a winding on the main column never has more inductance than the ungapped core gives it.", "quantifier": "every core, column of the gap, column of the winding and pair of gap reluctances", "why_tests_cant": "a monotonicity claim over real values and arbitrary networks", "anchors": ["src/physical_models/ReluctanceNetwork.cpp:ReluctanceNetwork", "src/physical_models/ReluctanceNetwork.cpp:calculate_magnetizing_inductance_matrix"]}
{"id": "C59", "title": "Windings are attributed to one column the core has", "statement": "Each winding is attributed to exactly one existing column: the main one when neither the winding nor its sections name a window, else the column of the named window; a winding whose sections lie on two columns or whose window does not exist is refused, nothing else is, and the multi-column model is chosen exactly when a winding is off the main column.", "quantifier": "every core, list of windings and list of sections", "why_tests_cant": "arbitrary numbers of windings, windows and sections, with placements given at either level", "anchors": ["src/physical_models/ReluctanceNetwork.cpp:resolve_winding_column_indexes", "src/physical_models/ReluctanceNetwork.cpp:has_non_main_placement", "src/constructive_models/Core.cpp:get_winding_window_column_index"]}
{"id": "C60", "title": "A created waveform spans exactly one period with the requested swing and mean", "statement": "For every named shape, positive frequency, duty cycle in [0,1], offset and admissible dead time, the created waveform starts at time zero, its times never go back, it ends exactly at one period, its samples span exactly the requested peak to peak (shapes without a zero level), and its mean over the period is the one its description gives.", "quantifier": "all labels, peak-to-peak values, frequencies, duty cycles, offsets, dead times and sample counts", "why_tests_cant": "Tests create a few shapes at typical duty cycles; ordering of the times and the mean depend on continuous parameters and only break in part of their range (for instance the bipolar rectangle above one half).", "anchors": ["src/processors/WaveformProcessor.cpp:create_waveform"]}
{"id": "C61", "title": "Resampling keeps the waveform", "statement": "Resampling a timed waveform gives a power-of-two (or the requested) number of equidistant samples over one period, each of which lies on the piecewise linear curve of the original, never beyond its extremes; it does not depend on the frequency passed when the waveform has times; it succeeds whenever the waveform starts at time zero.", "quantifier": "all waveforms with ordered times, all frequencies and sample counts", "why_tests_cant": "Whether every sample instant is found in some segment depends on the rounding of the period against the last time, on repeated times and on where the waveform starts.", "anchors": ["src/processors/WaveformProcessor.cpp:calculate_sampled_waveform"]}
{"id": "C62", "title": "Parameters of a created waveform are recovered from it", "statement": "Processing a waveform created from a label, peak to peak, offset and duty cycle returns the same label, peak to peak, offset and duty cycle, and creating a waveform from the processed data gives the same samples again.", "quantifier": "all labels with corners, peak-to-peak values, offsets, frequencies, duty cycles", "why_tests_cant": "The duty cycle and offset are read off particular corner indexes per label; equality must hold for all continuous parameters, and fails for offsets and dead times tests do not combine.", "anchors": ["src/processors/WaveformProcessor.cpp:calculate_basic_processed_data", "src/processors/WaveformProcessor.cpp:try_guess_duty_cycle", "src/processors/WaveformProcessor.cpp:calculate_offset", "src/processors/WaveformProcessor.cpp:create_waveform"]}
{"id": "C63", "title": "The shape of an unlabelled waveform is recognised", "statement": "When the label of a created waveform is removed, guessing it again from the corners gives the shape it was created with, independently of amplitude and time scale.", "quantifier": "all labels with corners, peak-to-peak values, offsets, frequencies, duty cycles and sample counts", "why_tests_cant": "The classifier is an ordered chain of approximate comparisons with absolute thresholds; which branch wins depends on continuous parameters.", "anchors": ["src/processors/WaveformProcessor.cpp:try_guess_waveform_label"]}
{"id": "C64", "title": "Reported peaks, duty and average of processed waveforms are what the samples show", "statement": "The processed data of a waveform reports a peak-to-peak, positive peak, negative peak, duty cycle and average that agree with the points of the waveform: the extremes are those of the points, the duty cycle is a fraction between 0 and 1, and the average lies between the extremes.", "quantifier": "every waveform with ordered times (or equally spaced samples), every label", "why_tests_cant": "tests check a handful of shapes at chosen duty cycles; the claim is over every list of points", "anchors": ["src/processors/WaveformProcessor.cpp: calculate_basic_processed_data", "src/processors/WaveformProcessor.cpp: try_guess_duty_cycle"]}
{"id": "C65", "title": "The fast transform is the discrete Fourier transform", "statement": "For every number of samples that is a power of two (from 2 up to 2^31) the in-place fast transform leaves in position k exactly the sum over j of x_j exp(-2 pi i j k / n); the energy of the result is n times the energy of the samples; harmonics of any other number of samples above zero are refused with an error instead of computed.", "quantifier": "every power of two length up to 2^31 and every vector of complex samples", "why_tests_cant": "a test compares a few vectors of one or two lengths with a tolerance; correctness of bit reversal and butterflies must hold at every length and for every vector", "anchors": ["src/processors/WaveformProcessor.cpp: fft", "src/processors/WaveformProcessor.cpp: calculate_harmonics_data"]}
{"id": "C66", "title": "Harmonics carry the waveform's content and nothing else", "statement": "The untrimmed harmonics of n samples are n/2 amplitudes at the multiples 0, 1, 2, ... of the frequency; the first is the size of the mean and the others the size of the Fourier components; their total power is that of the samples minus that at half the sampling frequency, so none is invented; a sinusoid is found at its own harmonic with its own amplitude whatever its phase; scaling the samples scales the amplitudes and starting the period at another instant leaves them alone.", "quantifier": "every power of two length from 2 to 2^31, every vector of real samples, every sinusoid, scale and time shift", "why_tests_cant": "tests take specific shapes (sinusoid, square) at one length; the identities range over all sample vectors and lengths", "anchors": ["src/processors/WaveformProcessor.cpp: calculate_harmonics_data"]}
{"id": "C67", "title": "Trimming keeps the harmonics that count and only those", "statement": "When trimming is asked for on a timed waveform with more points than the configured number, the result is, in increasing order and without repeats, the direct component, the fundamental, and exactly the harmonics whose amplitude times the root of their frequency is at least the threshold times that of every other; otherwise nothing is trimmed. A threshold of zero trims nothing.", "quantifier": "every list of harmonics and every non-negative threshold; every power of two number of samples", "why_tests_cant": "tests count the harmonics left of a few waveforms; the selection must be right for every spectrum and threshold", "anchors": ["src/processors/WaveformProcessor.cpp: calculate_harmonics_data", "src/processors/WaveformProcessor.cpp: get_main_harmonic_indexes"]}
{"id": "C68", "title": "Effective frequency, effective value and distortion agree with the waveform", "statement": "The effective frequency lies between the lowest and highest frequency that carry something, and leaving out the direct component never lowers it; average, effective value and peak come in that order; the effective value squared is the power in the harmonics (plus what lies at half the sampling frequency); the distortion is the non-negative ratio of the rest to the fundamental; none of them but the effective value depends on scale; for a sinusoid they are the textbook values.", "quantifier": "every list of harmonics, every list of samples, every sinusoid and power of two number of samples", "why_tests_cant": "tests compare figures of a few waveforms; the inequalities and identities range over all of them", "anchors": ["src/processors/WaveformProcessor.cpp: calculate_processed_data"]}
{"id": "C69", "title": "Taking a virtual solution back preserves what each physical winding sees", "statement": "Taking the excitations of a virtual magnetic back to the catalogue magnetic gives every physical winding exactly one excitation per operating point: a winding used by itself keeps the excitation of its virtual winding; windings in series share its current and divide its voltage by turns; windings in parallel share its voltage and divide its current; windings that are not used carry nothing.", "quantifier": "every coil, every recorded wiring, every list of operating points and excitations", "why_tests_cant": "tests look at one or two coils; wirings are exponential in the number of windings and excitations arbitrary", "anchors": ["src/advisers/MagneticCombinator.cpp: devirtualize_mas", "src/processors/Inputs.cpp: get_excitation_with_proportional_current", "src/processors/Inputs.cpp: get_excitation_with_proportional_voltage"]}
{"id": "C70", "title": "Turns wound on the same layer never overlap", "statement": "Whatever the alignment and the winding order, any two turns laid on the same layer of a rectangular window are at least a wire apart along the layer; on a toroid they are at least the wire's angle apart, to a nanodegree, whenever the layer's arc can hold them.", "quantifier": "every list of layers, alignment, order, style, wire size and number of turns", "why_tests_cant": "positions are accumulated turn by turn over any number of turns in four alignments and two orders", "anchors": ["src/constructive_models/Coil.cpp: wind_by_rectangular_turns", "src/constructive_models/Coil.cpp: wind_by_round_turns"]}
{"id": "C71", "title": "The layers of a section share out its turns exactly and are stacked one against the other", "statement": "A conduction section is always cut into layers when its size admits the wire: the layers hold whole turns, none is empty, they hold together exactly the turns of each parallel of the section, they are named after it in order, and each one touches the next (with the insulation between them) to a nanometre; the layers of the insulation sections hold no turn.", "quantifier": "every list of sections, wire, orientation, style, alignment, insulation and setting", "why_tests_cant": "the number of layers comes from floating quotients and two corrections, and the turns are shared out by rounding", "anchors": ["src/constructive_models/Coil.cpp: wind_by_rectangular_layers"]}
{"id": "C72", "title": "The sections of a winding window tile it from its edge and hold every turn", "statement": "The sections wound in a rectangular window start at its inner or top edge, each one touches the next without overlap or gap whatever the insulation between them, all are centred on the window, the sections of a winding are numbered from zero in wound order, and together they hold every turn of every parallel of every winding; if their sizes add up to no more than the window they all lie inside it.", "quantifier": "every window, orientation, list of windings, pattern of sections, insulation and margins", "why_tests_cant": "positions are accumulated section by section over arbitrary patterns of interleaved windings and skipped insulation", "anchors": ["src/constructive_models/Coil.cpp: wind_by_rectangular_sections"]}
{"id": "C73", "title": "Turns lie inside their layer, where its alignment says", "statement": "When a layer of a rectangular window can hold its turns they all lie inside it; centred turns have as much room on both sides, turns aligned to the inside or top (outside or bottom) touch that end of the layer, and spread turns touch both ends, all to two nanometres, whatever the number of turns, the order and the style.", "quantifier": "every list of layers, alignment, orientation, winding order, style and number of turns", "why_tests_cant": "the position of a turn is accumulated from a rounded start over any number of turns, in two orientations, four alignments and two directions", "anchors": ["src/constructive_models/Coil.cpp: wind_by_rectangular_turns", "src/constructive_models/Coil.cpp: compute_spread_turn_stations"]}
{"id": "C74", "title": "Layers wound in U go to and fro, layers wound in Z all start at the same end", "statement": "In a rectangular window wound in U every layer of a winding starts at the end where the previous layer of that winding finished, whatever the layers of other windings between them; wound in Z (without the real winding geometry) all layers start at the same end.", "quantifier": "every list of layers of any number of interleaved windings", "why_tests_cant": "the direction depends on a state carried per winding across any number of layers", "anchors": ["src/constructive_models/Coil.cpp: wind_by_rectangular_turns"]}
{"id": "C75", "title": "Core advice comes best first and no longer than asked for", "statement": "Asking the core adviser for n cores gives at most n designs, and their scores never rise along the list, for power and for interference suppression, over the cores in stock and over all standard cores.", "quantifier": "every set of candidate cores, every weight map, every outcome of the physical models on them, every n and every setting", "why_tests_cant": "The order has to survive any number of filters, cuts and re-sorts applied to any candidate set; tests fix a few operating points.", "anchors": ["src/advisers/CoreAdviserPipeline.cpp: filter_available_cores_power_application, filter_available_cores_suppression_application, filter_standard_cores_power_application, filter_standard_cores_interference_suppression_application, post_process_and_cut", "src/advisers/CoreAdviser.cpp: sort_magnetics_by_scoring"]}
{"id": "C76", "title": "Weights never let an unfit core through", "statement": "Every design the core adviser returns is made of a candidate of the catalog that is big enough, stores the energy, could be given turns and gap, does not saturate, and passes fringing, cost and dimensions, whatever the weights; the saturation margin is relaxed only when no candidate meets it, and the design then says so.", "quantifier": "every candidate set, weight map (zero, negative or missing weights included), margin, pruning setting and outcome of the physical models", "why_tests_cant": "It is a statement about all weights and all candidate sets, including those where the retries are taken.", "anchors": ["src/advisers/CoreAdviserPipeline.cpp:360-519, 521-655, 657-912", "src/advisers/CoreAdviserFilters.cpp: evaluate_and_cull", "src/advisers/CoreAdviserGapping.cpp: reject_winding_killing_gaps"]}
{"id": "C77", "title": "Weights and catalog order only reorder the advice", "statement": "With pruning off and room for every candidate, changing the weights of the filters (without switching efficiency on or off) or permuting the catalog changes the order of the designs advised, not which designs they are; and a weight that is left out means the same everywhere.", "quantifier": "every pair of weight maps, every permutation of every candidate set", "why_tests_cant": "Relates two runs for all weights; tests compare a handful of weight maps.", "anchors": ["src/advisers/CoreAdviserPipeline.cpp:360-519, 703-706", "src/advisers/CoreAdviserFilters.cpp"]}
{"id": "C78", "title": "Fewer designs than asked for means there are no more", "statement": "When the core adviser returns fewer designs than asked for, every fit candidate whose design can be completed is among them.", "quantifier": "every candidate set, number of results, weight map and setting", "why_tests_cant": "A missing design is invisible in a test unless the whole catalog is enumerated and judged separately.", "anchors": ["src/advisers/CoreAdviserPipeline.cpp:360-519 (preLossCap), post_process_and_cut", "src/advisers/CoreAdviser.cpp:357-389"]}
{"id": "C79", "title": "Advising in batches ends and gives the same kind of answer", "statement": "Advising over a list of cores in batches terminates, covers every core once, and returns at most n designs, best first, each advised for its batch; the batch size does not change the advice.", "quantifier": "every list of cores, every batch size and number of results", "why_tests_cant": "Depends on all batch sizes, zero included, and on comparing runs.", "anchors": ["src/advisers/CoreAdviser.cpp:322-355"]}
{"id": "C80", "title": "One unfit candidate does not end the call", "statement": "As long as the measurements of every candidate are either a verdict with a positive score or a reported infeasibility, the core adviser returns an answer: no exception and no undefined behaviour, in all four pipelines.", "quantifier": "every candidate set, weight map, setting and outcome of the measurements of that kind", "why_tests_cant": "The failures are in combinations of candidates (equal logarithms, a throwing evaluation in the middle of a list) a test has to guess.", "anchors": ["src/advisers/CoreAdviserFilters.cpp:51-121", "src/advisers/CoreAdviserGapping.cpp:402-470", "src/advisers/CoreAdviserPipeline.cpp:315-358", "src/support/Utils.cpp:3067-3117"]}
{"id": "C81", "title": "Asking for advice leaves the catalog as it was", "statement": "After a call of the core adviser the caller's list of cores (the loaded catalog when none is given) is unchanged, so a second identical call sees the same cores.", "quantifier": "every list of cores, request and setting", "why_tests_cant": "A matter of histories: the second call has to be compared with the first for every catalog.", "anchors": ["src/advisers/CoreAdviser.cpp:357-389", "src/advisers/CoreAdviserDataset.cpp:444-494"]}
{"id": "C82", "title": "Unique shapes means unique shapes", "statement": "With unique core shapes asked for, no two designs of the advice are made of candidates of the same shape.", "quantifier": "every candidate set, request and pipeline", "why_tests_cant": "Must hold for any candidate list and any failures of post-processing in between.", "anchors": ["src/advisers/CoreAdviserPipeline.cpp:315-358"]}
{"id": "C83", "title": "Log lines are never torn or mixed", "statement": "Whatever number of threads call Logger::log, setLevel, addSink, clearSinks and read_log at once, the text of every sink - string sink, file, standard output, standard error - is at every moment a sequence of whole lines \"[time] [LEVEL] [module] message\", each coming from one log call, followed by at most the beginning of one more line.", "quantifier": "every program of calls per thread, any number of threads, every interleaving of their individual writes, every moment, every sink", "why_tests_cant": "Interleavings of the fragments of a line are scheduler dependent; a test sees a handful of them.", "anchors": ["src/support/Logger.h: Logger::log, ConsoleSink::write, FileSink::write, StringSink::write"]}
{"id": "C84", "title": "All sinks tell the same story, and no accepted entry is lost", "statement": "With a fixed set of sinks and level, when all calls have returned every sink shows exactly the entries at or above its threshold, the same for all sinks and in the same order; that order keeps each thread's own order, and every accepted log call of every thread is there exactly once.", "quantifier": "every program of log calls per thread, every interleaving, every set of sinks", "why_tests_cant": "Losing or duplicating an entry needs a particular interleaving.", "anchors": ["src/support/Logger.h: Logger::log", "src/support/Logger.h: sinks_, mutex_"]}
{"id": "C85", "title": "read_log returns each log entry once", "statement": "Every log entry accepted after the first read_log is returned by exactly one later read_log, in order.", "quantifier": "every sequence of calls of one thread (holds until clearSinks); every interleaving of several threads (does not hold: an entry logged between the two halves of read_log is lost, two concurrent readers both return an entry, and clearSinks makes read_log deaf for ever)", "why_tests_cant": "The loss needs a log call in the window between getContents and clear.", "anchors": ["src/support/Utils.cpp: read_log, logEntry", "src/support/Logger.h: StringSink::getContents, StringSink::clear"]}
{"id": "C86", "title": "Nothing below the level is logged", "statement": "Once the level is at least F, no call is in progress and nobody lowers the level, log calls below F change no sink.", "quantifier": "every reachable state, every continuation by any number of threads (a call in progress when setLevel returns still writes, and the first read_log lowers ERROR, CRITICAL and OFF to WARNING: both refuted)", "why_tests_cant": "The check and the write are separated by a lock: what slips through depends on the schedule.", "anchors": ["src/support/Logger.h: Logger::log, Logger::setLevel", "src/support/Utils.cpp: read_log"]}
{"id": "C87", "title": "Logging never deadlocks and every call returns", "statement": "As long as some thread has calls left, some thread can go on; any schedule of finitely many threads ends after a number of steps fixed by the program, with every call returned.", "quantifier": "every program of calls per thread, every schedule, every reachable state", "why_tests_cant": "A deadlock between the logger's mutex, a string sink's mutex and the once flag needs a particular schedule; termination is about all of them.", "anchors": ["src/support/Logger.h: Logger::log, StringSink", "src/support/Utils.cpp: read_log (std::call_once)"]}
{"id": "C88", "title": "The logger has no data race", "statement": "No two threads are ever about to access the same unprotected location (the vector of sinks, the text of a sink, a console or file stream).", "quantifier": "every program of calls per thread, every reachable state, every pair of threads", "why_tests_cant": "A race detector only sees the executed schedules.", "anchors": ["src/support/Logger.h: Logger, StringSink", "src/support/Utils.cpp: read_log"]}
{"id": "C89", "title": "The current of a winding divides over its parallel conductors by their resistances", "statement": "For every coil with distinct winding names whose ohmic losses are computed, every turn of a winding that carries current reports a share in (0, 1] such that the share times the resistance of its conductor (turns and leads) equals the reported resistance of the winding; the shares of the conductors of a winding add up to one; without current the shares and the losses are zero.", "quantifier": "every coil, operating point and temperature; every turn, winding and conductor", "why_tests_cant": "The equality of voltage drops has to hold for any number of windings, conductors, turns and lead lengths.", "anchors": ["src/physical_models/WindingOhmicLosses.cpp: calculate_ohmic_losses, calculate_dc_resistance_per_meter"]}
{"id": "C90", "title": "Ohmic losses are accounted for: turns, leads, windings and total agree", "statement": "A winding dissipates the square of its RMS current times its reported resistance, which is that of its conductors in parallel and the one the DC resistance call reports; a turn dissipates the square of its share of the current times its own ohms; the total is the sum over the windings, and it is the sum over the turns plus what the leads dissipate, exactly the sum over the turns without leads.", "quantifier": "every coil with distinct winding names, every operating point and temperature", "why_tests_cant": "Conservation of losses is an identity over arbitrary turn lengths, shares and leads.", "anchors": ["src/physical_models/WindingOhmicLosses.cpp: calculate_ohmic_losses, calculate_dc_resistance_per_winding"]}
{"id": "C91", "title": "The reported division dissipates least, and resistances order as they must", "statement": "No other division of the winding current over its conductors dissipates less; a winding resists no more than any of its conductors; leads never lower its resistance; a hotter winding with a temperature coefficient that is not negative resists no less.", "quantifier": "every coil, every alternative division of the current, every pair of temperatures", "why_tests_cant": "A minimum over all divisions cannot be sampled.", "anchors": ["src/physical_models/WindingOhmicLosses.cpp: calculate_ohmic_losses, calculate_dc_resistance_per_winding", "src/physical_models/Resistivity.cpp: get_resistivity"]}
{"id": "C92", "title": "Coils are accepted when every conductor has copper and refused with an exception otherwise", "statement": "If every turn belongs to a conductor of a winding and has a length, wires conduct, leads are measured and every conductor has copper in turns or leads, both the ohmic losses and the DC resistances are computed; if some conductor has none, both calls throw.", "quantifier": "every coil, operating point and temperature", "why_tests_cant": "Acceptance and refusal must be exact over all shapes of coils.", "anchors": ["src/physical_models/WindingOhmicLosses.cpp: calculate_ohmic_losses, calculate_dc_resistance_per_winding"]}
{"id": "C93", "title": "Winding losses by turn, layer, section and winding agree, part by part", "statement": "After all the stages of the winding loss calculation, ohmic, skin effect and proximity effect losses summed over turns equal those summed over conduction layers, over conduction sections and over windings; there is one element per turn, in order; the total is the sum of all parts of all turns, more with leads; skin and proximity stages leave ohmic losses, resistances and shares unchanged.", "quantifier": "every coil whose turns are shared out over its layers, sections and windings; every skin effect and proximity effect model", "why_tests_cant": "The identity is over arbitrary coils and arbitrary loss models.", "anchors": ["src/physical_models/WindingLosses.cpp: calculate_losses, combine_turn_losses", "src/physical_models/WindingSkinEffectLosses.cpp: calculate_skin_effect_losses", "src/physical_models/WindingProximityEffectLosses.cpp: calculate_proximity_effect_losses"]}
{"id": "C94", "title": "Leads are charged once and as recorded", "statement": "The length of lead charged to a conductor is its share of the lengths given for the winding plus the lengths of the connections routed for it; the lengths given for a winding are charged in full and once; the ideal geometry charges none; a planar coil with real geometry is refused.", "quantifier": "every coil with distinct winding names", "why_tests_cant": "Charging once has to hold for any mix of given and routed connections and any number of conductors.", "anchors": ["src/physical_models/WindingOhmicLosses.cpp: calculate_connection_length_per_winding_per_parallel"]}
{"id": "C95", "title": "The resistance matrix is symmetric and predicts the losses", "statement": "For losses that are a quadratic form of the winding currents, the resistance matrix of a coil with distinct winding names is symmetric, its entries are those of the symmetric form whatever the non-zero current ratios used to measure it, and it gives back the losses of any currents.", "quantifier": "every quadratic form, number of windings, set of ratios and currents", "why_tests_cant": "Independence of the measuring ratio is for all ratios and all forms.", "anchors": ["src/physical_models/WindingLosses.cpp: calculate_resistance_matrix"]}
{"id": "C97", "title": "Pruning a signal keeps the heavy harmonics and nothing else", "statement": "Pruning the harmonics of a signal keeps its first one (DC) and exactly those whose amplitude times the root of their frequency is at least the threshold times that of every other, in order and with amplitude and frequency unchanged; up to a threshold of one the heaviest is never dropped; pruning twice is the same as once; a signal without harmonics is refused.", "quantifier": "every signal, threshold not negative and square root", "why_tests_cant": "Which harmonics survive is a statement about all spectra, including ties, negative amplitudes and zero thresholds.", "anchors": ["src/processors/Inputs.cpp: prune_harmonics(SignalDescriptor)", "src/support/Utils.cpp: get_main_harmonic_indexes"]}
{"id": "C98", "title": "Pruning an operating point leaves all windings with the same harmonics", "statement": "After pruning an operating point all windings have the same number of harmonics for each kind of signal, and the same frequencies if they had a common grid: the first, and those heavy in some winding; each winding keeps its own line or gets one without amplitude. Windings, frequencies and everything else are unchanged, and a kind of signal that some winding lacks is not touched.", "quantifier": "every number of windings, spectra of any length and threshold not negative", "why_tests_cant": "Alignment is about the union over any number of windings with spectra of different lengths.", "anchors": ["src/processors/Inputs.cpp: prune_harmonics(OperatingPoint)"]}
{"id": "C99", "title": "The mesh of a coil has one field per heavy harmonic, with the currents of the turns", "statement": "The inducing mesh has one field for each harmonic heavy in some winding, in increasing order, with the frequency of the harmonic and, for each turn, the points of its wire scaled by the peak of the harmonic in its winding, its share of the current and its direction; the induced mesh has the same frequencies in the same places with the points of all the turns. For a positive threshold the search for the harmonics ends.", "quantifier": "every operating point, coil, threshold not negative and model of a turn", "why_tests_cant": "The walk over the map grows the map it walks over; that it visits every harmonic once and ends is an invariant over all sets of indexes.", "anchors": ["src/support/CoilMesher.cpp: get_common_harmonic_indexes, generate_mesh_inducing_coil, generate_mesh_induced_coil"]}
{"id": "C96", "title": "Skin and proximity losses of each turn and lead are those of its share of each harmonic", "statement": "The skin effect losses of a turn are, for each harmonic of the pruned current of its winding after the first, what the model of its wire gives per metre for the harmonic's amplitude times the turn's share of the current, times its length; its proximity losses are those of the field at the turn times its length, half the length for each crossing. The total is the ohmic losses plus those of all turns plus the skin losses of the leads of all conductors, each at the share of its conductor and its own length.", "quantifier": "every coil, operating point, temperature, skin model and field", "why_tests_cant": "The sums run over any number of turns, conductors, leads and harmonics; a swapped factor or index can cancel in the examples of a test.", "anchors": ["src/physical_models/WindingSkinEffectLosses.cpp: calculate_skin_effect_losses, calculate_skin_effect_losses_per_meter", "src/physical_models/WindingProximityEffectLosses.cpp: calculate_proximity_effect_losses", "src/physical_models/WindingLosses.cpp: calculate_losses"]}
{"id": "C100", "title": "The inversion of an inductance matrix is exact or refused", "statement": "For every square matrix, the inversion used for the transformer models either returns the two-sided inverse (both products with the matrix are the unit matrix) or throws, and it throws exactly for the matrices that send some non-zero vector to zero. The inverse is unique, that of a symmetric matrix is symmetric, and a positive definite matrix is always inverted, with a positive definite inverse.", "quantifier": "every size and every square matrix, whatever rows have to be exchanged on the way", "why_tests_cant": "A test inverts a few matrices of two or three windings; that pivoting, scaling and elimination never lose the inverse, and that singular matrices are all recognised, is a statement on all sizes and entries.", "anchors": ["src/physical_models/ExtendedCantilever.cpp: invert_matrix"]}
{"id": "C101", "title": "The extended cantilever model stands for the inductance matrix it was built from", "statement": "When the model is built from a leakage matrix, a magnetizing inductance and turns ratios, every effective leakage inductance is non-zero and gives back the entry of the inverse inductance matrix for its pair of windings, and a symmetric leakage matrix gives symmetric leakage inductances. The build is refused exactly when there is no winding, the magnetizing inductance is not positive, the inductance matrix is singular or a pair of windings has no coupling in the inverse. The inverse diagonal and the short-circuit output inductance reported from the model are the true ones for every winding if and only if the leakage matrix is zero in the column of the reference winding; otherwise they are wrong, also for a symmetric positive definite leakage matrix.", "quantifier": "every number of windings, leakage matrix, magnetizing inductance, turns ratios and winding index", "why_tests_cant": "The identity between the reported and the true diagonal depends on all entries of the leakage matrix; tests use leakage matrices where the reference column is small and compare with a tolerance.", "anchors": ["src/physical_models/ExtendedCantilever.cpp: ExtendedCantilever::build_from_leakage_matrix", "src/physical_models/ExtendedCantilever.cpp: ExtendedCantilever::inverse_inductance_diagonal", "src/physical_models/ExtendedCantilever.cpp: ExtendedCantilever::short_circuit_output_inductance", "src/physical_models/ExtendedCantilever.h: ExtendedCantileverModel"]}
{"id": "C102", "title": "The leakage inductance matrix is the field energy, for any currents", "statement": "For a magnetic whose core and bobbin are processed, whose bobbin has a column width and whose window grid has points, calculate_leakage_inductance_matrix returns a square symmetric matrix with one row per winding such that, for any signed currents in all the windings at once, the energy calculate_leakage_field_energy reports is a quarter of the quadratic form of the matrix. With grid points outside the column, the matrix is passive: no currents give a negative value, diagonal entries are not negative and no mutual entry exceeds the geometric mean of the two diagonal ones. A current list of the wrong size, an unprocessed core or bobbin, a missing column width or an empty mesh are rejected.", "quantifier": "every number of windings, every mesh of filaments and grid points, every field kernel, every list of signed currents", "why_tests_cant": "The matrix is computed from unit and pair excitations only; that it predicts the energy of every other combination of currents needs the bilinearity of the field over all meshes.", "anchors": ["src/physical_models/LeakageInductance.cpp: calculate_leakage_field_energy, calculate_leakage_inductance_matrix, integrate_leakage_energy", "src/physical_models/MagneticField.cpp: calculate_magnetic_field_strength_field"]}
{"id": "C103", "title": "The leakage inductance between two windings", "statement": "For two windings on one column, calculate_leakage_inductance equals the value of the leakage matrix for cancelling ampere-turns with the other windings open; it is not negative; and seen from the other winding it scales with the square of the turns. For windings on different columns it is what the source shows with the destination shorted in the network of reluctances, and is not negative; the turns-squared rule does not hold there (refuted), the ratio is that of the self inductances. The matrix by names holds these values with a zero diagonal.", "quantifier": "every magnetic with processed core and bobbin, every pair of distinct windings, any number of other windings", "why_tests_cant": "Consistency of the three ways to obtain a leakage inductance over all geometries and turns counts is an identity, not a set of samples.", "anchors": ["src/physical_models/LeakageInductance.cpp: calculate_leakage_inductance, calculate_leakage_inductance_all_windings, create_leakage_operating_point", "src/physical_models/Inductance.cpp: calculate_leakage_inductance_matrix"]}
{"id": "C104", "title": "The inductance matrix of a magnetic is symmetric, passive and consistent", "statement": "calculate_inductance_matrix gives, for windings with distinct names on the main column, the magnetizing inductance referred to both windings plus the leakage matrix; for windings on several columns, the entry of the network of reluctances plus the leakage of pairs that share a column. The result is symmetric whatever the names; any currents store non-negative energy; no mutual entry exceeds the geometric mean of the self entries; the diagonal is what calculate_self_inductance gives; the extended cantilever model uses the same matrix when all windings are on the main column and there are at least two (refuted otherwise); and the inductance seen with another winding shorted is the leakage inductance of the pair minus a term that is given exactly.", "quantifier": "every magnetic with processed core and bobbin, non-negative magnetizing inductance and gap reluctances, any placement of the windings on the columns", "why_tests_cant": "Passivity quantifies over all currents and must survive dropping the leakage of pairs on different columns; agreement of separate entry points must hold for every magnetic.", "anchors": ["src/physical_models/Inductance.cpp: calculate_inductance_matrix, calculate_self_inductance, magnetizing_coupling_matrix", "src/physical_models/ExtendedCantilever.cpp: calculate_inductance_matrix"]}
{"id": "C105", "title": "The coupling coefficient never exceeds one and never throws on a valid magnetic", "statement": "With a square root accurate to one part in ten million, calculate_coupling_coefficient answers for every pair of distinct windings of a valid magnetic with a value of magnitude at most 1 + 1e-6, so the energy-bound check inside it is unreachable; it does not depend on the order of the two windings; on one column it is not negative and its square is the squared referred magnetizing inductance over the product of the self inductances. calculate_mutual_inductance is the referred magnetizing inductance on one column and the network entry across columns; on one column it leaves out the mutual leakage that the inductance matrix includes (equality refuted). A winding with itself couples with 1 and has no mutual inductance.", "quantifier": "every valid magnetic, every pair of windings, every square root of the stated accuracy", "why_tests_cant": "The bound is over all geometries and placements and depends on the positivity of two different models at once.", "anchors": ["src/physical_models/Inductance.cpp: calculate_coupling_coefficient, calculate_mutual_inductance, calculate_self_inductance"]}
{"id": "C106", "title": "Thermal network: boundaries, bounds and heat balance", "statement": "When the thermal circuit of a component is solved, the ambient node and every fixed-temperature node end exactly at their imposed temperatures; no node ends below every boundary temperature if no loss is negative, and none above if there are no losses, so an unpowered component is at ambient temperature everywhere; if the result is converged, the heat that leaves each free node through the reported resistances equals its loss up to twice the tolerance times the conductances meeting there, and the reported radiation and convection resistances were evaluated at temperatures within the tolerance of the reported ones; the solver stops within the allowed iterations, never returns an unconverged result where convergence is required, and refuses a network with a part joined to no boundary.", "quantifier": "every network of nodes and resistances, every natural and forced convection correlation, every configuration", "why_tests_cant": "The statement ranges over all network topologies, loss distributions and convection correlations, and over every number of iterations of a nonlinear fixed point.", "anchors": ["src/physical_models/Temperature.cpp: Temperature::solveThermalCircuit", "src/physical_models/Temperature.cpp: Temperature::recalculateConvectionResistances", "src/physical_models/Temperature.cpp: SimpleMatrix::solve"]}
{"id": "C107", "title": "Thermal networks of constant resistances are linear", "statement": "A thermal network in which no resistance depends on temperature is settled within two iterations with an exact heat balance at every free node; all losses arrive at the ambient node; the temperatures are the only ones that satisfy the balance; more losses or warmer boundaries never cool any node; combined losses and boundary temperatures give the combined temperatures; and losses of one case weighted by the rises of another equal the converse (reciprocity).", "quantifier": "every network of conduction and heat sink resistances that the solver accepts, every pair or triple of loss and boundary assignments on it", "why_tests_cant": "Monotonicity, superposition and reciprocity relate every pair of inputs on every topology.", "anchors": ["src/physical_models/Temperature.cpp: Temperature::solveThermalCircuit", "src/physical_models/Temperature.cpp: SimpleMatrix::solve"]}
{"id": "C108", "title": "Figures of a thermal result", "statement": "The maximum temperature of a thermal result is that of the hottest node that is not the air, or ambient; each name is listed with the temperature of its node; the total thermal resistance times the total losses is the largest rise; the core and coil averages are the means over their nodes, ambient if there are none, and never exceed the maximum; the bulk resistance queried afterwards agrees with the one of the result; the temperature of a component type or of a turn is that of the hottest of its nodes, and the two halves of a toroidal turn share one entry.", "quantifier": "every network and configuration the solver accepts, every node name, category and turn", "why_tests_cant": "The figures must agree with each other for every set of nodes, names and temperatures.", "anchors": ["src/physical_models/Temperature.cpp: Temperature::solveThermalCircuit", "src/physical_models/Temperature.cpp: Temperature::getBulkThermalResistance", "src/physical_models/Temperature.cpp: Temperature::getTemperaturesByComponentType", "src/physical_models/Temperature.cpp: Temperature::getTemperaturePerTurn"]}
{"id": "C109", "title": "Cooling options, radiation and conductivity tables", "statement": "The radiation coefficient carries exactly the heat of the Stefan-Boltzmann law, is mutual, positive above absolute zero and increasing, and a view factor takes a share of it; the conductivity of a wire material stays within its table, equals it at its temperatures and its ends outside; a cooling description selects cold plate, forced air, heat sink or natural convection in this order of precedence; adding a heat sink, or a cold plate no warmer than its surroundings, to a network of constant resistances never makes any node hotter; an interface resistance given is the one used.", "quantifier": "all temperatures, emissivities and view factors, all tables in increasing order of temperature, all cooling descriptions, all networks with an ambient node and losses that are not negative", "why_tests_cant": "The comparison of a network with and without a heat sink or cold plate must hold for every network, loss distribution and interface.", "anchors": ["src/physical_models/ThermalResistance.cpp: ThermalResistance::calculateRadiationCoefficient", "src/physical_models/ThermalResistance.cpp: ThermalResistance::getWireMaterialThermalConductivity", "src/physical_models/Temperature.cpp: CoolingUtils::detectCoolingType", "src/physical_models/Temperature.cpp: Temperature::applyHeatsinkCooling", "src/physical_models/Temperature.cpp: Temperature::applyColdPlateCooling"]}
{"id": "C110", "title": "Air gap reluctances are physical", "statement": "For a gap with all its data and positive sizes, the reluctance model returns a positive reluctance no higher than the one without fringing, a fringing factor of at least one whose product with the reluctance is the one without fringing, and an energy equal to half the square of the saturation flux times the reluctance; outside their range Partridge and Balakrishnan refuse the gap rather than return a figure that is not positive; a gap without area is refused.", "quantifier": "every gap length, area, section, shape and distance to the next surface, every saturation flux density, all eight reluctance models", "why_tests_cant": "The formulas contain logarithms that change sign; bounds must hold on the whole continuous range of sizes.", "anchors": ["src/physical_models/Reluctance.cpp: ReluctanceZhangModel::get_gap_reluctance", "src/physical_models/Reluctance.cpp: ReluctanceMuehlethalerModel::get_gap_reluctance", "src/physical_models/Reluctance.cpp: ReluctancePartridgeModel::get_gap_reluctance", "src/physical_models/Reluctance.cpp: ReluctanceStengleinModel::get_gap_reluctance", "src/physical_models/Reluctance.cpp: ReluctanceBalakrishnanModel::get_gap_reluctance", "src/physical_models/Reluctance.h: get_gap_maximum_storable_energy"]}
{"id": "C111", "title": "Air gap reluctance follows the sizes of the gap", "statement": "A longer gap has a higher reluctance; more room around a gap never raises its reluctance; a gap enlarged k times in every direction has k times less reluctance, the same fringing factor and stores k cubed times the energy, and is refused exactly when the original is.", "quantifier": "every pair of lengths or distances, every scale factor, every gap, all reluctance models within their stated ranges", "why_tests_cant": "These are relations between all pairs of gaps on a continuous range.", "anchors": ["src/physical_models/Reluctance.cpp: ReluctanceZhangModel::get_gap_reluctance", "src/physical_models/Reluctance.cpp: ReluctanceEffectiveAreaModel::get_gap_reluctance", "src/physical_models/Reluctance.cpp: ReluctanceStengleinModel::get_gap_reluctance"]}
{"id": "C112", "title": "Reluctance of a gapped core", "statement": "The reluctance of a core is that of its material plus its gaps on the main column in series plus the gaps of the other columns in parallel; it is never below that of the ungapped core; it does not depend on the order of the gaps; raising the reluctance of any gap never lowers it; the fringing factor reported is the highest of the gaps and at least one; stored energies add; the saturation does not enter the reluctances.", "quantifier": "every core with any number of gaps on any columns, every permutation of them, all reluctance models", "why_tests_cant": "Any number of gaps, in any order, on any columns.", "anchors": ["src/physical_models/Reluctance.cpp: ReluctanceModel::get_gapping_reluctance", "src/physical_models/Reluctance.cpp: ReluctanceModel::get_core_reluctance"]}
{"id": "C113", "title": "Magnetic energies agree with reluctances and inductances", "statement": "The energy a gap can store is half the square of the saturation flux times its reluctance, and the gap length for that energy is its own; the permeability for the energy of an ungapped core is its own; the energy of a gapped core is L I^2 / 2 at the current that saturates it; the gap length against saturation brings the flux density to the target; the required energy is that of the highest peak current of all operating points at the minimum, nominal and maximum inductance, in order; an operating point without magnetizing current is an error.", "quantifier": "every gap, core, number of turns, saturation, list of operating points and inductance requirement", "why_tests_cant": "Round trips and orderings over continuous ranges and lists of any length.", "anchors": ["src/physical_models/MagneticEnergy.cpp: MagneticEnergy::get_gap_maximum_magnetic_energy", "src/physical_models/MagneticEnergy.cpp: MagneticEnergy::calculate_gap_length_by_magnetic_energy", "src/physical_models/MagneticEnergy.cpp: MagneticEnergy::calculate_core_maximum_magnetic_energy", "src/physical_models/MagneticEnergy.cpp: MagneticEnergy::calculate_gap_length_by_saturation_constraint", "src/physical_models/MagneticEnergy.cpp: MagneticEnergy::calculate_required_magnetic_energy"]}
{"id": "C114", "title": "Turns found for an inductance", "statement": "The number of turns calculated from a gapped core and a required inductance is at least one, and keeps the present turns when no inductance is required. When the inductance goes with the square of the turns, a required minimum is met with the fewest turns that reach it, a nominal value with a number of turns that no other one beats, and the turns of a given inductance are recovered from it, whatever the estimate the search starts from. When the inductance grows slower, because of bias, a minimum that up to 101 turns reach is met.", "quantifier": "every required inductance, every initial reluctance, every inductance as a function of the turns, both preferences", "why_tests_cant": "The search combines a rounded seed, at most six corrections and at most a hundred single steps; whether it stops at the right integer depends on all inductance curves and seeds, not on the few cores tested.", "anchors": ["src/physical_models/MagnetizingInductance.cpp:MagnetizingInductance::calculate_number_turns_from_gapping_and_inductance", "src/physical_models/MagnetizingInductance.cpp:MagnetizingInductance::calculate_turns_for_gap"]}
{"id": "C115", "title": "Gaps found by searching", "statement": "The gap calculated for an inductance is never below the residual gap and, when a gap of up to 84 mm gives the inductance, is within 5 um and half a unit of the last decimal of it or gives the reluctance to one in a thousand. The gap calculated against saturation keeps the flux density within the target. The gap calculated for a fringing factor lies between the residual gap and the column height, and gives the factor to one in a thousand or lies within a quarter of a micrometre of a gap that gives it; if no scanned gap crosses the factor, the closest scanned one is returned.", "quantifier": "every reluctance that grows with the gap, every continuous fringing factor, every number of turns, inductance, current, target and column height", "why_tests_cant": "The searches are bounded loops with step halving, rounding and bracketing; their convergence is a statement about all reluctance and fringing curves.", "anchors": ["src/physical_models/MagnetizingInductance.cpp:MagnetizingInductance::calculate_gapping_from_number_turns_and_inductance", "src/physical_models/MagnetizingInductance.cpp:MagnetizingInductance::calculate_gap_from_saturation_constraint", "src/physical_models/Reluctance.cpp:ReluctanceModel::get_gapping_by_fringing_factor"]}
{"id": "C116", "title": "Turns against saturation, alone and with the gap", "statement": "The turns calculated from volt-seconds or from a sinusoidal voltage are the fewest with which the reported flux density is within the limit, and the reported densities follow Faraday's law. The gap and turns calculated together keep the flux density within the limit; without fringing they are the fewest turns and the gap that gives the inductance exactly; the core is rejected exactly when that gap is longer than two fifths of the column width.", "quantifier": "every area, voltage, frequency, volt-seconds, limit, inductance, current, core reluctance and reluctance as a function of the gap", "why_tests_cant": "Optimality over all turn counts and correctness of every branch of the joint sizing cannot be sampled.", "anchors": ["src/physical_models/MagnetizingInductance.cpp:MagnetizingInductance::calculate_turns_from_volt_seconds_and_max_flux_density", "src/physical_models/MagnetizingInductance.cpp:MagnetizingInductance::calculate_turns_from_voltage_and_max_flux_density", "src/physical_models/MagnetizingInductance.cpp:MagnetizingInductance::calculate_flux_density_peak_from_voltage", "src/physical_models/MagnetizingInductance.cpp:MagnetizingInductance::calculate_optimal_gap_and_turns"]}
{"id": "C117", "title": "Inductance and flux density under bias", "statement": "The inductance and the flux density reported for an operating point agree: turns times flux equals inductance times current. Bias never raises the inductance of a material whose permeability falls with it, and more bias means no more inductance. Driven by a voltage, the swing of flux density is the volt-seconds over turns and area, whatever the core.", "quantifier": "every permeability as a function of bias, every reluctance as a function of permeability, every current and offset", "why_tests_cant": "Consistency of the two outputs has to hold for every material and bias; tests compare a few materials with measured inductances.", "anchors": ["src/physical_models/MagnetizingInductance.cpp:MagnetizingInductance::calculate_inductance_and_magnetic_flux_density"]}
{"id": "C118", "title": "Effective parameters are consistent or refused", "statement": "Whenever a core piece or a processed core reports effective parameters, length, area, volume and minimum area are positive and the volume is the length times the area. A piece whose legs, yoke or ring would have no section is refused, and no other drawing with positive letters is.", "quantifier": "every family but the drum and moulded ones, every table of dimensions, both standards, every material, number of stacks and stacking factor", "why_tests_cant": "Tests compare catalogue shapes with datasheets; user drawings range over a continuum of letters and the refusal has to be exact for all of them.", "anchors": ["src/constructive_models/CorePiece.cpp:CorePiece::process", "src/constructive_models/CorePiece.cpp:CorePieceE::get_shape_constants", "src/constructive_models/Core.cpp:Core::process_data"]}
{"id": "C119", "title": "The minimum area is a minimum", "statement": "The minimum area of a piece is not above its effective area; for an E it is the smallest of legs, yoke and post, the effective area lies between the smallest and the largest of them, and the effective volume is not above the volume of the sections it was computed from.", "quantifier": "every drawing that can be made (no negative letter, window inside the piece) of the families made of sections, both standards", "why_tests_cant": "An inequality between means over all proportions; tests check values of catalogue parts.", "anchors": ["src/constructive_models/CorePiece.cpp:CorePieceE::get_shape_constants", "src/constructive_models/CorePiece.cpp:CorePieceP::get_shape_constants"]}
{"id": "C120", "title": "Enlarging a drawing", "statement": "Multiplying every length of a drawing by k multiplies the effective length by k, the areas by k squared and the volume by k cubed, and never changes whether the piece is refused.", "quantifier": "every positive factor, every family but the drum and moulded ones, every table of dimensions, both standards", "why_tests_cant": "Dimensional consistency of every formula, including the angles and logarithms of RM, PQ, PM and P, has to hold for all letters and all factors.", "anchors": ["src/constructive_models/CorePiece.cpp:CorePiecePq::get_shape_constants", "src/constructive_models/CorePiece.cpp:CorePieceRm::get_shape_constants"]}
{"id": "C121", "title": "A plate instead of a second half", "statement": "A U, E or PQ piece closed by a plate as thick as its yoke has the effective parameters of two pieces with legs half as high, and a closed UT those of a UI with the same window.", "quantifier": "every table of dimensions of both constructions that describe the same circuit", "why_tests_cant": "Equality of two independently written formulas over all dimensions.", "anchors": ["src/constructive_models/CorePiece.cpp:CorePieceUi::get_shape_constants", "src/constructive_models/CorePiece.cpp:CorePieceEi::get_shape_constants", "src/constructive_models/CorePiece.cpp:CorePiecePqi::get_shape_constants"]}
{"id": "C122", "title": "The two standards of effective parameters", "statement": "For every family but E and the ring both standards give the same parameters. For an E the powder standard gives a length, an area and a volume not smaller than the other; for a ring its length lies between the inner and the mean circumference. A core is processed with the standard of its material whatever was set before.", "quantifier": "every drawing, every previous setting", "why_tests_cant": "Inequalities between means (Cauchy-Schwarz, logarithmic mean) over all dimensions, and independence of every earlier call.", "anchors": ["src/constructive_models/CorePiece.cpp:CorePiece::get_shape_constants_iec63182", "src/constructive_models/CorePiece.cpp:CorePieceT::get_shape_constants_iec63182", "src/constructive_models/Core.cpp:Core::process_data"]}
{"id": "C123", "title": "Processing a core", "statement": "The parameters of a core are those of its piece, doubled in length and volume for a set of two, times the stacking factor for tape-wound material and times the number of stacks. Processing it again changes nothing, and a refused piece leaves the core as it was.", "quantifier": "every piece, core type, material, number of stacks, and any number of repeated processings", "why_tests_cant": "Repetition is a history: tests process a core once.", "anchors": ["src/constructive_models/Core.cpp:Core::process_data", "src/constructive_models/Core.cpp:Core::scale_to_stacks"]}
{"id": "C124", "title": "Windows do not overlap columns", "statement": "Across the width of a core, columns and winding windows occupy disjoint places that together fill the width, symmetrically about the main column, also with one window per column.", "quantifier": "every E, U and C drawing", "why_tests_cant": "Non-overlap for every proportion; tests compare coordinates of given shapes.", "anchors": ["src/constructive_models/CorePiece.cpp:CorePieceE::process_winding_window", "src/constructive_models/CorePiece.cpp:CorePieceU::process_winding_window", "src/constructive_models/CorePiece.cpp:CorePieceC::process_columns", "src/constructive_models/Core.cpp:appendPerColumnWindingWindows"]}
{"id": "C125", "title": "Core loss coefficients come from the range of the frequency", "statement": "The Steinmetz coefficients used at a frequency are those of the first range of the material that holds it; below all ranges those of the lowest, above all ranges those of the highest. A frequency is refused only when it falls in a gap between ranges. The order in which ranges are listed changes nothing when they do not overlap.", "quantifier": "every list of ranges and every frequency", "why_tests_cant": "Materials come from user data with any number of ranges in any order, and the frequency is a real number: gaps, overlaps and shared bounds are found only by reasoning over all of them.", "anchors": ["src/physical_models/CoreLosses.cpp:424-471 get_steinmetz_coefficients"]}
{"id": "C126", "title": "The Steinmetz law is non-negative, zero at rest and grows with the excitation", "statement": "Losses by the Steinmetz law are never negative, are zero only without flux density, grow with the frequency and with the amplitude of the flux density, and are the ones at rest times the quadratic of the temperature when that is positive. Mirroring the waveform changes nothing.", "quantifier": "every datum with non-negative coefficients, every excitation and temperature", "why_tests_cant": "Order relations over all pairs of excitations cannot be sampled; the piece with beta above two and the temperature polynomial have cases that examples miss.", "anchors": ["src/physical_models/CoreLosses.cpp:853-895 CoreLossesSteinmetzModel::get_core_volumetric_losses", "src/physical_models/CoreLosses.h:122-136 apply_temperature_coefficients"]}
{"id": "C127", "title": "Every Steinmetz model follows the two power laws", "statement": "With the same coefficients, a flux density c times as large loses c to the beta times as much, and an excitation c times as fast loses c to the alpha times as much, by Steinmetz, iGSE, Albach, MSE, NSE and Barg alike.", "quantifier": "every c above zero, every excitation, waveform, temperature and datum", "why_tests_cant": "A scaling law relates each excitation to a continuum of others; a test compares a few numbers within a tolerance.", "anchors": ["src/physical_models/CoreLosses.cpp:853-895", "src/physical_models/CoreLosses.cpp:1016-1081", "src/physical_models/CoreLosses.cpp:1405-1478", "src/physical_models/CoreLosses.cpp:1519-1587", "src/physical_models/CoreLosses.cpp:1650-1696", "src/physical_models/CoreLosses.cpp:1736-1796"]}
{"id": "C128", "title": "Losses depend on the shape of the waveform, not on how it is written down", "statement": "When the record of the flux density is integrated whole, the losses by iGSE, ciGSE, Albach, MSE and NSE do not change if the waveform is delayed, raised by a constant, mirrored, played backwards or started at another of its samples, nor if a sample is added on a straight line. A vertical edge gives a finite value.", "quantifier": "every waveform of any number of samples, every material and temperature", "why_tests_cant": "The same physical waveform has infinitely many descriptions; equality over all of them needs a proof over lists of any length.", "anchors": ["src/physical_models/CoreLosses.cpp:1016-1081", "src/physical_models/CoreLosses.cpp:1405-1478", "src/physical_models/CoreLosses.cpp:1519-1587", "src/physical_models/CoreLosses.cpp:1650-1696"]}
{"id": "C129", "title": "No periodic waveform loses less than the triangle of its swing", "statement": "By iGSE, with alpha of one at least, every closed waveform of one period loses at least as much as the symmetric triangle of the same peak to peak and frequency.", "quantifier": "every closed waveform of any number of samples, every material, frequency of 400 Hz at least and temperature", "why_tests_cant": "It is a minimum over all waveforms.", "anchors": ["src/physical_models/CoreLosses.cpp:1016-1081"]}
{"id": "C130", "title": "The loss models agree where their formulas coincide", "statement": "Albach and MSE give the same value for every waveform that has a swing, iGSE and NSE for every waveform whose swing is twice its peak, ciGSE and iGSE for every excitation and every coefficients; for the samples of a sinusoid iGSE gives the value of Steinmetz times a factor that depends only on the number of samples and alpha.", "quantifier": "every excitation, every coefficients (loaded or of the material), every temperature and number of samples", "why_tests_cant": "Equality of two models for all waveforms is an algebraic fact; tests compare single numbers within tolerances.", "anchors": ["src/physical_models/CoreLosses.cpp:791-895", "src/physical_models/CoreLosses.cpp:959-1081", "src/physical_models/CoreLosses.cpp:1183-1289", "src/physical_models/CoreLosses.cpp:1405-1478", "src/physical_models/CoreLosses.cpp:1519-1587", "src/physical_models/CoreLosses.cpp:1627-1696"]}
{"id": "C131", "title": "A record of several cycles loses what one of its cycles loses", "statement": "When the record of the flux density covers more than one period, the losses are those of one period, whatever the number of cycles recorded and the number of samples in each.", "quantifier": "every periodic waveform, every number of samples per period, every number of recorded cycles", "why_tests_cant": "The rounding that picks the samples of one period depends on the number of samples and cycles; all pairs cannot be tried.", "anchors": ["src/physical_models/CoreLosses.cpp:1016-1081", "src/physical_models/CoreLosses.cpp:1405-1478", "src/physical_models/CoreLosses.cpp:1650-1696"]}
{"id": "C132", "title": "The loss model used is one the material has data for", "statement": "The losses of a core are computed with the preferred model when the material offers it, otherwise with the first of the fallback list it offers; the model chosen finds its coefficients; a material with no data is refused; and the data of the default variant are the ones used.", "quantifier": "every material, every content of the database, every preference and fallback list", "why_tests_cant": "What is offered depends on the combination of variants, method kinds and mass data of a material, whose combinations are unbounded, and on the database in the process.", "anchors": ["src/physical_models/CoreLosses.cpp:34-116", "src/physical_models/CoreLosses.cpp:400-421", "src/support/Settings.cpp:884-886"]}
{"id": "C133", "title": "The correction for a DC bias is between 1 and 10 and applied to all the figures", "statement": "The factor by which a DC bias raises the losses is at least 1 and at most 10, is 1 without bias or without bias data, does not depend on the sign of the bias, does not decrease with it when the permeability falls, and multiplies the total, the volumetric and the mass losses alike.", "quantifier": "every material, every permeability curve, every excitation and temperature, every loss model", "why_tests_cant": "The factor depends on an arbitrary permeability curve and the bias is a real number; consistency must hold for every model and kind of result.", "anchors": ["src/physical_models/CoreLosses.cpp:127-166", "src/physical_models/CoreLosses.cpp:268-322"]}
{"id": "C134", "title": "A semi-shielded drum loses what each of its materials loses in its own volume", "statement": "The losses of a core made of two materials are the sum of what each material loses over its own volume when both carry the same flux; when both are the same material the losses are those of the whole with the flux density of each part; the figures reported add up.", "quantifier": "every pair of materials and geometry constants, every excitation and temperature", "why_tests_cant": "The split depends on real geometry constants and the flux density scaling on the model chosen for each of the two materials.", "anchors": ["src/physical_models/CoreLosses.cpp:194-266"]}
{"id": "C135", "title": "Frequency and flux density are recovered from Steinmetz losses", "statement": "The flux density returned for given losses, frequency and volume has exactly those losses by the Steinmetz model, and asking with the losses of a flux density returns it; the frequency returned for given losses has those losses.", "quantifier": "every set of coefficient ranges, every frequency, flux density, temperature, volume and losses", "why_tests_cant": "The inverse iterates over ranges of real coefficients; whether it lands in a range consistent with its answer cannot be enumerated.", "anchors": ["src/physical_models/CoreLosses.cpp:2529-2602", "src/physical_models/CoreLosses.h:108-136"]}
{"id": "C136", "title": "The models of the manufacturers follow their equations and are inverted exactly", "statement": "The losses are those of the equation the library reports for the manufacturer, vanish without flux density, are positive and grow with the frequency and with the flux density; the frequency recovered from them is the original one.", "quantifier": "every set of positive coefficients of the four manufacturers, every frequency and flux density, every volume, mass and losses", "why_tests_cant": "Monotony and the round trip concern real frequencies, flux densities and coefficients.", "anchors": ["src/physical_models/CoreLosses.cpp:2356-2527", "src/physical_models/CoreLosses.cpp:2752-2816"]}
{"id": "C137", "title": "The searches return the best point tried, within one step of the answer", "statement": "For the models without a closed inverse, the frequency (flux density) returned is one of those tried and none of those tried has losses nearer to the ones asked for; when losses grow with it and the answer is within the range of the search, the result is less than one step of 5 kHz (5 mT) away, and exact when the answer is one of those tried.", "quantifier": "every loss model, every wanted losses", "why_tests_cant": "The search stops early and the losses are an arbitrary function of the frequency and flux density.", "anchors": ["src/physical_models/CoreLosses.cpp:2818-2884"]}
{"id": "C138", "title": "The Roshen losses are the area of a closed loop plus eddies", "statement": "The two branches of the hysteresis curve pass by the saturation, remanence and coercive points of the material, rise, mirror each other and enclose a loop. From half the flux density that the upper branch gives at the coercive force up to saturation, the loop used for an excitation is closed exactly at plus and minus its peak, the hysteresis loss is the frequency times the area of that loop in strips of 0.1 A/m, and it is never negative and does not fall with the peak or the frequency. Below that flux density the loop is not closed (refuted). The eddy losses are the integrals over one period of the square and the power 3/2 of the slope of the flux, scale accordingly, ignore constants and vanish when the flux does not move. The total of the core is the sum of its parts times the volume; a resistivity that is not positive is refused; the losses per volume of the material are those of a small ring and not of the core (refuted).", "quantifier": "all soft materials (coercive force, remanence, saturation), all excitations, core areas and volumes, resistivity fits and temperatures", "why_tests_cant": "tests compare totals against measured losses for some materials within a tolerance; that the loop closes at the peak for every peak, and that it fails to below a threshold, is a statement over a continuum", "anchors": ["src/physical_models/CoreLosses.cpp: CoreLossesRoshenModel::get_core_losses, get_core_volumetric_losses, get_roshen_parameters, get_major_loop_parameters, roshen_compute_analytical_delta, get_bh_loop, get_hysteresis_losses_density, get_eddy_current_losses_density, get_excess_eddy_current_losses_density"]}
{"id": "C139", "title": "Loss-factor losses follow the published points, whatever was asked before", "statement": "At a published frequency the loss factor used is the published one, outside the published band it is that of the nearest end, between two points it lies on the straight line, and the order of the points does not count. A negative factor or no points are refused, so resistance and losses are never negative; losses are tan(delta) times the impedance of the inductance times the squared current. The turns behind an excitation are the fewest with which the current makes the flux density, and the total does not depend on the volume. After any history of questions the answer is the one of a new process as long as materials of one name publish the same points (refuted otherwise); a point without frequency or a zero current is undefined behaviour (refuted).", "quantifier": "every list of published points, frequency, permeability, inductance, current and core; every history of earlier questions", "why_tests_cant": "Points come in any number and order and the interpolants are kept per thread by name across calls; tests ask a few materials once.", "anchors": ["src/physical_models/CoreLosses.cpp:2617-2764 CoreLossesLossFactorModel", "src/physical_models/CoreLosses.h:26 lossFactorInterps"]}
{"id": "C140", "title": "Core losses as a series resistance, and the model the filters use", "statement": "The series resistance of a core-loss model is taken at the most whole turns whose inductance does not exceed the wanted one; for the inductance of whole turns it is exactly the loss at the flux density of one ampere, and it grows with the inductance when losses grow with the flux density; below the inductance of one turn it is that of no flux (refuted). In the filters the losses used are never negative, are those of Steinmetz whenever the material has its data and of the manufacturer otherwise; materials with neither, and negative losses of a manufacturer, reject the candidate, and negative Steinmetz losses are refused.", "quantifier": "every loss model, inductance, reluctance and area; every outcome of the models", "why_tests_cant": "Truncation to whole turns and the guards concern every real inductance and every outcome of the models.", "anchors": ["src/physical_models/CoreLosses.cpp:911-943 CoreLossesModel::get_core_losses_series_resistance", "src/advisers/MagneticFilterInternal.h:296-338 compute_core_losses_with_negative_guard", "src/advisers/MagneticFilterLosses.cpp:171-186"]}
{"id": "C141", "title": "The area of a wire that carries current at a frequency", "statement": "For a complete wire of a conducting material, of any type but several flat conductors, the effective conducting area is always given, positive and at most the conducting area; it is the whole of it for direct current or when the skin depth reaches half the smallest dimension, otherwise the ring or frame of one skin depth along the surface of each conductor. It never grows with the frequency, and never shrinks with the temperature when the resistivity grows with it; wires without material are refused. With several flat conductors the area deeper than the skin depth is counted once per conductor twice over (refuted).", "quantifier": "every wire, material, frequency and temperature", "why_tests_cant": "Bounds and monotony over real frequencies, temperatures and dimensions cannot be sampled.", "anchors": ["src/constructive_models/Wire.cpp:1158-1221 Wire::calculate_conducting_area", "src/constructive_models/Wire.cpp:1380-1466 Wire::calculate_effective_conducting_area"]}
{"id": "C142", "title": "Parallel wires needed for a current", "statement": "The number of parallels is the least number of wires that carries the current within the maximum current density over the effective area, zero exactly when there is no current; it never falls with more current, more frequency or a lower maximum density, and over several operating points it is the greatest of the numbers each needs; a missing current in any of them is refused. The density of direct current is the rms current over the whole conducting area, the least of all frequencies.", "quantifier": "every wire, current, frequency, temperature, maximum density and list of operating points", "why_tests_cant": "Minimality is a claim about every smaller count and the maximum about every list of operating points.", "anchors": ["src/constructive_models/Wire.cpp:1347-1378 Wire::calculate_effective_current_density", "src/constructive_models/Wire.cpp:1472-1500 Wire::calculate_number_parallels_needed"]}
{"id": "C143", "title": "Outer diameters of litz bundles", "statement": "A bundle of litz strands is never filled more densely than equal circles can be packed, grows strictly with the number of strands and, with serving or insulation, by at least the thickness of its layers on each side; two or more strands take at least two strand diameters for one of the standards. For the other standard two strands do not fit side by side, and a bundle of a single strand is not its strand (refuted).", "quantifier": "every number of strands, strand diameter, standard, number of layers and thickness", "why_tests_cant": "The bounds hold for every number of strands and real diameter.", "anchors": ["src/constructive_models/Wire.cpp:856-946 Wire::get_outer_diameter_served_litz Wire::get_outer_diameter_bare_litz Wire::get_outer_diameter_insulated_litz"]}
{"id": "C144", "title": "Equivalent insulation layers of a wire and foil cut to a section", "statement": "The layers of insulation a coating stands for against a voltage are the largest count that neither exceeds the layers it has (one when it does not say) nor the times the voltage fits in 85% of its breakdown voltage; it is none for a wire without coating, and a coating without breakdown voltage is refused. Cutting a foil or planar wire to a section makes its long side 95% of the section's, keeps its thickness and makes the outer size the conducting one; other wires are refused. The conducting area kept in a cut foil is that of before the cut (refuted).", "quantifier": "every coating, voltage, wire and section", "why_tests_cant": "Minimality over all counts and equality over all real dimensions.", "anchors": ["src/constructive_models/Wire.cpp:1007-1024 Wire::get_equivalent_insulation_layers", "src/constructive_models/Wire.cpp:1634-1660 Wire::cut_foil_wire_to_section Wire::cut_planar_wire_to_section"]}
{"id": "C145", "title": "Interpolated wire sizes do not depend on earlier questions", "statement": "The outer sizes of round, insulated round and rectangular wires and the conducting area of rectangular wires are the same whatever sizes, filling factors or packing factors were asked for before from the same catalogue; so are the filling factors of round wires without air, when no earlier question counted the air. Filling factors with the air, of litz with other layers, counts or grades, and the packing factor of litz of another grade are answered with the options of the first question, and after another catalogue is loaded the sizes of the old one are still answered (refuted).", "quantifier": "every history of questions, catalogue, interpolator and question", "why_tests_cant": "The claim ranges over every order of earlier calls in the process; each test starts from its own history.", "anchors": ["src/constructive_models/Wire.cpp:206-733 create_interpolators Wire::get_filling_factor_* Wire::get_outer_*", "src/support/Utils.cpp:315-325 clear_databases"]}
{"id": "C146", "title": "Interpolated wire sizes agree with the catalogue", "statement": "At the conducting diameter of an enamelled round wire of the catalogue, of the grade and standard asked for, the outer diameter is that of such a wire of the catalogue; at any diameter it is given and never below the conducting one when no such wire of the catalogue has it below; and beyond the thinnest or the thickest of them it is in proportion to the conducting diameter.", "quantifier": "every complete catalogue, grade, standard and conducting diameter; every interpolator through its points (first), bounded by its points (second)", "why_tests_cant": "Holds for every catalogue a user may load and every real diameter.", "anchors": ["src/constructive_models/Wire.cpp:206-528 create_interpolators", "src/constructive_models/Wire.cpp:590-660", "src/constructive_models/Wire.cpp:781-800 Wire::get_outer_diameter_round"]}
{"id": "C147", "title": "Coating labels read back", "statement": "The label of an insulated wire of one to three layers, rated 155, 180 or not at all, is read back as a coating of the same type, layers and rating, with the breakdown voltage to the nearest volt up to one kilovolt and to the nearest hundred of volts above; figures that the label can write come back exactly. Labels of enamelled wires give back every grade under either standard, labels of served litz of one or two layers and of bare wires their coating, and coatings without the needed data are refused. Wires without coating become bare coatings, other numbers of layers read as no coating, other temperature ratings are lost or read as 155, and writing the label read may change it (refuted).", "quantifier": "every coating, grade, rating, breakdown voltage and standard", "why_tests_cant": "A round trip is a claim about every figure printed and parsed; the catalogue only holds a few.", "anchors": ["src/constructive_models/Wire.cpp:1915-2022 Wire::encode_coating_label", "src/constructive_models/Wire.cpp:2024-2103 Wire::decode_coating_label"]}
{"id": "C148", "title": "Reading an arbitrary coating label", "statement": "Any label that mentions neither enamel nor a breakdown voltage is read without error, and gives a coating exactly when one of the known words occurs in it. A label that mentions enamel without a grade is read past the end of its pieces (refuted: undefined behaviour instead of an error).", "quantifier": "every text", "why_tests_cant": "Labels come from the user: every text must be handled.", "anchors": ["src/constructive_models/Wire.cpp:2024-2103 Wire::decode_coating_label", "src/support/Utils.cpp:2367-2379 split"]}
{"id": "C149", "title": "The catalogue wire nearest to a dimension", "statement": "When every wire of the type and standard asked for has its dimension, the search returns a wire of the catalogue of that type and standard, no such wire is nearer to the dimension, and among those as near none is thinner outside; a wire of exactly the dimension is found when there is one; one incomplete wire of the type makes the search fail. When the catalogue has no such wire, and always for litz, a wire without any data is returned instead of an error (refuted).", "quantifier": "every catalogue, positive dimension, type and standard", "why_tests_cant": "The choice is minimal over every catalogue and every real dimension, ties included.", "anchors": ["src/support/Utils.cpp:1136-1225 find_wire_by_dimension", "src/constructive_models/Wire.cpp:1502-1562 Wire::get_maximum_outer_dimension"]}
{"id": "C150", "title": "Wires for an area, a frequency or a resistance, and equivalent wires", "statement": "The exact wire for an area conducts through that area; the exact wire for a frequency conducts through all its area at it and every thicker round wire of copper does not; a catalogue wire of exactly the wanted resistance per meter is found when there is one; the round wire looked for instead of a litz has the area of all its strands; and the number of strands of a litz that replaces a solid wire keeps the area to half a strand of the diameter looked for. Wires thin against the skin depth become litz of no strand, and the area of the strands actually used may be any other (refuted).", "quantifier": "every area, frequency, temperature, resistance, wire and catalogue", "why_tests_cant": "Equalities and optimality over real numbers and catalogues.", "anchors": ["src/constructive_models/Wire.cpp:2107-2153 Wire::get_wire_for_frequency Wire::get_wire_for_conducting_area Wire::get_wire_for_dc_resistance_per_meter", "src/constructive_models/Wire.cpp:2156-2357 Wire::get_equivalent_wire"]}
{"id": "C151", "title": "Relative cost and extreme dimensions of a wire", "statement": "More strands or a higher grade of enamel never lower the relative cost of a wire; the greatest outer dimension is the outer diameter of a round or litz wire and the longer outer side of a flat one. Three layers of insulation cost less than two, and the least outer dimension of a rectangular wire on its edge is its longer side (refuted).", "quantifier": "every wire", "why_tests_cant": "Monotony over all counts, grades and sizes.", "anchors": ["src/constructive_models/Wire.cpp:1665-1698 Wire::get_relative_cost", "src/constructive_models/Wire.cpp:1502-1632 Wire::get_maximum_outer_dimension Wire::get_minimum_outer_dimension"]}
{"id": "C152", "title": "Permeability formulas of the makers mean what their coefficients say", "statement": "For a material whose initial permeability is a formula, the permeability returned is the value of the material times the corrections of the maker: the bias in A/m to the thousandth (Magnetics, Micrometals) or in oersted (Poco, TDG), the temperature in the maker's unit, the frequency; the direction of the bias does not matter; with positive coefficients more bias never raises the permeability, at any temperature, frequency and flux density; corrections of different axes multiply; above the Curie temperature the answer is 1; and the modifiers of a shape family are the default ones with exactly what the first entry naming that family provides in their place, a key naming the families between its slashes whatever blanks and case. Without a default entry the request is refused.", "quantifier": "every material with a formula, every coefficient, temperature, bias, frequency, flux density and shape family", "why_tests_cant": "The claims range over all real coefficients and conditions and all keys; a test only sees the catalogue's numbers.", "anchors": ["src/physical_models/InitialPermeability.cpp: get_initial_permeability_formula, resolve_modifier, get_initial_permeability"]}
{"id": "C153", "title": "Measured permeability is reproduced along each axis and combined by products", "statement": "For a material with measured permeability points: asking only for a temperature, a frequency or a bias that was measured on the sweep of that axis gives the measured value; temperature, frequency and bias multiply relative to the answer without conditions; at 25 degrees the answer is the one without temperature; a condition the data do not follow has no influence; without points along the bias a bias never raises the permeability and its direction does not matter; above the Curie temperature the answer is 1; data that follow no axis give the point nearest to 25 degrees; a material without points is refused, except the placeholder, which gives 1.", "quantifier": "every list of measured points, every condition, every spline that passes by its points", "why_tests_cant": "The points, their order, which figures they carry and the conditions are arbitrary.", "anchors": ["src/physical_models/InitialPermeability.cpp: get_initial_permeability, get_initial_permeability_temperature_dependent, get_initial_permeability_frequency_dependent, get_initial_permeability_magnetic_field_dc_bias_dependent, get_only_*_dependent_points, has_*_dependency"]}
{"id": "C154", "title": "The frequency of a permeability drop is found", "statement": "The frequency returned for a given drop of the permeability lies between the least and the greatest frequency known, and either the permeability there is the one wanted within the error, or it is the middle of two frequencies a part in 2^100 of that range apart between which the permeability passes the one wanted; if the curve is continuous and drops that far, an exact solution lies within a part in 2^101 of the range. A material that does not depend on the frequency has no such frequency.", "quantifier": "every material, drop, error and curve", "why_tests_cant": "A search by halves over an arbitrary curve; tests see few curves and tolerances.", "anchors": ["src/physical_models/InitialPermeability.cpp: calculate_frequency_for_initial_permeability_drop, get_minimum_frequency_in_permeability_points, get_maximum_frequency_in_permeability_points"]}
{"id": "C155", "title": "The caches of permeability change no answer", "statement": "Whatever permeabilities and drop frequencies were asked for before, of whichever materials, the answer to a question is the one a fresh program gives, provided materials of one name carry the same permeability data; materials that only differ in their Curie temperature do not disturb each other.", "quantifier": "every history of questions, every material, temperature, bias, frequency and flux density", "why_tests_cant": "The number of histories is unbounded.", "anchors": ["src/physical_models/InitialPermeability.h: initialPermeabilityTemperatureInterps, initialPermeabilityFrequencyInterps, initialPermeabilityMagneticFieldDcBiasInterps", "src/physical_models/InitialPermeability.cpp: get_initial_permeability"]}
{"id": "C156", "title": "Every requested gap lands on the column it belongs to", "statement": "Processing a gapping without coordinates puts the ground gaps and spacers of a spread gapping, in the order given, on the winding column, and one residual gap on every other column; with no gaps every column gets a residual gap; with fewer gaps than columns and none ground, the columns take the gaps in order and the last one is repeated; with one gap per column each column takes its own. Kinds and lengths are those asked for and area, section and shape those of the column.", "quantifier": "every core with air gaps of its own shape, every number of columns, every gapping without coordinates", "why_tests_cant": "The number of columns and gaps, and their kinds and lengths, are unbounded.", "anchors": ["src/constructive_models/Core.cpp: Core::process_gap", "src/constructive_models/Core.cpp: Core::distribute_and_process_gap"]}
{"id": "C157", "title": "The gapping factories make what their names say", "statement": "Ground gapping makes one gap of the length on the winding column and residual gaps on the rest; distributed gapping as many equal gaps as asked on the winding column; spacer gapping one equal gap in the middle of every column; residual gapping a residual one in the middle of every column. Spacer and residual gappings come out the same if fewer gaps than columns are written.", "quantifier": "every core, every length, number of gaps and number of columns", "why_tests_cant": "Lengths and counts are unbounded.", "anchors": ["src/constructive_models/Core.cpp: create_ground_gapping, create_distributed_gapping, create_spacer_gapping, create_residual_gapping"]}
{"id": "C158", "title": "Gaps stand where they are spread, and know how far the end of the column is", "statement": "A single ground gap begins at the mating plane, to half a nanometre; several are spread evenly over the column, to half a nanometre per second gap; the distance told to the closest end of the column is the one between the end of the gap and the end of the column.", "quantifier": "every core, every number and length of gaps", "why_tests_cant": "Rounding errors add up over an unbounded number of gaps.", "anchors": ["src/constructive_models/Core.cpp: Core::distribute_and_process_gap"]}
{"id": "C159", "title": "Accepted gaps fit the column, and gaps that fit are accepted", "statement": "Equal gaps that fit the column together are accepted; what is accepted fits in the column and does not overlap.", "quantifier": "every core, every number and length of gaps", "why_tests_cant": "Needs every combination of lengths and heights.", "anchors": ["src/constructive_models/Core.cpp: Core::distribute_and_process_gap"]}
{"id": "C160", "title": "Processing the gaps of a core again changes nothing", "statement": "Processing an accepted gapping again moves no gap and changes no length, kind, section, area or shape; the distances to the ends stay too; from the second time on the gapping is left exactly as it is.", "quantifier": "every core whose columns stand apart, every gapping, with or without coordinates", "why_tests_cant": "Idempotence must hold for every gapping that can be reached.", "anchors": ["src/constructive_models/Core.cpp: Core::process_gap", "src/physical_models/MagnetizingInductance.cpp: comment on process_gap"]}
{"id": "C161", "title": "Cores without gaps refuse them, and a refusal changes nothing", "statement": "Toroids, molded and semi-shielded cores refuse any gap and get none; a drum in a ring refuses gaps of the user and carries its two clearances whatever residual gaps it came with; a refused gapping is left as it was but for surplus residual gaps; setting a length gives it to every gap that is not residual and leaves the core consistent.", "quantifier": "every core, every gapping, every length", "why_tests_cant": "Needs every gapping and dimension.", "anchors": ["src/constructive_models/Core.cpp: Core::process_gap", "src/constructive_models/Core.cpp: Core::set_gap_length"]}
{"id": "C162", "title": "A core read back makes the same gaps, with the area of its stacks", "statement": "The gaps of a core made from a description only depend on the kinds, lengths and coordinates written, not on the areas, sections and distances a former processing left there; each has the area and depth of a column times the number of stacks, however often the data are processed.", "quantifier": "every shape, number of stacks and gapping", "why_tests_cant": "Needs every history of processing and every description.", "anchors": ["src/constructive_models/Core.cpp: Core::process_data", "src/constructive_models/Core.cpp: Core::Core"]}
{"id": "C163", "title": "Switched currents of low frequency lose their power at the carrier", "statement": "Below 400 Hz with a finely sampled current, core losses are taken at the frequency of the strongest harmonic above the main one, if it exceeds a hundredth of the main one, with the amplitude of that harmonic as peak and twice it as swing; otherwise at the frequency, peak and swing of the excitation.", "quantifier": "every excitation and every spectrum", "why_tests_cant": "The number and order of harmonics are unbounded.", "anchors": ["src/processors/Inputs.cpp: Inputs::get_switching_frequency", "src/processors/Inputs.cpp: Inputs::get_magnetic_flux_density_peak", "src/processors/Inputs.cpp: Inputs::get_magnetic_flux_density_peak_to_peak"]}
{"id": "C164", "title": "The Barg correction sees how long the flux rests at its top", "statement": "Losses by Barg are pi/4 of those by Steinmetz times the factor tabulated for half a period less the share of samples within a fiftieth of the highest flux density, looked for between a tenth and a half and never below one.", "quantifier": "every waveform with a positive top, every table, datum and temperature", "why_tests_cant": "Waveforms have any number of samples in any order.", "anchors": ["src/physical_models/CoreLosses.cpp: get_plateau_duty_cycle", "src/physical_models/CoreLosses.cpp: CoreLossesBargModel"]}
{"id": "C165", "title": "A magnetic fits in a volume exactly when some turn of it does", "statement": "Asked whether a magnetic (or core) fits in stated maximum dimensions, the answer without rotation is yes exactly when each stated limit holds, and with rotation exactly when some permutation of its three dimensions meets every stated limit. Allowing rotation, loosening limits or shrinking the magnetic never turns a yes into a no, and the way the magnetic was drawn does not matter once it may be turned. The dimensions filter of the advisers gives the same answer.", "quantifier": "every magnetic and core, every combination of stated limits, with and without rotation", "why_tests_cant": "Eight sets of limits times six turns times every triple of numbers.", "anchors": ["src/constructive_models/Magnetic.cpp: Magnetic::fits", "src/constructive_models/Core.cpp: Core::fits", "src/advisers/MagneticFilterGeometry.cpp: MagneticFilterDimensions"]}
{"id": "C166", "title": "The stated dimensions of a magnetic enclose everything in it", "statement": "The maximum dimensions of a magnetic are at least those of its core and of its bobbin and enclose every turn; they are the same however often they are asked for and follow changes of the core and coil; volume, area and height scores grow with them.", "quantifier": "every core, bobbin, list of turns and history of questions and changes", "why_tests_cant": "Turns lie anywhere and in any number; the dimensions are remembered between calls.", "anchors": ["src/constructive_models/Magnetic.cpp: get_maximum_dimensions", "src/constructive_models/Coil.cpp: get_maximum_dimensions", "src/constructive_models/Bobbin.cpp: get_maximum_dimensions", "src/advisers/MagneticFilterGeometry.cpp"]}
{"id": "C167", "title": "The saturation filter keeps exactly the candidates that never saturate", "statement": "A kept candidate has, at every operating point and at the hotter of the ambient and the derating temperature, a peak flux density that times the margin stays within saturation, and as an inductor a saturation current of at least the margin times its peak current; a dropped one fails at some point. The order of the points does not matter, a smaller margin keeps what a larger one keeps, and the score is between zero and one plus the reciprocal of the margin.", "quantifier": "every design, margin, derating temperature, candidate and list of operating points", "why_tests_cant": "Any number of points, each with its own temperature, flux and current.", "anchors": ["src/advisers/MagneticFilterPhysical.cpp: MagneticFilterSaturation::evaluate_magnetic", "src/advisers/MagneticFilterInternal.h: saturation_derating_temperature", "src/advisers/MagneticFilterInternal.h: maximum_allowed_magnetic_flux_density", "src/physical_models/MagnetizingInductance.cpp: calculate_flux_density_peak_from_voltage"]}
{"id": "C168", "title": "The current density filters keep exactly the cool candidates", "statement": "A candidate is kept exactly when the current density of every winding at every operating point, shared by its parallels, is within the maximum; more parallels never lose a candidate; the score is between zero and the number of windings.", "quantifier": "every number of windings, parallels and operating points, every maximum", "why_tests_cant": "Windings and points are of any number.", "anchors": ["src/advisers/MagneticFilterPhysical.cpp: MagneticFilterDcCurrentDensity", "src/advisers/MagneticFilterPhysical.cpp: MagneticFilterEffectiveCurrentDensity"]}
{"id": "C169", "title": "The stored energy filter judges every operating point", "statement": "A candidate is kept exactly when at every operating point its core can store the required energy (less a tenth); the order of the points does not matter.", "quantifier": "every required energy and list of storable energies", "why_tests_cant": "Points come in any number and order.", "anchors": ["src/advisers/MagneticFilterEnergyCost.cpp: MagneticFilterEnergyStored::evaluate_magnetic"]}
{"id": "C170", "title": "Turns ratio and inductance filters keep exactly what is in the band asked for", "statement": "A candidate is kept by the turns ratio filter exactly when it has a ratio per requirement, each in its band, and scores zero only when every nominal ratio is met; it is kept by the inductance filter exactly when its inductance is known and in the band at every operating point, taken without bias for transformers and with bias for inductors. Both filters, and the saturation filter, agree on which designs are transformers; windings all on one isolation side make an inductor.", "quantifier": "every requirement, set of turns, list of operating points and design", "why_tests_cant": "Bands with any combination of bounds, any number of windings and points.", "anchors": ["src/advisers/MagneticFilterGeometry.cpp: MagneticFilterTurnsRatios", "src/advisers/MagneticFilter.cpp: MagneticFilterMagnetizingInductance", "src/advisers/MagneticFilterInternal.h: is_inductor"]}
{"id": "C171", "title": "Catalogue parts are held to what their datasheet publishes", "statement": "A part with published limits is kept exactly when no winding at any operating point asks more than the published rated current, voltages and saturation current; its score is the share of the tightest limit that is left; a part that publishes nothing applicable is kept with full score; of several entries the one of the candidate's turns is used, otherwise the one with the smallest rated current.", "quantifier": "every list of published entries, operating points and windings, with any values missing", "why_tests_cant": "Entries, points and windings come in any number and any published value may be missing.", "anchors": ["src/advisers/MagneticFilterDatasheet.cpp: MagneticFilterDatasheetLimits::evaluate_magnetic", "src/advisers/MagneticFilterDatasheet.cpp: select_electrical_entry", "src/advisers/MagneticFilterDatasheet.cpp: datasheet_headroom"]}
{"id": "C172", "title": "Wires meet the solid insulation required of them", "statement": "A wire is accepted exactly when the coating that insulates its conductor breaks down no earlier than required, its grade or layers are within the bounds, and its outside is not insulated where a maximum is set; a coil is kept exactly when some combination of requirements accepts every wire; better insulated coils rank accordingly.", "quantifier": "every wire, coating, requirement and list of combinations", "why_tests_cant": "Any of the four bounds may be missing and combinations come in any number.", "anchors": ["src/advisers/MagneticFilter.cpp: MagneticFilterSolidInsulationRequirements::evaluate_magnetic"]}
{"id": "C173", "title": "The area product filter keeps the cores large enough, whatever it judged before", "statement": "A core is kept exactly when its area product reaches what every operating point requires, less a tenth; a larger margin never rescues a core; and what the filter remembers of former cores changes no verdict.", "quantifier": "every core, list of operating points, margin and history of cores judged", "why_tests_cant": "The filter keeps memory by name between candidates, so the verdict could depend on any history.", "anchors": ["src/advisers/MagneticFilterArea.cpp: MagneticFilterAreaProduct::evaluate_magnetic"]}
{"id": "C174", "title": "Windings are given the room they need", "statement": "A conductor is accepted in a section exactly when it is smaller both ways; a coil is kept exactly when every winding needs less room than its sections have; in the relaxed mode up to half more is tolerated at a score that falls with the excess.", "quantifier": "every winding, list of sections and mode", "why_tests_cant": "Windings and sections come in any number and size.", "anchors": ["src/advisers/MagneticFilterArea.cpp: MagneticFilterAreaNoParallels::evaluate_magnetic", "src/advisers/MagneticFilterArea.cpp: MagneticFilterAreaWithParallels::evaluate_magnetic"]}
{"id": "C175", "title": "Composite scores use the candidate's own losses and temperature", "statement": "The score for losses times volume, with or without temperature rise, multiplies the candidate's own losses, volume and rise, whatever other candidates and filters were scored before.", "quantifier": "every history of scored filters and candidates", "why_tests_cant": "Scores are shared through a table by name; any order and any names may occur.", "anchors": ["src/support/Utils.cpp: add_scoring", "src/support/Utils.cpp: get_scoring", "src/advisers/MagneticFilterInternal.h: cached_or_compute_scoring", "src/advisers/MagneticFilterGeometry.cpp: MagneticFilterLossesTimesVolume"]}
{"id": "C176", "title": "A figure of the core material at a temperature", "statement": "The saturation flux density (and field, remanence and coercive force) of a material at a temperature does not depend on the order in which its data are listed; with two data it goes along the line through them, with one it is constant, and data repeating one temperature are answered with the first; a material without data is refused; the saturation the designs use is seven tenths of the published one. Two data of the same temperature give a figure that is not finite.", "quantifier": "every list of data, every temperature, every spline", "why_tests_cant": "Tests read a few catalogue materials, listed in order of temperature.", "anchors": ["src/constructive_models/Core.cpp: interp", "src/constructive_models/Core.cpp: Core::get_magnetic_flux_density_saturation"]}
{"id": "C177", "title": "Saturation current", "statement": "At the saturation current of a magnetic, and at no other, the flux density of its core is the saturation one: smaller currents leave it below and larger ones above; it is refused exactly when the inductance is missing or not positive or the material has no saturation; a hotter core of a material that weakens with temperature saturates no later. It can be negative, because the line through two saturation data goes on below zero.", "quantifier": "every material, temperature, number of turns, area, inductance and current", "why_tests_cant": "A test compares the current of a few designs with one number.", "anchors": ["src/constructive_models/Magnetic.cpp: Magnetic::calculate_saturation_current"]}
{"id": "C178", "title": "Rated current", "statement": "The rated current heats the component to within a tenth of a degree of the rise asked for, or lies between two currents half a microampere apart that bracket the rise; it is positive and below 2^19 A; it is refused exactly when the rise is not positive or none of 1, 2, 4 ... 2^19 A heats enough, and the search always ends; a larger rise does not get a smaller current; the copper is at the temperature it settles at to within a sixteenth of a degree when its feedback is weak. For large rises the component may not settle at all at the current given.", "quantifier": "every thermal network, every target and ambient, every dependence of the losses on the copper temperature", "why_tests_cant": "Tests run one inductor; the search depends on the whole curve of the rise.", "anchors": ["src/constructive_models/Magnetic.cpp: Magnetic::calculate_rated_current"]}
{"id": "C179", "title": "Temperature of a core from its losses", "statement": "In the five models a core of positive sizes is never below the ambient, is at the ambient without losses, is hotter with more losses and no hotter when it is larger, shifts with the ambient, and its bulk resistance times its losses is its rise; the models of the surface follow their power law and give one degree at 1 mW/cm2. Negative losses give no finite temperature in two of them and one below the ambient in two others; a core without windows is undefined behaviour in Dixon's.", "quantifier": "every core, losses, ambient and model", "why_tests_cant": "Tests compare a few cores with measured temperatures within a tolerance.", "anchors": ["src/physical_models/CoreTemperature.cpp"]}
{"id": "C180", "title": "The material of a core is the one last given", "statement": "However a core is read and its material field set, resolving it answers the field last given, and so does resolving it through a const reference as long as the material is only set through the core; a name once resolved no longer depends on the catalogue. After the initial permeability is set, or the functional description is assigned, the const resolver answers the old material, and reading through a const reference rewrites the description.", "quantifier": "every catalogue and every history of reads and writes", "why_tests_cant": "It is about all histories of a memo; a test runs one.", "anchors": ["src/constructive_models/Core.cpp: Core::resolve_material", "src/constructive_models/Core.cpp: Core::set_material_initial_permeability", "src/constructive_models/Core.h: _cachedResolvedMaterial"]}
{"id": "C181", "title": "Assemblies of several materials", "statement": "Reading a core made of several materials never loses a piece, however often and by whichever resolver; all the pieces are resolved in order with the primary first, a core of one material has one piece, and an empty list is refused. Asking what the material is for, or setting its permeability, leaves the primary alone.", "quantifier": "every assembly, catalogue and history of reads", "why_tests_cant": "It is about every history of reads.", "anchors": ["src/constructive_models/Core.cpp: Core::resolve_materials", "src/constructive_models/Core.cpp: Core::resolve_material_application"]}
{"id": "C182", "title": "What a material is for", "statement": "The loss methods available are those published, each once; the application of a material is its first tag or, without tags, follows from whether it publishes loss factors and complex permeability; a material is accepted for an application exactly when its tags or its data say so; asking twice gives the same application. A material can be refused for what it is said or guessed to be for, and the tag written back by the question can take it out of an application.", "quantifier": "every material and application", "why_tests_cant": "Tests look at a few catalogue materials, all of them tagged.", "anchors": ["src/constructive_models/Core.cpp: Core::guess_material_application", "src/constructive_models/Core.cpp: Core::check_material_application", "src/constructive_models/Core.cpp: Core::get_available_core_losses_methods"]}
{"id": "C183", "title": "Impedance of a passive magnetic", "statement": "At every frequency the impedance computed for a magnetic of passive materials and wires has a resistance that is not negative, however many windings, leakages and capacitances it has; with lossy material and windings it is finite and strictly dissipative. The attenuation by the cross section of the core is the documented double series, turns no loss into a gain and treats width and depth alike; the order of the windings' tanks does not matter; one tank is the core inductance times the complex permeability with the capacitance across it.", "quantifier": "every passive model, frequency and section", "why_tests_cant": "Tests compare impedances of a few magnetics at a few frequencies; the claim is about every frequency and material.", "anchors": ["src/physical_models/Impedance.cpp: Impedance::impedance_from_model", "src/physical_models/Impedance.cpp: core_dimensional_attenuation"]}
{"id": "C184", "title": "Impedances of one magnetic agree", "statement": "The impedance at a frequency of a magnetic with one winding is that of its wideband model; further windings only add resistance to the common-mode figure; a bias that leaves the permeability alone changes nothing and, without capacitance, the impedance follows the permeability in proportion; the quality factor is the material's less what the capacitance takes.", "quantifier": "every magnetic, frequency and bias", "why_tests_cant": "It relates two computations over every input.", "anchors": ["src/physical_models/Impedance.cpp: Impedance::calculate_impedance", "src/physical_models/Impedance.cpp: Impedance::build_wideband_impedance_model", "src/physical_models/Impedance.cpp: Impedance::calculate_q_factor"]}
{"id": "C185", "title": "Least turns for an impedance", "statement": "The minimum number of turns for a list of impedance requirements meets all of them within a quarter of the self resonance, no smaller number does, its order and the other windings' ratios are respected; -1 is returned only when no number up to the limit would do, if the resonance falls with the turns. A number above the limit is missed.", "quantifier": "every dependence of impedance and resonance on turns, every list of requirements and ratios", "why_tests_cant": "Minimality is a claim about every smaller number, for every dependence on turns.", "anchors": ["src/physical_models/Impedance.cpp: Impedance::calculate_minimum_number_turns"]}
{"id": "C186", "title": "Impedances of coils without turns", "statement": "The impedance of a magnetic is given exactly when its core is processed, it has a winding and its coil can be wound, as it is or without its sections, or the capacitance is estimated. The wideband model and the differential-mode parameters are given for every coil with turns. The wideband model with default capacitance and the differential-mode parameters are given for no coil of several windings without turns, although the code winds it.", "quantifier": "every coil, core and setting", "why_tests_cant": "It is about every coil, and the failures lie in paths tests do not take.", "anchors": ["src/physical_models/Impedance.cpp: build_magnetizing_tank", "src/physical_models/Impedance.cpp: Impedance::calculate_differential_mode_parameters"]}
{"id": "C187", "title": "Self resonant frequency", "statement": "Below the resonance of its inductance with its capacitance a lossless magnetic is inductive, above it capacitive, and at it the impedance is not finite; the frequency reported is that resonance, with turns and the default capacitance model. With the estimated capacitance and n windings it is higher by the root of n, and neither temperature nor the chosen capacitance model has any effect.", "quantifier": "every inductance, capacitance, frequency and coil", "why_tests_cant": "It is about every frequency on either side of a resonance.", "anchors": ["src/physical_models/Impedance.cpp: Impedance::calculate_self_resonant_frequency"]}
{"id": "C188", "title": "Permittivity over frequency", "statement": "The permittivity of a core at a frequency is that of the lowest point below all, of the highest above all, and on the line between the two neighbours in the logarithms in between, so between their values and through the points; the order of the table does not matter and duplicates are harmless. A point at zero frequency leaves no value up to the next.", "quantifier": "every table and frequency", "why_tests_cant": "It is about every table and frequency.", "anchors": ["src/physical_models/Impedance.cpp: interpolate_permittivity_points"]}
{"id": "C189", "title": "A complex permeability derived from the initial one is lossy, keeps its magnitude and does not rise past the data", "statement": "The complex permeability derived for a material that only has an initial permeability against frequency has positive real and imaginary parts at every frequency; its magnitude is the measured initial permeability wherever that is positive; its loss angle is at least that of the penetration model and at least that of the measured slope, and below a right angle. Beyond the highest measured frequency the permeability used continues from the last measured value without a jump, stays positive and never rises. The share of the particles in a powder material lies between 0 and 1 and the factor inferred from the drop lies between 1 and 1000 and grows with the drop.", "quantifier": "all frequencies, initial permeabilities, drop frequencies and measured points in any order", "why_tests_cant": "positivity of the two parts rests on inequalities between circular and hyperbolic functions for every frequency, and the behaviour past the data concerns every frequency above the last point", "anchors": ["src/physical_models/ComplexPermeability.cpp: infer_F_mu_from_delta_FL, calculate_complex_permeability_from_frequency_dependent_initial_permeability"]}
{"id": "C190", "title": "A complex permeability is read off the points of the material, whatever was asked before", "statement": "The answer for a material at a frequency is the interpolation of its own points, sorted and cleared of repeated frequencies, at the frequency asked for or at the nearest end of the points; the real part is never below 1. It does not depend on the order in which the points are given, nor on what was asked before, as long as materials of the same name have the same data. Missing data, a single real point and real points without a frequency are refused and leave nothing behind.", "quantifier": "all materials, frequencies, orders of points and histories of questions", "why_tests_cant": "interpolators are kept by name for the life of the process, so an answer could depend on any earlier question", "anchors": ["src/physical_models/ComplexPermeability.cpp: get_complex_permeability"]}
{"id": "C191", "title": "Hysteresis loops are closed, ordered and within the peak", "statement": "For a material whose coercive force is below its saturation field and whose remanence is below its saturation flux density, the upper branch of the major loop runs through negative saturation, zero at the negative coercive force, the remanence at zero field and positive saturation, rises throughout, is never below the lower branch, and the lower branch is the upper one turned about the origin. The loop returned for a peak field up to saturation runs over the same increasing fields on both branches, between minus and plus the peak, reaches both and is closed there at opposite flux densities; if the material is remanent enough its upper branch stays above the lower one and its flux densities stay within those of the tips.", "quantifier": "all such materials and peak fields told apart from the fixed fields by a millionth", "why_tests_cant": "crossing branches or an open tip can occur for particular materials and peaks only; the statement is about rational functions over all parameters", "anchors": ["src/physical_models/AmplitudePermeability.cpp: get_major_loop_parameters, get_hysteresis_loop"]}
{"id": "C192", "title": "Amplitude permeability is a positive slope of the loop", "statement": "Asked for a positive peak field up to saturation, the amplitude permeability exists, is positive and is the slope of the upper branch from the negative peak to the next field looked at; for a field that is not positive there is none, and without any peak the question is refused. Asked for a peak flux density, both returned branches are those of the major loop shifted in opposite senses by one amount and cut at the peak.", "quantifier": "all materials, peaks and permeabilities of vacuum", "why_tests_cant": "the two points that decide depend on how the fields of all materials and peaks interleave", "anchors": ["src/physical_models/AmplitudePermeability.cpp: get_amplitude_permeability, get_hysteresis_loop"]}
{"id": "C193", "title": "The ladder capacitances of a winding answer, grow with the turns and converge", "statement": "For a whole number of turns at least 1 (2 between the ends) and positive elements, the winding-to-shield and end-to-end ladders give a positive number, otherwise they throw; the number is that of the ladder network, rung by rung. It lies between explicit bounds, is monotone in the number of turns, grows with the elements and converges geometrically. Refuted: that it stays near the geometric mean of the elements.", "quantifier": "all numbers of turns and positive elements", "why_tests_cant": "the recursion depth is the number of turns", "anchors": ["src/physical_models/StrayCapacitance.cpp: StrayCapacitanceOneLayer cab, cas"]}
{"id": "C194", "title": "The one layer winding has a positive capacitance, and the toroid that of the energy method up to a factor", "statement": "Every whole number of turns and positive elements give a positive capacitance, one turn gives the turn-to-core element, fractional turns are refused unless toroidal. On a toroid the result is below the energy-method capacitance of evenly falling voltages with a floating core by less than a factor 3, and the relative difference vanishes as 2/(N-1). Refuted: that larger elements never give less.", "quantifier": "all numbers of turns, elements and layers", "why_tests_cant": "the comparison with the energy method needs sums over any number of turns", "anchors": ["src/physical_models/StrayCapacitance.cpp: StrayCapacitanceOneLayer::calculate_capacitance"]}
{"id": "C195", "title": "Two dielectrics in series", "statement": "The effective permittivity of two layers is that of the two capacitors in series, whatever their order. Refuted: with no thickness at all the order decides.", "quantifier": "all thicknesses and permittivities", "why_tests_cant": "a rational identity over all positive reals", "anchors": ["src/physical_models/StrayCapacitance.cpp: get_effective_relative_permittivity"]}
{"id": "C196", "title": "The voltage of every turn falls evenly from the winding voltage to zero", "statement": "Every turn gets a voltage; within a parallel the first starts at the whole winding voltage and the last ends at zero, each starts where the previous ends, all fall by the same step and stay in range; parallels agree turn by turn and a single turn sits at half. Without an operating point every winding gets the same volts per turn.", "quantifier": "all coils, parallels, interleavings of turns and voltages", "why_tests_cant": "turns of windings interleave in any order", "anchors": ["src/physical_models/StrayCapacitance.cpp: calculate_voltages_per_turn, calculate_capacitance"]}
{"id": "C197", "title": "Capacitances among turns are symmetric", "statement": "Whatever the lists of surrounding turns, the table holds for each entry its mirror with the same value, holds exactly the surrounding pairs, and fails only if one pair fails.", "quantifier": "all surroundings and pair models", "why_tests_cant": "depends on the order in which pairs are met", "anchors": ["src/physical_models/StrayCapacitance.cpp: calculate_capacitance_among_turns"]}
{"id": "C198", "title": "The floating core sits where its charge is zero and the energy least", "statement": "The potential given to the core makes the total charge zero and the energy the least of all potentials; shifting every turn does not change the energy; one turn stores none. The capacitance between two windings through the core is nonnegative, at most a quarter of the total, equals the series of the two for two turns and scales with the elements.", "quantifier": "all nonnegative elements and voltages", "why_tests_cant": "minimum over all potentials and sums over all turns", "anchors": ["src/physical_models/StrayCapacitance.cpp: calculate_winding_to_core_capacitance, calculate_capacitance_with_voltages"]}
{"id": "C199", "title": "Every pair of windings settles in two passes with a capacitance from its energy", "statement": "The recursion that looks for the shift between two windings ends after at most one more pass, with a result or one error; the shift is zero or the target; the capacitance is twice the stored energy over the square of the voltage across the pair and is nonnegative for nonnegative elements. Refuted: that the second winding floats free of charge; its charge is always positive.", "quantifier": "all coils, windings, voltages and turn tables", "why_tests_cant": "termination of a recursion on a real value", "anchors": ["src/physical_models/StrayCapacitance.cpp: calculate_capacitance_with_voltages"]}
{"id": "C200", "title": "Every pair of windings has one capacitance, the same in both orders", "statement": "When the calculation succeeds the table among windings holds a value for every ordered pair, the same both ways and that of the energy method, nonnegative for nonnegative elements; the only failure is a NaN error. Refuted: that the self-capacitance is the chain of turns plus the core; without adjacent turns of the winding it is zero though its core energy is positive.", "quantifier": "all coils with any number of windings", "why_tests_cant": "every pair is skipped if met in the other order, over any number of windings", "anchors": ["src/physical_models/StrayCapacitance.cpp: calculate_capacitance_with_voltages"]}
{"id": "C201", "title": "The Maxwell matrix is symmetric, positive semidefinite and sums to the self-capacitances", "statement": "Off the diagonal each entry is minus the capacitance of the pair, on it the sum of the row's capacitances; rows sum to the self-capacitance; the quadratic form is the energy of every winding to ground and of every two windings, so it is never negative for nonnegative capacitances. The tables of a coil meet the hypotheses.", "quantifier": "all numbers of windings, capacitances and voltages", "why_tests_cant": "quadratic form over any number of windings", "anchors": ["src/physical_models/StrayCapacitance.cpp: calculate_maxwell_capacitance_matrix"]}
{"id": "C202", "title": "The equivalent circuits and turn tables store the energy of the windings", "statement": "For all four terminal potentials the six-capacitor network stores what two windings cut in n facing pieces store, up to C0 u^2/(24 n^2). The tripole of a pair holds the self-capacitances of the earlier and the later winding and that of the pair. In the tables over turns the energy is half the capacitance times the squared voltage, energies are symmetric and voltages antisymmetric. Refuted: that under the reversed names the first capacitor is that of the first name.", "quantifier": "all potentials, numbers of pieces, windings and turns", "why_tests_cant": "holds for every n and every set of potentials", "anchors": ["src/physical_models/StrayCapacitance.cpp: calculate_six_capacitor_network, calculate_capacitance_with_voltages"]}
{"id": "C203", "title": "A line of a simulation file is split into the fields it was written with", "statement": "Splitting a line loses nothing: the fields joined with the separator are the line again, there is one more field than separators that stand outside quotes and parentheses, and no field holds such a separator. Fields whose quotes and parentheses are closed are read back exactly, whatever separators they hold inside (probes such as V(a,b)). The separator guessed from the header is, of comma, semicolon, tab and bar, the one that gives most columns, the first of those on a tie; a header is refused exactly when none gives two columns. A parenthesis left open swallows the rest of the line.", "quantifier": "all lines, all separators, all lists of fields", "why_tests_cant": "Lines are arbitrary strings with nested quotes and parentheses; tests hold a few exports of known simulators.", "anchors": ["src/processors/CircuitSimulatorInterface.cpp: CircuitSimulationReader::split_fields, guess_separator"]}
{"id": "C204", "title": "Every number of a simulation file lands in the column it stands under", "statement": "An accepted row adds its j-th cell to the j-th column and to no other, and nothing where the cell is blank; it is refused exactly when some cell that is not blank has no column or is not a number. Blank and comment lines after the first line, and carriage returns at the end of lines, change nothing. A table with names that are not blank is read as its columns. (Refuted: a column with a blank name is dropped from the header but counted in the rows, so numbers land under another name; with blank cells two columns of the same length may hold samples of different rows.)", "quantifier": "all files, all rows, all number parsers", "why_tests_cant": "The misplacement depends on which cells are blank in a file of any size.", "anchors": ["src/processors/CircuitSimulatorInterface.cpp: CircuitSimulationReader::CircuitSimulationReader, process_line_with_context, is_skippable_csv_line, strip_utf8_bom"]}
{"id": "C205", "title": "The time axis of a simulation file", "statement": "A column can be the time exactly when it never falls and ends above where it starts; an empty column is refused. The time of a file is the first such column. Repeated times are collapsed so that the axis is strictly increasing, has the same times, and keeps the last sample of each.", "quantifier": "all columns, all files", "why_tests_cant": "Repeated times come from rounding in exports of any length; tests have two or three patterns.", "anchors": ["src/processors/CircuitSimulatorInterface.cpp: CircuitSimulationReader::can_be_time, find_time, extract_waveform"]}
{"id": "C206", "title": "One period is cut from a simulated signal", "statement": "On an increasing axis that covers a period the waveform extracted is a run of samples counted from zero, at least one period long and less than one when one of its ends is dropped, starting where the signal touches zero, the latest that leaves a period, if it does so; the error on insufficient data cannot occur. Signals on one axis are cut at the same samples. Missing times, columns of different lengths and windows that do not fit are refused, and an axis that can be a time never leads to undefined behaviour. (Refuted: a signal shorter than a period is returned whole without an error; the window of the first question on an axis answers later ones at other frequencies.)", "quantifier": "all waveforms, all frequencies, all histories of extractions on an axis", "why_tests_cant": "The window depends on where every sample falls and on the extractions made before.", "anchors": ["src/processors/CircuitSimulatorInterface.cpp: CircuitSimulationReader::get_one_period, extract_waveform"]}
{"id": "C207", "title": "Columns are given to windings in the order of the numbers in their names", "statement": "Assigning windings keeps every signal once and drops the times; windings are numbered from zero without gaps in the order of the last number in the names, or of the label when there is no number; asking again gives the same answer. (Refuted: a number in a name that does not fit an int makes the whole import throw.)", "quantifier": "all files, all names", "why_tests_cant": "Names are arbitrary strings; a signal lost or given to the wrong winding shows only for some sets of names.", "anchors": ["src/processors/CircuitSimulatorInterface.cpp: CircuitSimulationReader::extract_winding_indexes, get_numbers_in_string"]}
{"id": "C208", "title": "Guessing voltages and currents does not depend on units", "statement": "What a column is taken for does not change when it is multiplied by any number but zero, and what is taken for a current does not change with an offset either. A signal of two levels further apart than the limit, both often enough, is taken for a voltage, and a constant never is. The filter applied to noisy signals keeps the number of samples and the mean.", "quantifier": "all signals, all factors and offsets, all limits", "why_tests_cant": "Invariance under every scale is a statement over all signals.", "anchors": ["src/processors/CircuitSimulatorInterface.cpp: CircuitSimulationReader::can_be_voltage, can_be_current, rolling_window_filter, convolution_valid"]}
{"id": "C209", "title": "The operating point has the signals the user named, on the time the user named", "statement": "With the columns named per winding, every winding reported has exactly the signals for which a column of the given name exists, each cut from such a column on the time named for that winding, or on the time of the file if none is found; at least one winding and at most the number asked for is reported, and only silent windings at the end are left out. (Refuted: a name no column bears is not an error; columns not named in one call are no longer found in the next.) All the signals on one axis, of whatever winding, are cut at the same positions.", "quantifier": "all files, all namings, all numbers of windings, all ways of resampling", "why_tests_cant": "Files with several acquisitions and partial namings combine without bound.", "anchors": ["src/processors/CircuitSimulatorInterface.cpp: CircuitSimulationReader::extract_operating_point, assign_column_names"]}
{"id": "C210", "title": "The wire adviser shows the best of the wires that fit", "statement": "The wires advised for a winding are the beginning, no longer than the number of results asked for, of a ranking by score of all eligible candidates, ties going to the smaller wire. A candidate is eligible when it is a wire of the list, of a type switched on, with the parallels its current density needs or one more and no more than allowed, when one wire goes into the section, when its insulation is enough if there are requirements, and when all its turns fit the section; only if none fits, those that overflow by less than half are. The advice is empty exactly when nothing is asked for or nothing is eligible. The proportion reported is the greatest among the advised. A current without effective frequency is refused. Rectangular wires are the exception: they are offered with one and two parallels whatever the current density; and a wire that needs none is offered with zero parallels.", "quantifier": "every list of wires, winding, section, current, limit of parallels, number of results, and every figure of the wires", "why_tests_cant": "the ranking depends on all other wires of the list through the normalised scores and on two fallbacks; a test covers one catalogue", "anchors": ["src/advisers/WireAdviser.cpp: get_advised_wire, create_dataset, set_maximum_area_proportion, break_score_ties", "src/physical_models/MagneticFilter.cpp: MagneticFilterAreaNoParallels, MagneticFilterAreaWithParallels"]}
{"id": "C211", "title": "No advised wire is beaten by a worse one", "statement": "Scores of advised wires are between zero and the number of filters. A candidate no worse than another in insulation, area taken, resistance, skin losses and proximity factor does not score less, and scores strictly more if it is better in resistance, skin losses or proximity factor. One consequence is that the same wire with one more parallel never scores better, although its losses would be less; another, that the preference of the proximity filter does not depend on the frequency, which it receives where it expects a skin depth.", "quantifier": "every pair of candidates of every search", "why_tests_cant": "it relates any two wires within any list; the normalisation mixes all of them", "anchors": ["src/advisers/WireAdviser.cpp: filter_by_effective_resistance, filter_by_skin_losses_density, filter_by_proximity_factor, filter_by_solid_insulation_requirements", "src/physical_models/MagneticFilterImpedance.cpp: MagneticFilterProximityFactor"]}
{"id": "C212", "title": "Planar wires fill the section exactly and thick copper is penalised", "statement": "Each planar candidate is a wire of the list thinner than the section, as wide as makes the turns, their distances and the borders add up to the width of the section: all turns side by side with two or more parallels, or the turns of one section with one; its parallels are at least those the current needs and, but for one, no more than allowed. All such candidates are considered when all turns fit side by side. Their penalty is between zero and one, grows with the thickness, is zero exactly up to 35 micrometers and one exactly from 350 on, and the scores stay between minus one and three. Two defects: when all turns do not fit side by side no planar wire is offered, though the turns of one section might fit; and the area proportion reported is never less than that of the search before.", "quantifier": "every list of planar wires, section, border and distance, number of turns, sections and parallels, every thickness", "why_tests_cant": "exact fit and monotony hold for all widths and thicknesses; tests check a few", "anchors": ["src/advisers/WireAdviser.cpp: create_planar_dataset, calculate_planar_thickness_penalty, get_advised_planar_wire"]}
{"id": "C213", "title": "Only wires of allowed types and of the common standard are advised", "statement": "Every advised wire comes from the catalogue, is of a type that the settings include (rectangular ones only where allowed), and is of the common standard or of none; with a constraint on the type it satisfies the constraint as well. A constraint does not override the settings: asking for a type the settings exclude gives an empty advice. A section that does not state its coordinate system is measured as Cartesian and yet is given no rectangular wire unless toroids allow it.", "quantifier": "every catalogue, settings, common standard, type constraint and section", "why_tests_cant": "every combination of switches, standards and constraints counts", "anchors": ["src/advisers/WireAdviser.cpp: get_advised_wire (catalogue and AdviserConstraints overloads), create_dataset"]}
{"id": "C214", "title": "Cross-referenced cores are other cores of the catalogue, similar within the limit reached", "statement": "A search for cores similar to a reference, on a fresh cross referencer, ends. It returns at most the number asked for, best score first. Each is a core of the catalogue that differs from the reference in shape or material, is of the manufacturer and material asked for, and fits. Each differs from the reference by less than the limit reached in every figure that has a weight, and is not saturated when losses are looked at. If losses are not looked at, a list that is not full has every core asked for that is similar, and it is not full only if the limit set was passed. Two defects: the limit reached can be twice the limit set; and when losses are looked at, a list that is not full can lack a core that is similar and works, since only the best eleven tenths are examined.", "quantifier": "every catalogue, reference core, weights, limit, manufacturer, material and number of results", "why_tests_cant": "the widening of the limit and the five filters interact with every catalogue; a test sees the result for one", "anchors": ["src/advisers/CoreCrossReferencer.cpp: get_cross_referenced_core, apply_filters, filter_core of the six filters", "src/advisers/CoreCrossReferencer.h: set_limit, use_only_manufacturer, use_only_reference_material"]}
{"id": "C215", "title": "The rounds of widening leave no trace, the search before does", "statement": "The result of a search on a fresh cross referencer equals the result of applying the filters once at the limit reached: the scores remembered from the narrower rounds change nothing. But the scores remembered are not cleared between searches: a second search on the same object for another reference uses the distances to the first one, so that cores that are not similar are returned, and the farther one first.", "quantifier": "every catalogue, reference, weights and limit; for the defect, two searches on one object", "why_tests_cant": "it relates histories of calls to a fresh run; tests build a new object each time", "anchors": ["src/advisers/CoreCrossReferencer.cpp: get_cross_referenced_core, filter_core (_validScorings)", "src/advisers/CrossReferencerCommon.h: add_scoring"]}
{"id": "C216", "title": "Scores of similar cores are bounded, and closer cores never score less", "statement": "The score of every core returned is between zero and the sum of the weights. If saturation has no weight, a core that is no farther from the reference than another in any figure that has a weight, losses included, never scores less. If saturation has a weight this fails: its terms are added after the cores have been sorted by losses but in the order from before, so they go to the wrong cores, and a core equal to the reference in losses and use of the material can come after one that differs in both.", "quantifier": "every pair of cores returned by every search", "why_tests_cant": "it relates any two cores within any list; the normalisation mixes all of them", "anchors": ["src/advisers/CrossReferencerCommon.h: normalize_scoring", "src/advisers/CoreCrossReferencer.cpp: MagneticCoreFilterCoreLosses::filter_core"]}
{"id": "C217", "title": "Reported scores of cross-referenced cores are those of the ranking", "statement": "For one population of distances, the weighted score reported for a core is what the ranking adds for it, as long as its distance is not below the floor used in the normalisation. Below it they differ: a core equal to the reference is reported with more than the weight, and when all cores are equal to the reference the ranking adds the whole weight while nothing is reported.", "quantifier": "every weight, greatest, least and own distance", "why_tests_cant": "the two computations are written separately and agree except at small distances, which few catalogues have", "anchors": ["src/advisers/CrossReferencerCommon.h: normalize_scoring, compute_normalized_scorings"]}
{"id": "C218", "title": "Cross-referenced materials are exactly the suitable ones, best first", "statement": "The materials returned for a reference material are the beginning, as long as the number asked for, of a ranking of exactly the suitable materials of the catalogue, best score first. Suitable are those with another name, of the manufacturer asked for, of the application of the reference and (unless the settings allow others) of its type. When the reference has a Curie temperature or losses and that figure has a weight, a suitable material has that figure too. So a material without losses is left out however small the weight of losses, even if it equals the reference in everything else and would come first without that weight.", "quantifier": "every catalogue, reference material, weights, manufacturer, setting and number of results", "why_tests_cant": "seven filters reorder and cull the list in turn, for every catalogue", "anchors": ["src/advisers/CoreMaterialCrossReferencer.cpp: get_cross_referenced_core_material, apply_filters, filter_core_materials of the seven filters"]}
{"id": "C219", "title": "Closer materials never score less", "statement": "The score of every material returned is between zero and the sum of the weights, when these are not negative. A material that is as close to the reference as another in every figure compared never scores less.", "quantifier": "every pair of materials returned by every search", "why_tests_cant": "it relates any two materials within any list; the normalisation of each filter depends on all materials left", "anchors": ["src/advisers/CrossReferencerCommon.h: normalize_scoring, run_cross_referencer_pipeline", "src/advisers/CoreMaterialCrossReferencer.cpp: filter_core_materials"]}
