{
 "claims": [
  {
   "property": "C01",
   "status": "partial",
   "theorems": [
    "C01_media_print_parse_partial",
    "C01_negated_equality_refuted",
    "C01_typed_double_negation_refuted",
    "C01_empty_list_refuted"
   ],
   "note": "Round trip proved for every accepted list except the empty list, not over an equality range, and a typed query with a doubly negated disjunction; these three are refuted with witnesses."
  },
  {
   "property": "C02",
   "status": "partial",
   "theorems": [
    "C02_media_and_partial",
    "C02_and_disjoint_types_refuted",
    "C02_and_negated_type_refuted",
    "C02_and_negated_condition_refuted",
    "C02_and_several_refuted",
    "C02_and_contained_refuted"
   ],
   "note": "Proved for the pairs accepted by and_safe_lists (single right-hand query, no clash of types under conditions, no negated query with condition); the excluded cases are refuted."
  },
  {
   "property": "C03",
   "status": "partial",
   "theorems": [
    "C03_media_or_partial",
    "C03_or_empty_refuted"
   ],
   "note": "Proved for non-empty lists; refuted for an empty list."
  },
  {
   "property": "C04",
   "status": "proved",
   "theorems": [
    "C04_always_matches",
    "C04_never_matches"
   ],
   "note": "Soundness of always/never-match reports in every environment."
  },
  {
   "property": "C05",
   "status": "partial",
   "theorems": [
    "C05_range_lowering_partial"
   ],
   "note": "Meaning preserved and no comparison delimiter left, for the lists of C01."
  },
  {
   "property": "C06",
   "status": "partial",
   "theorems": [
    "C06_custom_media_ok_partial",
    "C06_custom_media_error_partial",
    "C06_custom_media_terminates",
    "C06_custom_type_in_or_refuted",
    "C06_custom_reference_left_refuted",
    "C06_custom_empty_operation_refuted"
   ],
   "note": "Termination proved for all rules; correctness of success and error proved for rules without media types or qualifiers; typed definitions refuted."
  },
  {
   "property": "C44",
   "status": "partial",
   "theorems": [
    "C44_resolution_prefixes",
    "C44_adds_variants",
    "C44_old_browsers",
    "C44_variant_skipped_refuted"
   ],
   "note": "Meaning kept and no query lost for all lists; variants are added for every query and serve old browsers if no variant equals a query of the list; refuted otherwise (the next query is skipped)."
  },
  {
   "property": "C42",
   "status": "proved",
   "theorems": [
    "C42_map_vec",
    "C42_map_smallvec",
    "C42_map_rules",
    "C42_terminates",
    "C42_visits_once",
    "C42_enter_exit_vec",
    "C42_enter_exit_smallvec"
   ],
   "note": "Vec, SmallVec and rule-list mapping, for every visitor result list and every nesting."
  },
  {
   "property": "C43",
   "status": "partial",
   "theorems": [
    "C43_terminates",
    "C43_replaces_once",
    "C43_offers_all_partial",
    "C43_offers_all_refuted",
    "C43_simple"
   ],
   "note": "Termination, at-most-once replacement and coverage of every visitor proved for unreplaced items; refuted in general because the seen set is shared between sibling replacements."
  },
  {
   "property": "C21",
   "status": "proved",
   "theorems": [
    "C21_rect_written",
    "C21_rect_shortest",
    "C21_size_written",
    "C21_size_shortest",
    "C21_rect_round_trip",
    "C21_size_round_trip",
    "C21_lengths",
    "C21_border_radius"
   ],
   "note": "Generic in the component type; instances for lengths and percentages and for border-radius; shortest form."
  },
  {
   "property": "C45",
   "status": "proved",
   "theorems": [
    "C45_position_round_trip",
    "C45_parsed"
   ],
   "note": "calc() values are opaque functions of the reference size."
  },
  {
   "property": "C46",
   "status": "proved",
   "theorems": [
    "C46_time_round_trip"
   ],
   "note": "Over rationals; calc() not modelled."
  },
  {
   "property": "C47",
   "status": "proved",
   "theorems": [
    "C47_easing_round_trip"
   ],
   "note": "Over rationals; calc() arguments not modelled."
  },
  {
   "property": "C48",
   "status": "partial",
   "theorems": [
    "C48_number_text",
    "C48_dimension_text_partial",
    "C48_scientific_refuted"
   ],
   "note": "Numbers proved; dimensions and percentages proved unless the external serializer uses scientific notation for a negative value, refuted otherwise."
  },
  {
   "property": "C09",
   "status": "partial",
   "theorems": [
    "C09_loaded_once",
    "C09_emitted_at_most_once",
    "C09_emitted_once_partial",
    "C09_cycle_refuted",
    "C09_late_import_refuted"
   ],
   "note": "Loading: every reached file exactly once, under every schedule. Output: at most once for every graph; exactly once if every import cycle passes through the entry and imports precede other rules; both exclusions refuted."
  },
  {
   "property": "C10",
   "status": "partial",
   "theorems": [
    "C10_order_partial",
    "C10_order_refuted",
    "C10_layer_order_refuted"
   ],
   "note": "Equals the browser's order (last occurrence) without composes, when the files below a file imported twice are imported only from within it; refuted otherwise, and refuted for the order of layers."
  },
  {
   "property": "C11",
   "status": "partial",
   "theorems": [
    "C11_loading_terminates",
    "C11_bundling_terminates_partial",
    "C11_self_composes_refuted"
   ],
   "note": "Loading bounded for every schedule; ordering and inlining terminate for every graph, cycles included, unless the entry's first composes-from names itself; refuted for that."
  },
  {
   "property": "C12",
   "status": "partial",
   "theorems": [
    "C12_operations_exact",
    "C12_conditions_sound",
    "C12_conditions_complete_partial",
    "C12_media_lists",
    "C12_layer_partial",
    "C12_layer_statements_partial",
    "C12_layer_conflict",
    "C12_conditions_complete_refuted",
    "C12_external_refuted",
    "C12_unlayered_refuted",
    "C12_anonymous_refuted"
   ],
   "note": "Soundness for all acyclic graphs; completeness when files with imports are reached under equivalent conditions; layers when all chains agree and none is anonymous; the exclusions and external imports are refuted."
  },
  {
   "property": "C13",
   "status": "partial",
   "theorems": [
    "C13_same_files",
    "C13_numbering",
    "C13_unconditional_partial",
    "C13_single_partial",
    "C13_conditions_refuted",
    "C13_success_refuted"
   ],
   "note": "Same files always; same bundle for unconditional imports and for files named once, with success schedule-independent; numbering never matters; refuted for conditional imports from two places."
  },
  {
   "property": "C07",
   "status": "proved",
   "theorems": [
    "C07_and",
    "C07_or",
    "C07_and_text",
    "C07_or_text"
   ],
   "note": "and and or are exact for every pair of conditions and every browser, also for the text that is written."
  },
  {
   "property": "C08",
   "status": "partial",
   "theorems": [
    "C08_printed_meaning",
    "C08_print",
    "C08_parse_defined",
    "C08_parse_meaning_partial",
    "C08_roundtrip_partial",
    "C08_prefix_stripped_refuted",
    "C08_and_merged_refuted",
    "C08_roundtrip_refuted"
   ],
   "note": "A browser reads the printed text as the condition (all parsed conditions); parsing succeeds on exactly the conditions. Source meaning kept when vendor-prefixed declarations stand alone, under not or first in an or; reading the output again keeps the meaning without vendor prefixes; the exclusions are refuted."
  },
  {
   "property": "C49",
   "status": "partial",
   "theorems": [
    "C49_name_kept_partial",
    "C49_prefixed_all_refuted"
   ],
   "note": "All names except a vendor-prefixed all, which is refuted."
  },
  {
   "property": "C28",
   "status": "partial",
   "theorems": [
    "C28_order_partial",
    "C28_saturates_partial",
    "C28_nested",
    "C28_has_refuted"
   ],
   "note": "Exact below 1024 in each position, saturating beyond, for selectors made by the builder with nested selectors; :has() refuted; the nesting selector is excluded."
  },
  {
   "property": "C29",
   "status": "partial",
   "theorems": [
    "C29_match_order",
    "C29_builds",
    "C29_parse_order_partial",
    "C29_nesting_prefix",
    "C29_parse_order_refuted"
   ],
   "note": "Match order and nesting prefix exact; parse order gives compounds and combinators in source order, with the components inside a compound reversed (refuted)."
  },
  {
   "property": "C30",
   "status": "partial",
   "theorems": [
    "C30_matching_partial",
    "C30_list_partial",
    "C30_nth_of_refuted"
   ],
   "note": "Exact for all element conditions, tree combinators, nth, :is/:where/:not, lists; shadow trees and pseudo-elements not modelled; :has() and of-S panics are recorded."
  },
  {
   "property": "C31",
   "status": "partial",
   "theorems": [
    "C31_nth_partial",
    "C31_cache_partial",
    "C31_overflow_refuted"
   ],
   "note": "Exact for every use history of the cache; an overflowing B is refuted."
  },
  {
   "property": "C32",
   "status": "partial",
   "theorems": [
    "C32_no_false_negative",
    "C32_clear",
    "C32_fast_reject_partial"
   ],
   "note": "History theorem complete; fast rejection proved for the selectors of C30."
  },
  {
   "property": "C23",
   "status": "proved",
   "theorems": [
    "C23_written",
    "C23_unique",
    "C23_accepted",
    "C23_unknown",
    "C23_unclosed",
    "C23_total",
    "C23_empty_panics"
   ],
   "note": "Acceptance, meaning, uniqueness and errors exact; using the accepted empty pattern panics (theorem C23_empty_panics)."
  },
  {
   "property": "C24",
   "status": "partial",
   "theorems": [
    "C24_option_on",
    "C24_option_off_partial",
    "C24_map_partial",
    "C24_printed_partial",
    "C24_dashed_partial",
    "C24_dashed_reference_partial",
    "C24_file_reference_partial",
    "C24_composes_partial",
    "C24_composes_bundle_partial",
    "C24_key_refuted",
    "C24_animation_refuted",
    "C24_string_refuted",
    "C24_counter_refuted",
    "C24_twice_refuted",
    "C24_order_refuted",
    "C24_placeholder_refuted"
   ],
   "note": "Exact for every run of print operations with all options on and names ordinary for their place; the composes of bundled files as containment; six refuted cases."
  },
  {
   "property": "C25",
   "status": "partial",
   "theorems": [
    "C25_pattern",
    "C25_files_partial",
    "C25_exports_partial",
    "C25_exports_files_partial",
    "C25_adjacent_refuted"
   ],
   "note": "Same file: every pattern with [local]. Different files: [hash], [local] and literals where a leading hash is separated; [hash][local] refuted."
  },
  {
   "property": "C26",
   "status": "partial",
   "theorems": [
    "C26_position_partial",
    "C26_mappings_partial",
    "C26_escape_refuted",
    "C26_multibyte_refuted"
   ],
   "note": "Exact for every run whose renamed names need no escape; escapes and multi-byte write_char refuted."
  },
  {
   "property": "C27",
   "status": "partial",
   "theorems": [
    "C27_modes",
    "C27_content",
    "C27_indentation_partial",
    "C27_overflow_refuted"
   ],
   "note": "Modes complete; indentation up to 127 levels, refuted beyond (8-bit overflow)."
  },
  {
   "property": "C50",
   "status": "partial",
   "theorems": [
    "C50_ident_partial",
    "C50_sites_partial",
    "C50_dashed",
    "C50_dashed_reference",
    "C50_empty_refuted"
   ],
   "note": "All non-empty names without NUL at every place that prints names; the empty name refuted."
  },
  {
   "property": "C17",
   "status": "partial",
   "theorems": [
    "C17_get_longhand_partial",
    "C17_get_shorthand_sound_partial",
    "C17_get_shorthand_complete_partial",
    "C17_set_wins_partial",
    "C17_set_others_partial",
    "C17_set_order_partial",
    "C17_set_get_longhand_partial",
    "C17_set_get_shorthand_partial",
    "C17_shadowed_refuted",
    "C17_important_refuted",
    "C17_grouped_refuted",
    "C17_uneven_refuted",
    "C17_unparsed_refuted",
    "C17_all_refuted",
    "C17_list_refuted",
    "C17_prefixed_shorthand_refuted",
    "C17_prefixed_longhand_refuted",
    "C17_mixed_refuted"
   ],
   "note": "All typed blocks and properties over the real shorthand and logical tables: get agrees with the cascaded value, set wins and leaves other properties alone. Hypotheses exclude ten cases the code gets wrong, each refuted (shadowed, important, grouped, uneven, unparsed, all, list, prefixed shorthand, prefixed longhand, mixed importance)."
  },
  {
   "property": "C18",
   "status": "partial",
   "theorems": [
    "C18_remove_longhand_partial",
    "C18_remove_shorthand_partial",
    "C18_unparsed_refuted",
    "C18_prefixed_shorthand_refuted",
    "C18_overlap_refuted"
   ],
   "note": "After remove no declaration sets the property and all other longhands keep their value and order, where the containing shorthands are parsed and have matching prefixes; unparsed, prefixed and overlapping shorthands refuted."
  },
  {
   "property": "C19",
   "status": "partial",
   "theorems": [
    "C19_reparse_partial",
    "C19_reparse_body_partial",
    "C19_print_partial",
    "C19_rule_partial",
    "C19_order_partial",
    "C19_rule_order_partial",
    "C19_comment_refuted",
    "C19_empty_refuted",
    "C19_growing_refuted",
    "C19_fallback_refuted"
   ],
   "note": "All token texts and blocks, minified or not, inside braces, with CSS modules and nested rules; typed grammars are parameters assumed to read what they print. Comments when minifying, empty values and fallbacks otherwise are refuted."
  },
  {
   "property": "C20",
   "status": "partial",
   "theorems": [
    "C20_supported_partial",
    "C20_fallback_partial",
    "C20_compiled_partial",
    "C20_later_physical_refuted",
    "C20_equal_inline_refuted",
    "C20_important_refuted",
    "C20_mixed_values_refuted",
    "C20_inset_refuted"
   ],
   "note": "All sequences of declarations of one family, any writing mode, normal and important; where logical properties are compiled, inline declarations must come last. Five refuted cases for compiled logical properties and older browsers."
  },
  {
   "property": "C22",
   "status": "partial",
   "theorems": [
    "C22_shorthand_partial",
    "C22_fallback_partial",
    "C22_supports_partial",
    "C22_pair_partial",
    "C22_overflow_refuted",
    "C22_author_fallback_refuted",
    "C22_later_supports_refuted",
    "C22_mixed_values_refuted"
   ],
   "note": "All declaration sequences of outline, list-style, container, overflow and gap in a modern browser, with older browsers and @supports rules under stated conditions; overflow: clip, author fallbacks, later declarations after an @supports rule and mixed values are refuted."
  },
  {
   "property": "C41",
   "status": "partial",
   "theorems": [
    "C41_merge_partial",
    "C41_unprefixed_last_partial",
    "C41_no_new_values",
    "C41_prefix_after_standard_refuted",
    "C41_targets_refuted",
    "C41_unparsed_refuted",
    "C41_old_value_refuted"
   ],
   "note": "All declaration sequences: without targets if no prefix leaves a value it shares with another prefix; with targets if an unprefixed declaration comes last; no values are made up. Four refuted cases (prefix after standard, targets, unparsed in between, older browsers)."
  },
  {
   "property": "C51",
   "status": "partial",
   "theorems": [
    "C51_fallback_partial",
    "C51_caret_refuted",
    "C51_prefixed_refuted"
   ],
   "note": "All sequences of unprefixed declarations of unrelated properties, modern and older browsers; caret with caret-color and prefixed filters are refuted."
  },
  {
   "property": "C38",
   "status": "partial",
   "theorems": [
    "C38_at_or_above_partial",
    "C38_listed_partial",
    "C38_none_partial",
    "C38_wrap_refuted",
    "C38_unknown_refuted"
   ],
   "note": "All lists of names and versions; versions are numerals with at most 32-bit parts. Parts above 255 wrap (refuted as a minimum that is listed, still at or below), unknown browsers are ignored."
  },
  {
   "property": "C39",
   "status": "partial",
   "theorems": [
    "C39_balanced",
    "C39_implied_partial",
    "C39_custom_refuted",
    "C39_variable_refuted",
    "C39_exact_refuted"
   ],
   "note": "All nestings of @supports and other rules: balanced, each place sees just the enclosing conditions; what is left alone is supported by every browser that satisfies the conditions if these have no custom properties and variables (refuted otherwise). 'Exactly' is refuted for 'and not'."
  },
  {
   "property": "C40",
   "status": "partial",
   "theorems": [
    "C40_compiled_partial",
    "C40_monotone",
    "C40_partially",
    "C40_conflict_refuted",
    "C40_selectors_refuted"
   ],
   "note": "All target sets and features; monotone in full. A feature that is both included and excluded is compiled, and excluding one selector feature turns off the others (refuted)."
  },
  {
   "property": "C52",
   "status": "partial",
   "theorems": [
    "C52_exact",
    "C52_newer_partial",
    "C52_newer_refuted"
   ],
   "note": "All rows and target sets: exactly the prefixes of the target versions. Newer versions are covered if no range begins after the target; refuted for Opera 12/15 transforms and Edge 18/80 appearance in the real table."
  },
  {
   "property": "C53",
   "status": "partial",
   "theorems": [
    "C53_understood_partial",
    "C53_panic_refuted"
   ],
   "note": "All colours without keywords and all target sets that exclude no colour feature, over the real support table. light-dark(currentColor, lab()) panics (refuted)."
  },
  {
   "property": "C37",
   "status": "proved",
   "theorems": [
    "C37_exact",
    "C37_shortest"
   ],
   "note": "All 2^32 colours, all targets, minified or not; alpha is computed in single precision (Coq SpecFloat). The decimal text of the rounded alpha value is assumed to be the shortest one, as the number serializer of cssparser prints it."
  },
  {
   "property": "C14",
   "status": "partial",
   "theorems": [
    "C14_finishes",
    "C14_unique",
    "C14_cascade_partial",
    "C14_proper_partial",
    "C14_others_partial",
    "C14_tidy_partial",
    "C14_importance_refuted",
    "C14_own_key_refuted",
    "C14_fallback_refuted",
    "C14_prefixes_refuted",
    "C14_split_refuted",
    "C14_layer_refuted"
   ],
   "note": "All rule lists; minification finishes with one result (in full). The cascade is kept for tidy sheets (layers with simple names, layers, keyframes and @property not inside conditions, no imports), without targets, if rules are removed properly, which follows if the last rule was never merged into the one before it and importance agrees. Refuted otherwise: importance, self-removal, fallbacks, prefixes, split selectors, layers in conditions."
  },
  {
   "property": "C15",
   "status": "partial",
   "theorems": [
    "C15_layers_partial",
    "C15_condition_refuted",
    "C15_dotted_refuted"
   ],
   "note": "The order of all named layers, for the same sheets as C14. Layers inside conditions and dotted names are refuted."
  },
  {
   "property": "C16",
   "status": "partial",
   "theorems": [
    "C16_keyframes_partial",
    "C16_property_partial",
    "C16_condition_refuted",
    "C16_property_refuted"
   ],
   "note": "All names and prefixes, for the same sheets as C14. Keyframes and @property inside conditions are refuted."
  },
  {
   "property": "C33",
   "status": "partial",
   "theorems": [
    "C33_selector_partial",
    "C33_rules_partial",
    "C33_finishes_partial",
    "C33_leading_refuted",
    "C33_has_refuted",
    "C33_is_refuted",
    "C33_type_refuted",
    "C33_type_later_refuted",
    "C33_host_refuted",
    "C33_root_refuted"
   ],
   "note": "All nesting depths, selector lists, conditions and documents: same elements, same specificity, readable selectors, and printing finishes. Conditions exclude the cases where the code is wrong: a substituted selector that brings combinators or types into the middle of another one, & in :host() and & outside of rules; each is refuted."
  },
  {
   "property": "C34",
   "status": "partial",
   "theorems": [
    "C34_kept_partial",
    "C34_removed",
    "C34_not_refuted",
    "C34_list_refuted"
   ],
   "note": "All symbol sets, nested rules and documents without these symbols; selectors in unused rules must need the enclosing element. :not(&) and :is(.b, &) are refuted. Unused rules are always removed."
  },
  {
   "property": "C35",
   "status": "partial",
   "theorems": [
    "C35_length_percentages_partial",
    "C35_lengths_partial",
    "C35_times_partial",
    "C35_angles_partial",
    "C35_percentages_partial",
    "C35_rounding_ties_refuted",
    "C35_negative_steps_refuted",
    "C35_single_hypot_refuted",
    "C35_hypot_units_refuted",
    "C35_negative_percentages_refuted",
    "C35_vanishing_sign_refuted"
   ],
   "note": "All expressions and unit sizes, over exact rationals, for lengths, length-percentages, percentages, times and angles. Excluded and refuted one by one: ties below zero, negative steps of round(), hypot() of one or of three dimensions, sign() of a value that vanishes, negative percentage bases. Not modelled: pow, sqrt, log, exp, trigonometric functions and floating point."
  },
  {
   "property": "C36",
   "status": "partial",
   "theorems": [
    "C36_length_percentages_partial",
    "C36_lengths_partial",
    "C36_single_argument_refuted",
    "C36_zero_factor_refuted"
   ],
   "note": "All trees that come from reading: the printed tokens can be read in exactly one way, with CSS precedence, and have the value of the source. Functions multiplied by zero and a single argument at the root are refuted. Characters of the tokens are not part of this model."
  },
  {
   "property": "C54",
   "status": "partial",
   "theorems": [
    "C54_length_percentages_partial",
    "C54_lengths_partial",
    "C54_times_partial",
    "C54_angles_partial",
    "C54_percentages_partial",
    "C54_nested_sums_refuted",
    "C54_signs_refuted",
    "C54_percentage_panics_refuted",
    "C54_numbers_refuted"
   ],
   "note": "Lengths and length-percentages: accepted and finished if no right operand of a sum is a sum and sign() is not used (both refuted otherwise). Times and angles: all well-formed expressions. Percentages: without abs, sign and hypot of three, which panic (refuted)."
  },
  {
   "property": "C55",
   "status": "partial",
   "theorems": [
    "C55_direction_rules_partial",
    "C55_keyframe_custom_partial",
    "C55_any_handlers_partial",
    "C55_sides_partial",
    "C55_compiled_sides_partial",
    "C55_shorthands_partial",
    "C55_pairs_partial",
    "C55_prefixes_partial",
    "C55_fallbacks_partial",
    "C55_unhandled_partial",
    "C55_direction_partial",
    "C55_custom_partial",
    "C55_direction_refuted",
    "C55_direction_reset_refuted",
    "C55_all_refuted",
    "C55_dir_rules_refuted",
    "C55_supports_refuted",
    "C55_attribute_refuted",
    "C55_history_refuted"
   ],
   "note": "All blocks, histories and targets, for any handlers that meet a stated contract and for the twelve handlers that are modelled (outline, gap, margin, padding, scroll-margin, scroll-padding, list-style, inset, overflow, container, fallback, prefix), besides properties without a handler, direction, unicode-bidi and custom properties. Not covered: handlers that are not modelled. Excluded and refuted: unparsed direction, unicode-bidi and all; rules added for @supports and, but for one direction at a time in blocks with no important declaration and no `all`, for logical properties; values of custom properties in style attributes; equal text after different histories."
  },
  {
   "property": "C56",
   "status": "proved",
   "theorems": [
    "C56_meaning",
    "C56_shortest"
   ],
   "note": "All ranges with first <= last <= U+10FFFF. The text is read with the urange syntax of CSS Syntax on the concatenated tokens; Rust's hexadecimal formatting is assumed."
  },
  {
   "property": "C57",
   "status": "proved",
   "theorems": [
    "C57_kept",
    "C57_read",
    "C57_printed",
    "C57_values"
   ],
   "note": "All positions of the grammar and all positions that can be built, for any lengths and calc() values (a parameter of the model), over exact rationals and at the level of tokens."
  },
  {
   "property": "C58",
   "status": "partial",
   "theorems": [
    "C58_read",
    "C58_accepted",
    "C58_unambiguous",
    "C58_written_partial",
    "C58_name_case_refuted",
    "C58_count_case_refuted",
    "C58_timeline_refuted",
    "C58_nameless_refuted",
    "C58_empty_refuted"
   ],
   "note": "Reading: all values. Printing: all values with a name where keywords of easing functions and infinite that are names are in lower case, and timeline none does not land on the fill mode; everything else is refuted (names in other letter case, timeline none, no name, the empty value). Tokens, exact rationals, non-empty names; scroll() and view() are opaque."
  },
  {
   "property": "C59",
   "status": "partial",
   "theorems": [
    "C59_list_read_partial",
    "C59_as_function",
    "C59_kept_partial",
    "C59_read_partial",
    "C59_printed",
    "C59_translate",
    "C59_rotate",
    "C59_scale",
    "C59_perspective_none_refuted",
    "C59_negative_distance_refuted"
   ],
   "note": "All values, lengths and boxes, over the real numbers and at the level of tokens. The functions that translate, rotate and scale are turned into have the same effect. perspective(none) is not read and negative distances are accepted (refuted); a length is a token with its value."
  },
  {
   "property": "C60",
   "status": "partial",
   "theorems": [
    "C60_matrix_partial",
    "C60_perspective_refuted",
    "C60_multiply",
    "C60_effect",
    "C60_inverse",
    "C60_determinant",
    "C60_transpose",
    "C60_to_2d",
    "C60_decompose_partial",
    "C60_decompose_order_refuted",
    "C60_decompose_skew_refuted",
    "C60_decompose_half_turn_refuted"
   ],
   "note": "Products, inverses, determinants, transposes and two-dimensional matrices in full, over the real numbers. Matrices of lists if distances are at least one pixel (refuted below). Decomposition for uniform scale, rotations below 180 degrees about an axis with a positive coordinate, and translation; refuted for other scales, shears and half turns."
  },
  {
   "property": "C61",
   "status": "partial",
   "theorems": [
    "C61_others",
    "C61_individual_partial",
    "C61_unprefixed_partial",
    "C61_prefixed_partial",
    "C61_stacked_partial",
    "C61_order_refuted",
    "C61_twice_refuted",
    "C61_dropped_refuted",
    "C61_none_refuted",
    "C61_prefix_refuted"
   ],
   "note": "Only individual properties: all blocks and targets. Only transform: unprefixed with all targets, prefixed without targets if no prefix leaves a value it shares. Mixed blocks: transform followed by individual properties it commutes with. Refuted: order, repeated, dropped, none, prefix."
  },
  {
   "property": "C62",
   "status": "partial",
   "theorems": [
    "C62_read_partial",
    "C62_least_refuted",
    "C62_printed",
    "C62_round_trip",
    "C62_one_meaning"
   ],
   "note": "Reading: all texts of the grammar with values in 32 bits, except the least offset (refuted when a space follows its sign). Printing and reading back: all 32-bit steps and offsets. Characters are bytes; escapes and comments inside An+B are not modelled, cssparser is modelled from its specification and memory."
  },
  {
   "property": "C63",
   "status": "partial",
   "theorems": [
    "C63_read_back_partial",
    "C63_nested_partial",
    "C63_unreadable_refuted",
    "C63_placeholder_refuted",
    "C63_scope_refuted",
    "C63_nested_refuted",
    "C63_twice_refuted",
    "C63_tokens_refuted"
   ],
   "note": "All token sequences that the parser accepts, if the selectors are fine_sel: no bare :nth-col(1), old placeholder names, empty :lang(), names that need escapes, :scope in odd places of :has() and :nth-child(of), type selectors after & inside :is() (all refuted). Tokens, not characters; no CSS modules, no default namespace, no targets."
  },
  {
   "property": "C64",
   "status": "partial",
   "theorems": [
    "C64_read_partial",
    "C64_one_meaning",
    "C64_nested_partial",
    "C64_unnested",
    "C64_placeholder_refuted",
    "C64_slotted_refuted",
    "C64_nested_refuted"
   ],
   "note": "All token sequences of the grammar of SelGramSpec.v: type, id, class and attribute selectors, all named pseudo classes and elements, :is/:where/:any/:not/:has/:host/:nth-*/:lang/:dir/:state/::part/::slotted/::cue/::view-transition-*, combinators, relative and nested lists. Left out: what the parser accepts beyond the grammar; ::-ms-input-placeholder, combinators within ::slotted() and :host(), & inside :nth-child() and ::cue() of nested rules (all refuted); CSS modules, default namespaces, characters of tokens."
  },
  {
   "property": "C65",
   "status": "partial",
   "theorems": [
    "C65_mix_partial",
    "C65_unknown",
    "C65_read",
    "C65_read_only",
    "C65_percentage_range_refuted",
    "C65_transparent_refuted",
    "C65_missing_refuted"
   ],
   "note": "Over the reals (f32 rounding is left out, except to bytes). Colours that are converted have no missing components; hues of `longer` follow the range that the code documents. Refuted: percentages outside 0-100% are accepted; fully transparent mixes in polar spaces lose their components; missing components are not carried forward through conversions."
  },
  {
   "property": "C66",
   "status": "partial",
   "theorems": [
    "C66_convert_partial",
    "C66_round_trip",
    "C66_round_trip_hsl",
    "C66_round_trip_hwb",
    "C66_round_trip_linear",
    "C66_curves",
    "C66_gamut",
    "C66_clip",
    "C66_clip_same",
    "C66_prophoto_refuted"
   ],
   "note": "Over the reals: the code computes with f32. Matrices agree with the primaries and white points up to 1e-15 (1e-5 for prophoto-rgb, 1e-6 for the chromatic adaptation), whose constants the code takes from CSS Color. Left out: components of prophoto-rgb below -1/32, which become missing (refuted), and that colours mapped into sRGB on the way to hsl and hwb keep their meaning (C66_gamut says what mapping does)."
  },
  {
   "property": "C67",
   "status": "partial",
   "theorems": [
    "C67_read_partial",
    "C67_css_partial",
    "C67_print_partial",
    "C67_alpha_refuted",
    "C67_hue_refuted",
    "C67_nested_refuted",
    "C67_old_refuted",
    "C67_crash_refuted"
   ],
   "note": "Tokens are given; numbers are real. Read: C67_read_partial gives the texts that are read and their colours exactly; C67_css_partial covers all of CSS save relative colours without an alpha, with keywords in calc() or with h outside its place, where the code departs from CSS (refuted: C67_alpha_refuted, C67_hue_refuted, C67_nested_refuted). The old hsl() takes numbers (C67_old_refuted), and calc() that mixes types crashes (C67_crash_refuted). Printing leaves out the results of color-mix()."
  },
  {
   "property": "C68",
   "status": "partial",
   "theorems": [
    "C68_supported_partial",
    "C68_compiled_partial",
    "C68_image_partial",
    "C68_image_gone_partial",
    "C68_image_raw_refuted",
    "C68_vertical_refuted",
    "C68_image_reset_refuted",
    "C68_image_kept_refuted",
    "C68_image_fallback_refuted",
    "C68_later_physical_refuted",
    "C68_not_compiled_refuted",
    "C68_fallback_refuted"
   ],
   "note": "C68_supported_partial: widths, styles and colours of all sides for any block with any values, in all writing modes; border images apart (C68_image_partial, C68_image_gone_partial; not with var(), C68_image_raw_refuted), as merging border-width, -style and -color into border resets border-image (C68_image_reset_refuted), and dropping border does not (C68_image_kept_refuted). Compiled blocks only with logical declarations last (C68_later_physical_refuted). Browsers that ignore some values are not modelled (C68_fallback_refuted)."
  },
  {
   "property": "C69",
   "status": "partial",
   "theorems": [
    "C69_printed_partial",
    "C69_raw_partial",
    "C69_value_partial",
    "C69_one_reading",
    "C69_comment_refuted",
    "C69_sign_refuted",
    "C69_sign_ident_refuted",
    "C69_point_refuted",
    "C69_color_refuted",
    "C69_unit_refuted",
    "C69_small_refuted",
    "C69_backslash_refuted",
    "C69_raw_refuted"
   ],
   "note": "C69_value_partial: any nested value whose neighbouring tokens are set apart in the source is printed as text that the tokenizer of CSS Syntax reads as its tokens; C69_printed_partial the same for any list of items, C69_raw_partial for rules that are not known. Missing: neighbours that touch, which are changed in the cases C69_comment_refuted, C69_sign_refuted, C69_sign_ident_refuted, C69_point_refuted, C69_color_refuted, C69_raw_refuted; tokens changed by themselves: C69_unit_refuted, C69_small_refuted, C69_backslash_refuted; numbers that are not finite."
  },
  {
   "property": "C70",
   "status": "partial",
   "theorems": [
    "C70_substituted_partial",
    "C70_one_result",
    "C70_nothing_left",
    "C70_circular_refuted",
    "C70_empty_refuted",
    "C70_touching_refuted"
   ],
   "note": "C70_substituted_partial: for tables without circular references and without empty values the substitution ends and gives the one result of the rules of CSS, with nothing left to substitute. Circular references behind another token never end (C70_circular_refuted), an empty variable hides the next reference (C70_empty_refuted), values that touch run together (C70_touching_refuted)."
  },
  {
   "property": "C71",
   "status": "partial",
   "theorems": [
    "C71_block_partial",
    "C71_one_value",
    "C71_one_reading",
    "C71_names_refuted",
    "C71_two_names_refuted",
    "C71_auto_columns_refuted",
    "C71_more_areas_refuted",
    "C71_later_rows_refuted",
    "C71_rectangles_refuted",
    "C71_empty_areas_refuted",
    "C71_size_accepted",
    "C71_auto_accepted_partial",
    "C71_empty_auto_refuted"
   ],
   "note": "C71_block_partial: for all blocks of valid declarations the result is valid and gives the same grid, under lines_named (names on a line between rows only if the first line has some) and fits (as many tracks as rows of areas, no grid-auto-columns with areas and without rows, not two names on the first line if not minified). Without these it is false: C71_names_refuted, C71_two_names_refuted, C71_auto_columns_refuted, C71_more_areas_refuted, C71_later_rows_refuted; for invalid areas see C71_rectangles_refuted and C71_empty_areas_refuted. Sizes that are read are valid (C71_size_accepted, C71_auto_accepted_partial), except that an empty value is read (C71_empty_auto_refuted)."
  },
  {
   "property": "C72",
   "status": "partial",
   "theorems": [
    "C72_syntax_partial",
    "C72_accepted",
    "C72_initial_value_partial",
    "C72_refused_partial",
    "C72_first_component_refuted",
    "C72_rest_refuted",
    "C72_newline_refuted",
    "C72_dash_refuted",
    "C72_keyword_refuted"
   ],
   "note": "C72_syntax_partial and C72_accepted: syntax strings round trip; C72_initial_value_partial and C72_refused_partial: the value is matched with the first component that fits, or refused, whatever the parsers of single values are, unless an earlier component without multiplier fits a beginning of it. Without this it is false: C72_first_component_refuted, C72_rest_refuted. Newlines and literals with - are refused (C72_newline_refuted, C72_dash_refuted), reserved keywords accepted (C72_keyword_refuted)."
  },
  {
   "property": "C73",
   "status": "partial",
   "theorems": [
    "C73_flex_read_partial",
    "C73_flex_printed",
    "C73_flex_accepted_partial",
    "C73_flow_read",
    "C73_flow_printed",
    "C73_flow_accepted_partial",
    "C73_empty_refuted",
    "C73_negative_refuted",
    "C73_block_partial",
    "C73_aliases",
    "C73_targets_partial",
    "C73_direction_2009_partial",
    "C73_prefix_refuted",
    "C73_legacy_order_refuted",
    "C73_legacy_dropped_refuted",
    "C73_ordinal_refuted",
    "C73_lines_refuted"
   ],
   "note": "C73_flex_read_partial, C73_flex_printed, C73_flex_accepted_partial and the same for flex-flow: the shorthands round trip; C73_block_partial and C73_aliases: merged blocks give the same values, for a browser with any prefixes; C73_targets_partial: with any targets the standard longhands keep their values. Missing: the values content, min-content etc. (kept as tokens); empty values and negative factors are accepted (C73_empty_refuted, C73_negative_refuted). False without the condition steady (C73_prefix_refuted); the old properties are moved or dropped (C73_legacy_order_refuted, C73_legacy_dropped_refuted) and mistranslated (C73_ordinal_refuted, C73_lines_refuted)."
  },
  {
   "property": "C74",
   "status": "partial",
   "theorems": [
    "C74_read",
    "C74_printed",
    "C74_block_partial",
    "C74_targets_partial",
    "C74_unknown",
    "C74_tokens_partial",
    "C74_fallback_refuted",
    "C74_tokens_refuted"
   ],
   "note": "C74_read and C74_printed: the keywords round trip; C74_block_partial and C74_targets_partial: blocks keep their effect in browsers that need no fallback. False without this condition (C74_fallback_refuted: position: relative before sticky is lost) and for values with variables (C74_tokens_refuted: they are moved before the other values and lose)."
  }
 ]
}