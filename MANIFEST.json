{
 "claims": [
  {
   "property": "C01",
   "status": "proved",
   "theorems": [
    "C01_matching_sound"
   ],
   "note": ""
  },
  {
   "property": "C02",
   "status": "proved",
   "theorems": [
    "C02_matching_complete"
   ],
   "note": ""
  },
  {
   "property": "C03",
   "status": "proved",
   "theorems": [
    "C03_matching_no_duplicates"
   ],
   "note": ""
  },
  {
   "property": "C04",
   "status": "proved",
   "theorems": [
    "C04_matching_terminates"
   ],
   "note": ""
  },
  {
   "property": "C05",
   "status": "proved",
   "theorems": [
    "C05_into_unique_exact"
   ],
   "note": ""
  },
  {
   "property": "C06",
   "status": "proved",
   "theorems": [
    "C06_matching_no_panic"
   ],
   "note": ""
  },
  {
   "property": "C07",
   "status": "partial",
   "theorems": [
    "C07_with_quad_refuted",
    "C07_with_quad_partial",
    "C07_with_quad_exact"
   ],
   "note": "The documented contract is false: resource components are not compared. Proved for quads that agree with the pattern, as returned by a dataset; C07_with_quad_exact gives the result for all quads."
  },
  {
   "property": "C08",
   "status": "proved",
   "theorems": [
    "C08_evaluation_graph",
    "C08_other_graphs_irrelevant"
   ],
   "note": ""
  },
  {
   "property": "C09",
   "status": "proved",
   "theorems": [
    "C09_hydration_sound"
   ],
   "note": "Ok implies the declarative meaning, Err implies contradiction; all registries, also recursive"
  },
  {
   "property": "C10",
   "status": "partial",
   "theorems": [
    "C10_hydration_complete_partial",
    "C10_hydration_complete_refuted"
   ],
   "note": "Full statement refuted: variables introduced by a sum variant are not declared when matched, hydration panics. Partial: complete for scoped registries"
  },
  {
   "property": "C11",
   "status": "partial",
   "theorems": [
    "C11_same_quads_partial",
    "C11_same_quads_no_sum",
    "C11_same_quads_refuted",
    "C11_fuel"
   ],
   "note": "Refuted with sums (value for one order, panic for another). Never two different values, never value and error; full for registries without sums"
  },
  {
   "property": "C12",
   "status": "partial",
   "theorems": [
    "C12_hydrate_arity",
    "C12_hydrate_arity_ok",
    "C12_literal_input_refuted",
    "C12_dehydrate_arity",
    "C12_dehydrate_arity_ok"
   ],
   "note": "Hydration and dehydration, by the input count the code computes. Refuted for literal layouts with a field input other than 1: this field is ignored."
  },
  {
   "property": "C13",
   "status": "partial",
   "theorems": [
    "C13_layout_not_found",
    "C13_undefined_root",
    "C13_closed",
    "C13_dehydrate_undefined",
    "C13_dehydrate_not_found",
    "C13_dehydrate_closed",
    "C13_dehydrate_public",
    "C13_hydrate_missing_partial",
    "C13_dehydrate_missing_partial",
    "C13_dehydrate_missing_public_partial",
    "C13_hydrate_sum_refuted",
    "C13_dehydrate_sum_refuted"
   ],
   "note": "The error names an undefined layout that the root uses, and is never returned for closed registries (both directions, in full). A missing definition has no influence or gives this error: proved when no sum uses a missing layout; refuted otherwise, a sum drops the failure of a variant whatever its cause."
  },
  {
   "property": "C14",
   "status": "proved",
   "theorems": [
    "C14_conforms",
    "C14_type"
   ],
   "note": ""
  },
  {
   "property": "C15",
   "status": "proved",
   "theorems": [
    "C15_sets_sorted"
   ],
   "note": ""
  },
  {
   "property": "C16",
   "status": "proved",
   "theorems": [
    "C16_hydrate_never",
    "C16_hydrate_always",
    "C16_dehydrate_never",
    "C16_dehydrate_always",
    "C16_dehydrate_public"
   ],
   "note": ""
  },
  {
   "property": "C17",
   "status": "partial",
   "theorems": [
    "C17_sum_partial",
    "C17_choice",
    "C17_sum_refuted"
   ],
   "note": "Refuted: zero or several variants panic instead of returning an error. Uniqueness proved for the successful case; C17_choice gives the exact outcome with one, zero and several variants that apply."
  },
  {
   "property": "C18",
   "status": "partial",
   "theorems": [
    "C18_panics_partial",
    "C18_no_panic_partial",
    "C18_no_panic_refuted"
   ],
   "note": "Refuted (todo!). All panics are the listed todo!s for scoped and bound registries; none on well formed data without sums and byte strings"
  },
  {
   "property": "C19",
   "status": "partial",
   "theorems": [
    "C19_link_order",
    "C19_link_order_only",
    "C19_terminates_partial",
    "C19_terminates_refuted"
   ],
   "note": "Link order proved; termination refuted by cyclic lists, proved for finite lists and non recursive layouts"
  },
  {
   "property": "C20",
   "status": "partial",
   "theorems": [
    "C20_pattern_refuted",
    "C20_hydrate_unchecked",
    "C20_hydrate_id_unchecked",
    "C20_dehydrate_unchecked",
    "C20_hydrate_ignores",
    "C20_dehydrate_ignores",
    "C20_dehydrate_public_ignores"
   ],
   "note": "False of the code: the pattern of text and id layouts is never consulted. Proved: every string is accepted whatever the pattern, with a witness; registries that differ only by their patterns give the same results of hydration and dehydration."
  },
  {
   "property": "C21",
   "status": "proved",
   "theorems": [
    "C21_output_count"
   ],
   "note": ""
  },
  {
   "property": "C22",
   "status": "partial",
   "theorems": [
    "C22_record_keys",
    "C22_missing_key",
    "C22_unknown_key",
    "C22_not_a_map",
    "C22_missing_key_only",
    "C22_failure_refuted"
   ],
   "note": "Success implies the keys are right. The error promised is returned when the other entries are accepted; otherwise the failure (even a panic) of an earlier entry comes first: C22_failure_refuted."
  },
  {
   "property": "C23",
   "status": "proved",
   "theorems": [
    "C23_tuple_length",
    "C23_tuple_mismatch"
   ],
   "note": "Mismatch: IncompatibleLayout once the common prefix is accepted."
  },
  {
   "property": "C24",
   "status": "proved",
   "theorems": [
    "C24_introduced_fresh",
    "C24_fresh_terms",
    "default_options_fresh"
   ],
   "note": ""
  },
  {
   "property": "C25",
   "status": "proved",
   "theorems": [
    "C25_emits",
    "C25_only_instances"
   ],
   "note": ""
  },
  {
   "property": "C26",
   "status": "partial",
   "theorems": [
    "C26_graph_refuted",
    "C26_graph_ignored",
    "C26_explicit_graph_partial"
   ],
   "note": "False of the code: the evaluation graph has no influence on dehydration. Partial: patterns with an explicit graph are emitted in it."
  },
  {
   "property": "C27",
   "status": "partial",
   "theorems": [
    "C27_sum_trace_refuted",
    "C27_sum_ambiguity_refuted",
    "C27_sum_partial",
    "C27_literal_variants_partial"
   ],
   "note": "False of the code: failed variants leave quads and identifications behind. Partial: exact behaviour by number of accepting variants (tried in sequence on the shared state); literal variants leave no trace."
  },
  {
   "property": "C28",
   "status": "proved",
   "theorems": [
    "C28_conflict",
    "C28_functional",
    "C28_ambiguity_only"
   ],
   "note": ""
  },
  {
   "property": "C29",
   "status": "proved",
   "theorems": [
    "C29_lookup",
    "C29_undeclared"
   ],
   "note": ""
  },
  {
   "property": "C30",
   "status": "partial",
   "theorems": [
    "C30_round_trip_partial",
    "C30_round_trip_equal_partial",
    "C30_round_trip_refuted",
    "C30_duplicates_refuted",
    "C30_shared_identifier_refuted",
    "C30_optional_identifier_refuted",
    "C30_terminator_refuted",
    "C30_graph_refuted",
    "C30_round_trip_local_partial",
    "C30_choice_refuted",
    "C30_round_trip_among_partial",
    "C30_round_trip_elsewhere_partial"
   ],
   "note": "False in full: empty ordered lists, duplicates in sets of literals, shared identifiers, absent optional identifiers, nodes identified by the end of the lists, components in another graph, and choices whose failed variant has written a part of the value are lost (refuted with witnesses). Proved for all values of the class of tree layouts (records with nested components and identifiers, literals, ids, choices of data, choices made by a property of the node, constants, tuples, sets, ordered lists), up to the order of the items of sets, and as an equality when no layout is a set."
  },
  {
   "property": "C31",
   "status": "partial",
   "theorems": [
    "C31_no_panic_refuted",
    "C31_no_panic_partial"
   ],
   "note": "False of the code (todo!). Partial: no panic on the supported datatypes and representable numbers."
  },
  {
   "property": "C32",
   "status": "partial",
   "theorems": [
    "C32_build_total",
    "C32_build_partial",
    "C32_sequence_automaton",
    "C32_string_automaton",
    "C32_build_refuted",
    "C32_repeat_refuted"
   ],
   "note": "False for non-empty sequences, {m,n} with m>n, and (e{2,})*. Proved for the other expressions; the automata of sequences are shown to be wrong in general."
  },
  {
   "property": "C33",
   "status": "proved",
   "theorems": [
    "C33_determinize",
    "C33_determinize_total",
    "C33_well_formed"
   ],
   "note": ""
  },
  {
   "property": "C34",
   "status": "partial",
   "theorems": [
    "C34_product_refuted",
    "C34_product_sound",
    "C34_product_complete_partial",
    "C34_product_total",
    "C34_det_product",
    "C34_det_product_total",
    "C34_labels_good",
    "C34_product_exact"
   ],
   "note": "DetAutomaton::product is the intersection (proved). Automaton::product is sound for all automata and complete without epsilon transitions; the full statement is refuted: an epsilon transition is only followed when the other automaton has one too. C34_product_exact gives its language for all automata."
  },
  {
   "property": "C35",
   "status": "partial",
   "theorems": [
    "C35_map",
    "C35_map_total",
    "C35_try_map_refuted",
    "C35_try_map_partial",
    "C35_try_map_empty"
   ],
   "note": "map proved; try_map refuted: it forgets the final states, so its result accepts nothing. Runs are kept."
  },
  {
   "property": "C36",
   "status": "partial",
   "theorems": [
    "C36_minimize_refuted",
    "C36_language_partial",
    "C36_minimal",
    "C36_minimize_total",
    "C36_minimize_empty"
   ],
   "note": "Refuted: the result has no final states. Proved: terminates, deterministic, same language when the blocks containing final states are taken as final, minimal."
  },
  {
   "property": "C37",
   "status": "partial",
   "theorems": [
    "C37_compress_refuted",
    "C37_compress_diverges",
    "C37_compress_sound",
    "C37_compress_complete_partial",
    "C37_compress_total_partial"
   ],
   "note": "Refuted: successors are never expanded, a cycle of single transitions diverges. Sound always; complete when only the initial state branches."
  },
  {
   "property": "C38",
   "status": "proved",
   "theorems": [
    "C38_reachable_states",
    "C38_reachable_states_total",
    "C38_select_states",
    "C38_select_states_total",
    "C38_states"
   ],
   "note": ""
  },
  {
   "property": "C39",
   "status": "partial",
   "theorems": [
    "C39_simplified_partial",
    "C39_simplified_refuted",
    "C39_simplified_keeps"
   ],
   "note": "False when an item of a sequence has no word; proved otherwise. No word is lost, for all expressions."
  },
  {
   "property": "C40",
   "status": "partial",
   "theorems": [
    "C40_is_singleton",
    "C40_as_singleton_total",
    "C40_as_singleton_partial",
    "C40_as_singleton_refuted"
   ],
   "note": "The word returned ignores the repetition counts; is_singleton and absence of panics proved for all."
  },
  {
   "property": "C41",
   "status": "partial",
   "theorems": [
    "C41_print_parse_partial",
    "C41_from_str",
    "C41_from_str_parse",
    "C41_print_parse_refuted"
   ],
   "note": "Strings: proved for all. Expressions: false for `.`, `{m,n}`, empty unions, a union alone in a sequence; proved for the others."
  },
  {
   "property": "C42",
   "status": "partial",
   "theorems": [
    "C42_operators_partial",
    "C42_operators_refuted",
    "C42_branch_partial"
   ],
   "note": "False: an operator applies to the whole branch. Proved for the patterns where it comes right after the first atom of its branch; what is understood by the parser is given for all patterns without empty character sets."
  },
  {
   "property": "C43",
   "status": "proved",
   "theorems": [
    "C43_never_panics",
    "C43_accepts"
   ],
   "note": ""
  },
  {
   "property": "C44",
   "status": "partial",
   "theorems": [
    "C44_decimal_refuted",
    "C44_decimal_negative",
    "C44_decimal_total",
    "C44_decimal_none",
    "C44_decimal_exact_partial"
   ],
   "note": "Refuted: from -1 downwards the text has two signs (\"--1\"). Proved: the algorithm ends, answers None exactly for the numbers without finite expansion, and above -1 the text denotes exactly the number."
  },
  {
   "property": "C45",
   "status": "partial",
   "theorems": [
    "C45_native_refuted",
    "C45_native_panic",
    "C45_native_integers_partial",
    "C45_native_exact",
    "C45_min_i64"
   ],
   "note": "Refuted: panics on zero (the only panic). Proved: non-zero integers between -2^63 (excluded) and 2^64 are returned exactly, no wrap-around, everything else goes unchanged to to_f64 (whose rounding is not modelled)."
  },
  {
   "property": "C46",
   "status": "partial",
   "theorems": [
    "C46_refuted",
    "C46_to_json",
    "C46_from_json",
    "C46_round_trip",
    "C46_fails_exactly_partial"
   ],
   "note": "Refuted: the conversion of the number -1 fails. Proved: the document says the same as the value, the round trip is the identity, and the conversion fails exactly for byte strings, non string keys, non decimal numbers and numbers <= -1."
  },
  {
   "property": "C47",
   "status": "partial",
   "theorems": [
    "C47_zero_refuted",
    "C47_refuted",
    "C47_negative_bignums",
    "C47_integers_partial",
    "C47_panic"
   ],
   "note": "Refuted: panics on zero, and every integer <= -2^64 is converted to another integer (two's complement bytes under tag 3). Proved: all the other integers are denoted exactly (RFC 8949), zero is the only panic."
  },
  {
   "property": "C48",
   "status": "partial",
   "theorems": [
    "C48_cbor_refuted",
    "C48_json",
    "C48_structure",
    "C48_cbor_partial",
    "C48_untagged"
   ],
   "note": "Refuted: the typed CBOR conversion forgets the constant of unit layouts. Proved: structure, JSON, CBOR when unit constants are unit, tagged = untagged without tags."
  },
  {
   "property": "C49",
   "status": "proved",
   "theorems": [
    "C49_union_get",
    "C49_union_contains",
    "C49_optional",
    "C49_chain"
   ],
   "note": ""
  },
  {
   "property": "C50",
   "status": "proved",
   "theorems": [
    "C50_insert",
    "C50_history",
    "C50_returned",
    "C50_iter"
   ],
   "note": "For every history of insertions the definition found is the latest one; every call returns the latest definition before it; the iterator lists exactly the latest definitions, sorted."
  },
  {
   "property": "C51",
   "status": "proved",
   "theorems": [
    "C51_dependencies_sorted",
    "C51_dependencies_exact"
   ],
   "note": ""
  },
  {
   "property": "C52",
   "status": "proved",
   "theorems": [
    "C52_scopes",
    "C52_variable",
    "C52_undeclared_rejected",
    "C52_undeclared_reported"
   ],
   "note": "Scopes against lists of declared names; at the level of documents, an undeclared name anywhere prevents the compilation and UndeclaredVariable is only reported for such names. See also C70."
  },
  {
   "property": "C53",
   "status": "partial",
   "theorems": [
    "C53_scoped_partial",
    "C53_registry_partial",
    "C53_dehydration_partial",
    "C53_hydration_partial",
    "C53_scoped_refuted"
   ],
   "note": "Proved when literal and unit layouts have at most one input; refuted otherwise: a literal layout is compiled as if it had one input. The hydration additionally does not declare the intros of sum variants before matching."
  },
  {
   "property": "C54",
   "status": "proved",
   "theorems": [
    "C54_unique",
    "C54_prefixed",
    "C54_absolute",
    "C54_relative",
    "C54_cases",
    "C54_header"
   ],
   "note": "The validity of IRIs and the resolution against the base are parameters (crate iref)."
  },
  {
   "property": "C55",
   "status": "partial",
   "theorems": [
    "C55_success_partial",
    "C55_more_definitions",
    "C55_redefinition_partial",
    "C55_anonymous_partial",
    "C55_redefinition_refuted",
    "C55_anonymous_refuted"
   ],
   "note": "Refuted: the rejected layout replaces the existing definition, and two anonymous documents collide since each call of Layout::build starts a new generator. Proved: a defined identifier prevents the compilation with LayoutRedefinition, a success keeps every definition, and with one generator anonymous documents never collide."
  },
  {
   "property": "C56",
   "status": "proved",
   "theorems": [
    "C56_reads",
    "C56_entries",
    "C56_rejects",
    "C56_outcome"
   ],
   "note": "Every TryFromJson implementation of layouts/src/abs/syntax is modelled, with the bookkeeping of the entries. C56_reads: a document is read as a layout exactly when a grammar of the documents (AbsJsonSpec.v: entries known and unique, required ones present, parts described at any depth) says so; C56_rejects states the three failures; C56_outcome: otherwise an error, never a panic, except for constants with exponents (see C67). Field and variant names are keys of maps, not entries: duplicates of those are overwritten (example)."
  },
  {
   "property": "C57",
   "status": "proved",
   "theorems": [
    "C57_identifier",
    "C57_errors",
    "C57_roundtrip"
   ],
   "note": "For every interpretation; the round trip under the laws of the external interpretation trait (representations are sets, assigned ones are added), with an instance in GenDataExamples.v."
  },
  {
   "property": "C58",
   "status": "proved",
   "theorems": [
    "C58_integer",
    "C58_errors",
    "C58_roundtrip",
    "C58_datatypes"
   ],
   "note": "For the eight integer types; the lexical forms are those of the external crate xsd_types (parameter), assumed to contain the decimal writing of the values in range."
  },
  {
   "property": "C59",
   "status": "proved",
   "theorems": [
    "C59_terminates",
    "C59_fuel",
    "C59_terminates_refuted"
   ],
   "note": "C59_terminates_refuted: without the hypothesis on sums dehydration diverges."
  },
  {
   "property": "C60",
   "status": "proved",
   "theorems": [
    "C60_output_grows",
    "C60_output_frame"
   ],
   "note": ""
  },
  {
   "property": "C61",
   "status": "proved",
   "theorems": [
    "C61_undeclared_only"
   ],
   "note": ""
  },
  {
   "property": "C62",
   "status": "partial",
   "theorems": [
    "C62_no_clash_partial",
    "C62_no_clash_refuted"
   ],
   "note": "False of the code when a layout mentions a blank node of the generator; witness. Proved when the layouts mention none of the blank nodes of the options: then a blank node of the result names one resource."
  },
  {
   "property": "C63",
   "status": "proved",
   "theorems": [
    "C63_transitions",
    "C63_language"
   ],
   "note": ""
  },
  {
   "property": "C64",
   "status": "proved",
   "theorems": [
    "C64_value_shape"
   ],
   "note": ""
  },
  {
   "property": "C65",
   "status": "proved",
   "theorems": [
    "C65_new",
    "C65_declare_state",
    "C65_add",
    "C65_add_states",
    "C65_initial_final",
    "C65_det_add"
   ],
   "note": ""
  },
  {
   "property": "C66",
   "status": "proved",
   "theorems": [
    "C66_character_set"
   ],
   "note": ""
  },
  {
   "property": "C67",
   "status": "partial",
   "theorems": [
    "C67_from_json_refuted",
    "C67_from_json_partial",
    "C67_last_entry_wins",
    "C67_number_text",
    "C67_number_panics"
   ],
   "note": "Refuted: a number with an exponent makes the conversion panic. Proved: it succeeds exactly for the documents without exponent, and the last entry wins. The number read is the one its text denotes, for all texts."
  },
  {
   "property": "C68",
   "status": "partial",
   "theorems": [
    "C68_serde_refuted",
    "C68_serde_round_trip_partial",
    "C68_serde_machine_sized"
   ],
   "note": "Refuted: serializing zero panics. Proved for values whose numbers are non-zero machine integers or exact floats."
  },
  {
   "property": "C69",
   "status": "proved",
   "theorems": [
    "C69_tagged",
    "C69_tags_valid",
    "C69_get_layout_tag",
    "C69_unknown_property",
    "C69_parse_u64"
   ],
   "note": ""
  },
  {
   "property": "C70",
   "status": "proved",
   "theorems": [
    "C70_meaning",
    "C70_definitions"
   ],
   "note": "The meaning is a relation independent of the functions of the compilation."
  },
  {
   "property": "C71",
   "status": "proved",
   "theorems": [
    "C71_panics",
    "C71_unions",
    "C71_terminates"
   ],
   "note": ""
  },
  {
   "property": "C72",
   "status": "partial",
   "theorems": [
    "C72_roundtrip_partial",
    "C72_injective_partial",
    "C72_language_refuted",
    "C72_graph_refuted",
    "C72_constant_refuted",
    "C72_regexp_refuted",
    "C72_json_refuted"
   ],
   "note": "The full statement is false (refuted theorems): languages of literals, explicit default graphs, zero constants and some regular expressions are not preserved, and the JSON reader refuses what serde writes. Proved for every layout made of preserved parts (plain_layout)."
  },
  {
   "property": "C73",
   "status": "partial",
   "theorems": [
    "C73_first",
    "C73_text_partial",
    "C73_text_refuted",
    "C73_roundtrip"
   ],
   "note": "Refuted: with several xsd:string literals the first is returned instead of an ambiguity error (C73_text_refuted). Proved: the case of exactly one, of none, and the round trip."
  },
  {
   "property": "C74",
   "status": "partial",
   "theorems": [
    "C74_deserialize_sound_partial",
    "C74_deserialize_complete_partial",
    "C74_deserialize_enumerations_partial",
    "C74_deserialize_means_partial",
    "C74_literals",
    "C74_unknown_property_refuted",
    "C74_enumeration_refuted",
    "C74_blank_refuted",
    "C74_invalid_literal_refuted",
    "C74_number_refuted"
   ],
   "note": "The full equivalence is false: the generated code fails on an IRI unknown to the interpretation even for an optional field, propagates the error of a variant instead of trying the next one, reads blank identifiers (type Id) that hydration does not, ignores ill-formed literals, and follows the Rust type rather than the layout. Proved: a deserialized value is the hydrated tree (and the meaning of the layout) outside these cases; conversely for programs whose enumerations are discriminated by the dataset (or that have none) and whose integers are in range."
  },
  {
   "property": "C75",
   "status": "partial",
   "theorems": [
    "C75_roundtrip_partial",
    "C75_exact_partial",
    "C75_two_values_partial",
    "C75_empty_list_refuted",
    "C75_blank_id_refuted",
    "C75_named_graph_refuted",
    "C75_ambiguous_variants_refuted",
    "C75_id_elsewhere_refuted",
    "C75_literal_elsewhere_refuted"
   ],
   "note": "The full statement is false: empty ordered lists, blank node identifiers in derived id layouts, serialization in a named graph, variants that are not told apart, identifiers and literals given to a resource that is not the input. Proved for the programs whose types describe trees: every value is serialized and read back, among other quads and in later states of the interpretation; the same value when there are no unordered lists; two values in one dataset."
  },
  {
   "property": "C76",
   "status": "proved",
   "theorems": [
    "C76_registry",
    "C76_total",
    "C76_unions",
    "C76_document"
   ],
   "note": "The language of the automata is the one of the expressions that are compilable in the sense of C32 (the others are refuted there)."
  },
  {
   "property": "C77",
   "status": "proved",
   "theorems": [
    "C77_type",
    "C77_component",
    "C77_type_conflict",
    "C77_component_conflict",
    "C77_type_order",
    "C77_component_order"
   ],
   "note": ""
  },
  {
   "property": "C78",
   "status": "partial",
   "theorems": [
    "C78_unknown_refuted",
    "C78_id_refuted",
    "C78_unknown_argument_partial",
    "C78_unknown_component_partial"
   ],
   "note": "Refuted in full: unknown words without argument are silently ignored, and id(\"..\") is always rejected. Partial: unknown words with an argument are reported."
  },
  {
   "property": "C79",
   "status": "proved",
   "theorems": [
    "C79_layout",
    "C79_accepted",
    "C79_reading_settles",
    "C79_derived",
    "C79_total",
    "C79_parse_error",
    "C79_computed",
    "C79_well_formed"
   ],
   "note": "The absence of panics assumes that the names of blank nodes are names of variables (blank_names, see C101)."
  },
  {
   "property": "C80",
   "status": "partial",
   "theorems": [
    "C80_declares",
    "C80_faithful_partial",
    "C80_accepted",
    "C80_generates",
    "C80_literal_tuple",
    "C80_set_rejected",
    "C80_optional_refuted",
    "C80_constant_refuted",
    "C80_resource_refuted",
    "C80_variants_refuted",
    "C80_literal_refuted",
    "C80_set_refuted"
   ],
   "note": "Refuted for literals, sets, optional fields, unit constants, identifier resources and unsorted variants; faithful otherwise, and what is declared is characterised for all layouts whose kind is kept."
  },
  {
   "property": "C81",
   "status": "proved",
   "theorems": [
    "C81_ident",
    "C81_no_ident",
    "C81_type",
    "C81_typed",
    "C81_use_module",
    "C81_reference",
    "C81_preset",
    "C81_identifier"
   ],
   "note": "C81_preset: the type of each preset is the runtime type that follows its layout. C81_identifier: the identifier is the capitalized words of the naming part of the IRI."
  },
  {
   "property": "C82",
   "status": "partial",
   "theorems": [
    "C82_prelude",
    "C82_get",
    "C82_build_with_partial",
    "C82_types",
    "C82_same_refuted"
   ],
   "note": "Full for Prelude::build and for the interpretations that tell the presets apart; refuted for the others (build_with panics)."
  },
  {
   "property": "C83",
   "status": "proved",
   "theorems": [
    "C83_accepted",
    "C83_defines",
    "C83_document"
   ],
   "note": "For contexts generating terms (the context of the command line and of the macros); the anonymous resources are the blank nodes of a counter."
  },
  {
   "property": "C84",
   "status": "partial",
   "theorems": [
    "C84_registry_partial",
    "C84_anonymous",
    "C84_distinct_refuted",
    "C84_anonymous_refuted"
   ],
   "note": "Refuted: two layouts may have the same type, and an anonymous layout makes the registry fail; characterisation of the registries that are translated."
  },
  {
   "property": "C85",
   "status": "partial",
   "theorems": [
    "C85_total",
    "C85_agree_partial",
    "C85_forgets",
    "C85_language_refuted",
    "C85_precision_refuted",
    "C85_integer_refuted",
    "C85_converse_refuted"
   ],
   "note": "The full statement is false (refuted theorems). Proved: no panic; a document accepted by the JSON reader is read by serde as the same layout up to languages (C85_forgets), exactly when there is none, provided its numbers are presented alike."
  },
  {
   "property": "C86",
   "status": "proved",
   "theorems": [
    "C86_rejects",
    "C86_accepts",
    "C86_order",
    "C86_registry"
   ],
   "note": "The readers of the formats are parameters; the files are a function."
  },
  {
   "property": "C87",
   "status": "proved",
   "theorems": [
    "C87_default",
    "C87_no_default",
    "C87_include"
   ],
   "note": ""
  },
  {
   "property": "C88",
   "status": "partial",
   "theorems": [
    "C88_round_trip_partial",
    "C88_round_trip_equal_partial",
    "C88_run_partial",
    "C88_round_trip_local_partial",
    "C88_cbor_partial",
    "C88_duplicates_refuted"
   ],
   "note": "For the layouts and values of the class of C30 (see RoundTripSpec.v), JSON output without numbers lower than or equal to -1, and CBOR output without tags; refuted in full on the command line (a set with a duplicate). The crates that read and write the formats are parameters with read-back laws."
  },
  {
   "property": "C89",
   "status": "partial",
   "theorems": [
    "C89_tree_partial",
    "C89_to_json",
    "C89_json_json_partial",
    "C89_rdf",
    "C89_rdf_quads",
    "C89_run_partial",
    "C89_json_refuted",
    "C89_cbor_refuted"
   ],
   "note": "Refuted in full: -1 is not converted from JSON to JSON, 0 panics from JSON to CBOR. Proved: any conversion to JSON that succeeds keeps the value, from JSON to JSON it fails exactly for numbers lower than or equal to -1, to CBOR it keeps exactly representable numbers; quads are always kept."
  },
  {
   "property": "C90",
   "status": "proved",
   "theorems": [
    "C90_written",
    "C90_total"
   ],
   "note": "Laws of the interpretation are the classes ResolverLaws and ResolverMore, met by an instance in GenWrittenExamples.v."
  },
  {
   "property": "C91",
   "status": "proved",
   "theorems": [
    "C91_injective",
    "C91_json",
    "C91_only_json",
    "C91_read_back",
    "C91_decimal_not_json"
   ],
   "note": "For any string literals meeting JsonTextLaws; DisplayExamples.v defines those of json_syntax and proves the laws."
  },
  {
   "property": "C92",
   "status": "partial",
   "theorems": [
    "C92_documents",
    "C92_program",
    "C92_only",
    "C92_generates",
    "C92_ignored",
    "C92_missing",
    "C92_unreadable_refuted",
    "C92_anonymous_refuted",
    "C92_missing_refuted"
   ],
   "note": "Refuted: files that are not documents are ignored, a missing file panics, and documents with anonymous layouts collide when there are two. Proved: the result in every other case (C92_program, C92_generates), and nothing is generated otherwise (C92_only)."
  },
  {
   "property": "C93",
   "status": "partial",
   "theorems": [
    "C93_items",
    "C93_options",
    "C93_only",
    "C93_module",
    "C93_include",
    "C93_anonymous_refuted"
   ],
   "note": "Refuted: documents with anonymous layouts, consistent or not, give no type. Proved: exactly when types are generated when every layout has an identifier, which they are, and nothing is generated otherwise."
  },
  {
   "property": "C94",
   "status": "proved",
   "theorems": [
    "C94_hydrate",
    "C94_dehydrate",
    "C94_dehydrate_public",
    "C94_insert",
    "C94_union",
    "C94_command"
   ],
   "note": "Same outcome with every amount of fuel."
  },
  {
   "property": "C95",
   "status": "partial",
   "theorems": [
    "C95_dehydrate",
    "C95_hydrate",
    "C95_dehydrate_unchecked",
    "C95_hydrate_unchecked",
    "C95_write_refuted",
    "C95_read_refuted"
   ],
   "note": "The range is not checked: refuted for writing and reading. Proved: exactly which numbers are written and which literals are read, for all datatypes (the recognition of datatypes and of decimals, in the crate xsd-types, is a parameter)."
  },
  {
   "property": "C96",
   "status": "proved",
   "theorems": [
    "C96_answers",
    "C96_removed",
    "C96_agree",
    "C96_same_no_sum",
    "C96_predicates"
   ],
   "note": ""
  },
  {
   "property": "C97",
   "status": "proved",
   "theorems": [
    "C97_renamed",
    "C97_agree",
    "C97_same_no_sum",
    "C97_blank_nodes"
   ],
   "note": ""
  },
  {
   "property": "C98",
   "status": "proved",
   "theorems": [
    "C98_failures",
    "C98_replaced",
    "C98_isomorphic",
    "C98_relabelled",
    "C98_hydrated",
    "C98_mentioned_refuted"
   ],
   "note": "The hypothesis on the layouts is needed: C98_mentioned_refuted."
  },
  {
   "property": "C99",
   "status": "proved",
   "theorems": [
    "C99_same_result",
    "C99_points_at",
    "C99_in_document",
    "C99_diagnostic",
    "C99_other",
    "C99_quoted_refuted"
   ],
   "note": "The numbering of the fragments is that of json_syntax (external); the places in the text are not modelled. C99_quoted_refuted records that an invalid language tag is reported on the whole literal, as the statement says."
  },
  {
   "property": "C100",
   "status": "partial",
   "theorems": [
    "C100_written_back_partial",
    "C100_part_of_dataset_partial",
    "C100_shared_refuted",
    "C100_graph_refuted",
    "C100_choice_refuted"
   ],
   "note": "Proved for the layouts whose variables are used where they are introduced, without values in another named graph, and whose variants exclude each other by the shape of their values. The general statement is false: three counter-examples."
  },
  {
   "property": "C101",
   "status": "partial",
   "theorems": [
    "C101_names",
    "C101_labels",
    "C101_derive_exact",
    "C101_derive_partial",
    "C101_dots",
    "C101_derive_refuted",
    "C101_term_partial",
    "C101_term_refuted",
    "C101_panic",
    "C101_total_partial"
   ],
   "note": "The grammar is characterised exactly. The panics depend on the syntax of blank nodes of rdf_types (external): none without dots, exactly the identifiers with dots in the syntax of N-Triples. Terms are kept unless their IRIs are abbreviations in the scope."
  },
  {
   "property": "C102",
   "status": "partial",
   "theorems": [
    "C102_each_alone",
    "C102_shared_blanks",
    "C102_combined_partial",
    "C102_combined_equal_partial",
    "C102_separate_generators_refuted",
    "C102_same_subject_refuted"
   ],
   "note": "The names are kept apart for any layouts without blank nodes. Reading back is proved for the class of C30 (tree layouts), and is false with separate generators or for documents of the same layout about the same node (refuted with witnesses)."
  },
  {
   "property": "C103",
   "status": "partial",
   "theorems": [
    "C103_error",
    "C103_success",
    "C103_panic",
    "C103_refused_partial",
    "C103_quads",
    "C103_silent_refuted"
   ],
   "note": "False in full: what stays in the line buffer is lost without a word if the output refuses it at the exit. Proved: everything else, and what may be lost so (a part of the last line, not longer than the buffer); nothing for quads. The line buffer is that of the standard library of Rust, modelled from its documentation and source."
  },
  {
   "property": "C104",
   "status": "partial",
   "theorems": [
    "C104_blames",
    "C104_json",
    "C104_syntax",
    "C104_build_refuted"
   ],
   "note": "Proved in both directions for files that are not JSON or not layout documents (without exponents in constants, which make the reader panic). False for errors found when the layout is built: the diagnostic has no label and does not depend on the file."
  },
  {
   "property": "C105",
   "status": "proved",
   "theorems": [
    "C105_same_layouts",
    "C105_described",
    "C105_tag",
    "C105_conversion",
    "C105_defined"
   ],
   "note": "C105_described holds for all contexts of resources; the tags are stated for terms, for documents compiled in an empty builder and values that conform to the registry (which is what hydration gives, C14)."
  },
  {
   "property": "C106",
   "status": "partial",
   "theorems": [
    "C106_read",
    "C106_round_trip_partial",
    "C106_equal_partial",
    "C106_compiled_partial",
    "C106_hydrates_partial",
    "C106_dehydrates_partial",
    "C106_graph_refuted",
    "C106_constant_refuted",
    "C106_states_refuted"
   ],
   "note": "The full statement is false (refuted theorems): an explicit default graph is read as the current graph, the constant zero panics, and states of automata without transitions are dropped. Proved for layouts without formats in the default graph, whose numbers are read back (C68); C106_read says what is read in general."
  },
  {
   "property": "C107",
   "status": "partial",
   "theorems": [
    "C107_means",
    "C107_hydrates_partial",
    "C107_hydrates_no_sum",
    "C107_dehydrates_with",
    "C107_dehydrates",
    "C107_sum_refuted",
    "C107_undeclared_refuted"
   ],
   "note": "The meaning of the layouts, the hydrated value and the dehydrated quads do not depend on the order of the patterns; in full without sums (hydration) and with declared variables (dehydration). Refuted in full: with sums one order may panic, and the first undeclared variable is reported."
  },
  {
   "property": "C108",
   "status": "proved",
   "theorems": [
    "C108_same",
    "C108_compiles",
    "C108_renamed"
   ],
   "note": "Errors are the same up to the name or IRI they quote."
  },
  {
   "property": "C109",
   "status": "partial",
   "theorems": [
    "C109_values_partial",
    "C109_tagged",
    "C109_readable",
    "C109_integers",
    "C109_hydrate_partial",
    "C109_hydrate_tagged",
    "C109_tag_refuted",
    "C109_constant_refuted"
   ],
   "note": "That the output can always be read back is refuted: tagged items, integers out of 64 bits, constants of unit layouts. Proved: what is read otherwise, and that a value is readable exactly when none of its layouts is tagged. serde_cbor is a parameter with read-back laws (value_laws, CborReadSpec.v): its reader calls visit_newtype_struct on tagged items, which the visitor of Value does not implement."
  },
  {
   "property": "C110",
   "status": "partial",
   "theorems": [
    "C110_hydrate",
    "C110_hydrate_order_partial",
    "C110_dehydrate_with",
    "C110_dehydrate",
    "C110_map_ids",
    "C110_map_ids_laws",
    "C110_cbor",
    "C110_order_refuted"
   ],
   "note": "Refuted for the order of the items of sets that contain variants of sums."
  },
  {
   "property": "C111",
   "status": "partial",
   "theorems": [
    "C111_dehydrate_partial",
    "C111_hydrate_partial",
    "C111_cbor_partial",
    "C111_hydrate_reordered",
    "C111_check",
    "C111_blank_refuted",
    "C111_sets_refuted"
   ],
   "note": "Blank names given to --layout and the order of the items of sets of variants depend on the order of the files (C111_blank_refuted, C111_sets_refuted)."
  },
  {
   "property": "C112",
   "status": "proved",
   "theorems": [
    "C112_refines",
    "C112_other_commands",
    "C112_tags",
    "C112_refused"
   ],
   "note": "The command line with the extra properties of the files; the tags are specified on the documents."
  },
  {
   "property": "C113",
   "status": "partial",
   "theorems": [
    "C113_classes",
    "C113_fails",
    "C113_total",
    "C113_partition",
    "C113_partition_total",
    "C113_minimize_succeeds",
    "C113_minimize_partial",
    "C113_unreachable_refuted"
   ],
   "note": "minimize panics on the classes of partition exactly when a transition has an unreachable source (C113_unreachable_refuted); the code sets no final state in its result."
  },
  {
   "property": "C114",
   "status": "partial",
   "theorems": [
    "C114_from_float",
    "C114_exact",
    "C114_back",
    "C114_native",
    "C114_cbor_partial",
    "C114_serde_partial",
    "C114_decimal_refuted",
    "C114_zero_refuted",
    "C114_cbor_refuted"
   ],
   "note": "From floats: proved for all f32 and f64. Back and through serde: for any to_f64 exact where a double exists, numbers other than zero, which panics (C114_zero_refuted)."
  },
  {
   "property": "C115",
   "status": "proved",
   "theorems": [
    "C115_reads",
    "C115_refuses",
    "C115_entries",
    "C115_null",
    "C115_untyped",
    "C115_language",
    "C115_sequence"
   ],
   "note": "C115_reads is an equivalence with the inductive grammar layout_sdoc (SerdeDocSpec.v); the others follow from it. The constants are those of C68. The loss of languages without type is the one of C85_language_refuted."
  },
  {
   "property": "C116",
   "status": "proved",
   "theorems": [
    "C116_reads",
    "C116_refuses",
    "C116_field",
    "C116_ignores"
   ],
   "note": "C116_reads is an equivalence with the inductive grammar layout_ldoc (LayoutDocSpec.v); the readers of resources, datasets and ranges are arbitrary. C116_refuses assumes that they give a result or an error. C116_ignores is stated for the fields of a record."
  },
  {
   "property": "C117",
   "status": "proved",
   "theorems": [
    "C117_types",
    "C117_enumerates",
    "C117_readable",
    "C117_unambiguous"
   ],
   "note": "layout_type (HintSpec.v) is defined by the reader with positions of C99; the texts of the kinds of JSON values are external (KindTexts), C117_unambiguous assumes that the text of a set of kinds does not begin with the letter i."
  },
  {
   "property": "C118",
   "status": "proved",
   "theorems": [
    "C118_tells",
    "C118_value",
    "C118_reported",
    "C118_sum"
   ],
   "note": "For all registries and datasets. That something wrong always gives an error is not part of the claim: hydration may panic or loop first (C18, C19)."
  },
  {
   "property": "C119",
   "status": "proved",
   "theorems": [
    "C119_accepts",
    "C119_refuses",
    "C119_exclusive",
    "C119_decides",
    "C119_same",
    "C119_public"
   ],
   "note": "Dehydration accepts exactly the values taken by a judgement on values alone, and its errors are true of the value. Calls that panic or do not end are the subject of C31 and C59."
  },
  {
   "property": "C120",
   "status": "proved",
   "theorems": [
    "C120_taken",
    "C120_not_refused",
    "C120_no_sum",
    "C120_public",
    "C120_sums_refuted",
    "C120_apart"
   ],
   "note": "For layouts without undeclared variables, whose variants exclude each other, and identifiers that are IRIs; the condition on sums is needed (C120_sums_refuted)."
  },
  {
   "property": "C121",
   "status": "proved",
   "theorems": [
    "C121_ambiguity",
    "C121_only_error",
    "C121_no_ambiguity",
    "C121_written_back",
    "C121_total",
    "C121_total_written",
    "C121_never_fails_refuted"
   ],
   "note": "Under the class of layouts of C100 (plain_registry) and, for C121_only_error, the conditions of C120. That writing back never fails is refuted by a witness (C121_never_fails_refuted). It holds when no text layout is for booleans or decimals and the literals written in the layouts are normal (C121_written_back)."
  },
  {
   "property": "C122",
   "status": "proved",
   "theorems": [
    "C122_sorted",
    "C122_reads",
    "C122_reads_all",
    "C122_writes",
    "C122_writes_back"
   ],
   "note": "C122_reads_all and C122_writes_back under the side conditions told in the statement, for documents whose literal layouts have at most one input (C53)."
  },
  {
   "property": "C123",
   "status": "partial",
   "theorems": [
    "C123_read_again_partial",
    "C123_read_again_equal_partial",
    "C123_trees_partial",
    "C123_no_sum_partial",
    "C123_duplicates_refuted"
   ],
   "note": "For the layouts that are trees and the values that are Proper (the class of C30), under the conditions of C121. Missing: other layouts. Without the condition that the value is Proper the claim is false: a set read from 42 and 042 has the item 42 twice, and once when read again (C123_duplicates_refuted)."
  }
 ]
}
