{"id": "C01", "title": "Pattern matching is sound", "statement": "Every substitution produced by iterating a `Matching` keeps all bindings of the initial substitution, binds every variable occurring in the patterns, and instantiates every pattern quad to a quad that is present in the dataset.", "quantifier": "all datasets (with any enumeration order per query), all initial substitutions declaring the pattern variables, all lists of pattern quads, all yielded items", "why_tests_cant": "The search is a backtracking stack machine whose behaviour depends on arbitrary datasets and on sharing of variables between an unbounded number of patterns; a test fixes one of each.", "anchors": ["layouts/src/matching.rs: Matching::new, Iterator for Matching::next", "layouts/src/pattern.rs: Substitution::with_quad"]}
{"id": "C02", "title": "Pattern matching is complete", "statement": "Conversely every substitution that extends the initial one exactly on the pattern variables and sends all pattern quads into the dataset is produced by the iterator.", "quantifier": "all datasets, initial substitutions, pattern lists, and all solution substitutions", "why_tests_cant": "Completeness is a statement about all solutions; a test can only look for the ones it lists.", "anchors": ["layouts/src/matching.rs: Iterator for Matching::next", "layouts/src/matching.rs: quad_matching_pattern"]}
{"id": "C03", "title": "Each solution is produced exactly once", "statement": "The iterator never yields the same substitution twice when the dataset holds no duplicate quad.", "quantifier": "all datasets without duplicates, initial substitutions, pattern lists", "why_tests_cant": "Double counting would silently turn unique data into an ambiguity for particular variable sharings only.", "anchors": ["layouts/src/matching.rs: Iterator for Matching::next"]}
{"id": "C04", "title": "Matching always terminates", "statement": "For a finite dataset and a finite pattern list every call of `next` returns after finitely many loop iterations and the iterator is eventually exhausted.", "quantifier": "all finite datasets and pattern lists, all reachable iterator states", "why_tests_cant": "Termination over all inputs cannot be observed by running finitely many inputs.", "anchors": ["layouts/src/matching.rs: Iterator for Matching::next"]}
{"id": "C05", "title": "`into_unique` decides uniqueness exactly", "statement": "`into_unique` answers Ok(None) iff there is no solution, Ok(Some s) iff s is the only solution, Err(Ambiguity) iff there are at least two; `into_required_unique` answers Err(Empty) instead of Ok(None).", "quantifier": "all datasets, initial substitutions, pattern lists", "why_tests_cant": "Needs the full set of solutions for arbitrary datasets.", "anchors": ["layouts/src/matching.rs: Matching::into_unique, Matching::into_required_unique"]}
{"id": "C06", "title": "Matching does not panic on declared variables", "statement": "If every variable of the patterns is declared in the initial substitution, no step of the matching panics. If the first pattern uses an undeclared variable nothing is ever produced, and as soon as one quad of the dataset is compatible with that pattern and the initial bindings the first call of `next` panics.", "quantifier": "all datasets, substitutions, pattern lists", "why_tests_cant": "Panic freedom for all inputs.", "anchors": ["layouts/src/pattern.rs: Substitution::set, with_quad", "layouts/src/matching.rs: next"]}
{"id": "C07", "title": "`with_quad` contract", "statement": "`Substitution::with_quad` returns None exactly when a variable of the pattern is already bound to another resource, or a resource component of the pattern differs from the quad (as documented).", "quantifier": "all substitutions, pattern quads and value quads", "why_tests_cant": "The documentation claims a check for every component combination.", "anchors": ["layouts/src/pattern.rs: Substitution::with_quad"]}
{"id": "C08", "title": "Evaluation graph", "statement": "A layout pattern quad without graph component only ever matches quads of the graph the layout is evaluated in (the default graph when there is none); a pattern quad with a graph component is unaffected by the current graph.", "quantifier": "all datasets, graphs, pattern lists", "why_tests_cant": "Quads in other graphs must be ignored for every dataset.", "anchors": ["layouts/src/utils/mod.rs: QuadsWithDefaultGraph", "layouts/src/distill/hy/mod.rs: select_graph"]}
{"id": "C09", "title": "Hydration is sound with respect to the layout semantics", "statement": "If `hydrate` returns a value, the value is related to the dataset by the declarative meaning of the layout: each sub-layout's dataset has exactly one match, each present field is matched exactly once and holds the meaning of its sub layout, each absent field has no match and is optional, list items are exactly the matches, etc.", "quantifier": "all registries (also recursive), datasets, graphs, layouts, inputs", "why_tests_cant": "Layouts are recursive and datasets arbitrary.", "anchors": ["layouts/src/distill/hy/mod.rs: hydrate, hydrate_with, hydrate_with_ref", "layouts/src/distill/hy/data.rs: hydrate_data"]}
{"id": "C10", "title": "Hydration is complete with respect to the layout semantics", "statement": "Whenever the declarative semantics gives a value to a layout, dataset and inputs, `hydrate` terminates and returns this value.", "quantifier": "all registries, datasets, graphs, layouts, inputs, values", "why_tests_cant": "Quantifies over all finite derivations of the semantics.", "anchors": ["layouts/src/distill/hy/mod.rs: hydrate_with_ref"]}
{"id": "C11", "title": "Hydration depends only on the set of quads", "statement": "Two datasets containing the same quads hydrate to the same value, whatever order the dataset enumerates its quads in.", "quantifier": "all pairs of datasets with equal quad sets and all enumeration orders, all layouts and inputs", "why_tests_cant": "Enumeration order of indexes is not controlled by a test.", "anchors": ["layouts/src/distill/hy/mod.rs: hydrate_with_ref (items.sort_unstable)", "layouts/src/matching.rs"]}
{"id": "C12", "title": "Input arity is enforced", "statement": "Hydrating or dehydrating with a number of inputs different from the layout's input count fails with InvalidInputCount before looking at the data, and succeeds in this check for the top and bottom layouts with any count.", "quantifier": "all registries, layouts, datasets, inputs", "why_tests_cant": "All layouts and counts.", "anchors": ["layouts/src/distill/hy/mod.rs: hydrate_with_ref", "layouts/src/layout/mod.rs: Layout::input_count"]}
{"id": "C13", "title": "Undefined layouts are reported", "statement": "A reference to a layout the registry does not define makes hydrate and dehydrate fail with LayoutNotFound of this very reference, and a registry that is closed under dependencies never produces this error for a defined root.", "quantifier": "all registries, datasets, values", "why_tests_cant": "Reachability over recursive registries.", "anchors": ["layouts/src/distill/hy/mod.rs: hydrate_with_ref", "layouts/src/distill/de/mod.rs: dehydrate_with_ref", "layouts/src/layout/mod.rs: Layout::dependencies"]}
{"id": "C14", "title": "Hydrated values conform to their layout", "statement": "A hydrated value carries the reference of its layout, and its shape conforms to it: record keys are fields of the record and contain every required field, tuples have exactly the declared number of items, variants carry a valid index, recursively.", "quantifier": "all registries, datasets, layouts, inputs", "why_tests_cant": "Recursive structural invariant.", "anchors": ["layouts/src/distill/hy/mod.rs: hydrate_with_ref", "layouts/src/value/mod.rs: TypedValue"]}
{"id": "C15", "title": "Sets are returned sorted", "statement": "The items of a hydrated unordered list are in non-decreasing order and are, as a multiset, exactly the hydrated matches.", "quantifier": "all datasets, unordered list layouts", "why_tests_cant": "All multisets of items.", "anchors": ["layouts/src/distill/hy/mod.rs: ListLayout::Unordered"]}
{"id": "C16", "title": "Bottom and top layouts", "statement": "`Never` fails on every dataset and every value; `Always` hydrates every dataset to unit and dehydrates every value to the empty dataset.", "quantifier": "all datasets, values, inputs", "why_tests_cant": "Universal claim of the documentation.", "anchors": ["layouts/src/layout/mod.rs: Layout::Never, Layout::Always", "layouts/src/distill/hy/mod.rs", "layouts/src/distill/de/mod.rs"]}
{"id": "C17", "title": "A sum selects exactly one variant", "statement": "Hydrating a sum returns variant i only if variant i matches and its value hydrates and no other variant does; with zero or several such variants it returns an error.", "quantifier": "all sums, datasets, inputs", "why_tests_cant": "All combinations of variants and data.", "anchors": ["layouts/src/distill/hy/mod.rs: Layout::Sum"]}
{"id": "C18", "title": "Hydration never panics", "statement": "For layouts produced by the layout compiler `hydrate` returns Ok or Err on every dataset; it does not panic.", "quantifier": "all built layouts, datasets, inputs", "why_tests_cant": "Panic freedom over all inputs.", "anchors": ["layouts/src/distill/hy/mod.rs: todo!(), unwrap()", "layouts/src/distill/hy/data.rs: todo!()"]}
{"id": "C19", "title": "Ordered lists are read in link order, or hydration reports an error", "statement": "A well formed finite linked list is hydrated to its items in link order; hydration terminates on every dataset (also on cyclic lists).", "quantifier": "all datasets, ordered list layouts, list lengths", "why_tests_cant": "Unbounded lists and cyclic data.", "anchors": ["layouts/src/distill/hy/mod.rs: ListLayout::Ordered"]}
{"id": "C20", "title": "String patterns are enforced", "statement": "A string (or id) layout with a regular expression only hydrates and only dehydrates strings of the language of the expression.", "quantifier": "all regular expressions, all strings", "why_tests_cant": "All strings.", "anchors": ["layouts/src/layout/literal/data.rs: TextStringLayout::pattern", "layouts/src/distill/hy/data.rs", "layouts/src/distill/de/data.rs"]}
{"id": "C21", "title": "Dehydration returns as many resources as the layout has inputs", "statement": "A successful `dehydrate` returns exactly input_count resources (or the requested count, default 1, for the top layout).", "quantifier": "all layouts, values, options", "why_tests_cant": "All layouts.", "anchors": ["layouts/src/distill/de/mod.rs: dehydrate"]}
{"id": "C22", "title": "Record keys are checked", "statement": "Dehydrating a map with a record layout succeeds only if each key of the map is a field and each required field is a key; otherwise IncompatibleLayout or MissingRequiredKey is returned.", "quantifier": "all record layouts, maps", "why_tests_cant": "All key sets.", "anchors": ["layouts/src/distill/de/mod.rs: Layout::Product"]}
{"id": "C23", "title": "Tuple length is checked", "statement": "Dehydrating a list with a sized list layout succeeds only if the lengths agree.", "quantifier": "all sized list layouts, all lists", "why_tests_cant": "All lengths.", "anchors": ["layouts/src/distill/de/mod.rs: ListLayout::Sized"]}
{"id": "C24", "title": "Introduced resources are fresh", "statement": "Every resource introduced during dehydration (intro variables, list nodes) differs from the inputs and from every other introduced resource, until terms are assigned.", "quantifier": "all layouts, values", "why_tests_cant": "All executions.", "anchors": ["layouts/src/distill/de/mod.rs: new_resource, Environment::intro"]}
{"id": "C25", "title": "Dehydration emits the layout's quads", "statement": "On success the produced dataset contains, for every layout visited on the value, the instantiation of its dataset; it contains no quad that is not an instance of a quad pattern of the registry.", "quantifier": "all layouts, values", "why_tests_cant": "All executions.", "anchors": ["layouts/src/distill/de/mod.rs: Environment::instantiate_dataset"]}
{"id": "C26", "title": "Dehydration honours the evaluation graph", "statement": "A quad pattern without graph, in a value format evaluated in graph g, is emitted in graph g (mirror of hydration).", "quantifier": "all layouts with a graph component, values", "why_tests_cant": "All nestings.", "anchors": ["layouts/src/distill/de/mod.rs: Environment::instantiate_dataset, dehydrate_sub_value"]}
{"id": "C27", "title": "A sum dehydrates through exactly one variant, without trace of the others", "statement": "Dehydrating with a sum succeeds iff exactly one variant accepts the value and the result then contains only quads of this variant.", "quantifier": "all sums, values", "why_tests_cant": "All combinations.", "anchors": ["layouts/src/distill/de/mod.rs: Layout::Sum"]}
{"id": "C28", "title": "Conflicting identifications are rejected", "statement": "If dehydration assigns two different terms to the same resource it fails with TermAmbiguity; on success the resource to term mapping is a function.", "quantifier": "all layouts, values", "why_tests_cant": "All executions.", "anchors": ["layouts/src/distill/de/mod.rs: dehydrate (term ambiguity check, map_resource)"]}
{"id": "C29", "title": "Variables resolve to the innermost declaration order", "statement": "An `Environment` resolves variable i to the i-th entry of the concatenation of the inherited environments, and fails with UndeclaredVariable iff i is out of range.", "quantifier": "all environments, indices", "why_tests_cant": "All nestings.", "anchors": ["layouts/src/distill/de/mod.rs: Environment::get, bind, intro, instantiate_pattern"]}
{"id": "C30", "title": "Dehydrate then hydrate is the identity", "statement": "If a value conforming to a layout dehydrates, hydrating the result with the same layout and the returned inputs gives the value back.", "quantifier": "all values of a class of tree layouts (records, nested records, literals, ids, tuples, lists) of unbounded size", "why_tests_cant": "Round trip for unbounded nested values and for generated blank identifiers.", "anchors": ["layouts/src/distill/de/mod.rs: dehydrate", "layouts/src/distill/hy/mod.rs: hydrate"]}
{"id": "C31", "title": "Dehydration never panics", "statement": "`dehydrate` returns Ok or Err on every value and layout.", "quantifier": "all layouts, values", "why_tests_cant": "Panic freedom.", "anchors": ["layouts/src/distill/de/data.rs: todo!()", "layouts/src/distill/de/mod.rs"]}
{"id": "C32", "title": "Regular expression compilation is correct", "statement": "The automaton built from a regular expression accepts exactly the language of the expression.", "quantifier": "all expressions, all strings", "why_tests_cant": "All words.", "anchors": ["layouts/src/abs/regexp.rs: RegExp::build, build_into, build_repeat_into"]}
{"id": "C33", "title": "Determinization preserves the language", "statement": "`Automaton::determinize` yields a deterministic automaton (disjoint labels) accepting the same words.", "quantifier": "all automata, all words", "why_tests_cant": "All words.", "anchors": ["layouts/src/utils/automaton.rs: Automaton::determinize, modulo_epsilon_state, determinize_transitions_for"]}
{"id": "C34", "title": "Product is intersection", "statement": "`product` of two automata accepts exactly the words accepted by both.", "quantifier": "all pairs of automata, all words", "why_tests_cant": "All words.", "anchors": ["layouts/src/utils/automaton.rs: Automaton::product, DetAutomaton::product", "layouts/src/utils/mod.rs: charset_intersection"]}
{"id": "C35", "title": "Renaming states keeps the language", "statement": "`map` and `try_map` with injective renamings keep the accepted language.", "quantifier": "all automata, injective renamings, all words", "why_tests_cant": "All words.", "anchors": ["layouts/src/utils/automaton.rs: DetAutomaton::map, try_map"]}
{"id": "C36", "title": "Minimization keeps the language", "statement": "`minimize` accepts the same language as the original automaton for a partition separating final from non final states.", "quantifier": "all automata, partitions, words", "why_tests_cant": "All words.", "anchors": ["layouts/src/utils/automaton.rs: DetAutomaton::minimize"]}
{"id": "C37", "title": "Compression keeps the language", "statement": "`compress` terminates and keeps the language (labels read as strings).", "quantifier": "all automata, words", "why_tests_cant": "All words, cyclic automata.", "anchors": ["layouts/src/utils/automaton.rs: DetAutomaton::compress"]}
{"id": "C38", "title": "Reachable states", "statement": "`states`, `select_states` and `reachable_states_from` enumerate each reachable state exactly once and nothing else.", "quantifier": "all automata", "why_tests_cant": "Graph reachability over all graphs.", "anchors": ["layouts/src/utils/automaton.rs: select_states, ReachableStates"]}
{"id": "C39", "title": "Simplification keeps the language", "statement": "`simplified` does not change the language of an expression.", "quantifier": "all expressions, words", "why_tests_cant": "All words.", "anchors": ["layouts/src/abs/regexp.rs: RegExp::simplified, is_empty"]}
{"id": "C40", "title": "`as_singleton` returns the only word", "statement": "If `as_singleton` returns s then the language of the expression is exactly {s}; conversely `is_singleton` implies a one word language.", "quantifier": "all expressions", "why_tests_cant": "All words.", "anchors": ["layouts/src/abs/regexp.rs: is_singleton, build_singleton, as_singleton"]}
{"id": "C41", "title": "Printing then parsing a regular expression", "statement": "Parsing the printed form of an expression succeeds and yields an expression with the same language; `From<str>` yields an expression matching exactly the string, and it prints to a text that parses back.", "quantifier": "all expressions, all strings", "why_tests_cant": "All expressions.", "anchors": ["layouts/src/abs/regexp.rs: parse, Display, From<S>, fmt_char, parse_escaped_char, parse_charset"]}
{"id": "C42", "title": "Postfix operators bind to the preceding atom", "statement": "In the pattern syntax `?`, `*`, `+` repeat the preceding atom or group, so that `xy*` denotes x followed by any number of y.", "quantifier": "all pattern strings", "why_tests_cant": "All pattern strings.", "anchors": ["layouts/src/abs/regexp.rs: RegExp::parse"]}
{"id": "C43", "title": "The pattern parser is total", "statement": "`RegExp::parse` never panics, and rejects exactly the strings with unbalanced parentheses, unfinished escapes or unfinished character sets.", "quantifier": "all strings", "why_tests_cant": "All strings.", "anchors": ["layouts/src/abs/regexp.rs: RegExp::parse, parse_charset, parse_escaped_char"]}
{"id": "C44", "title": "Decimal representation is exact", "statement": "`Number::decimal_representation` returns a decimal numeral that denotes exactly the number, and returns None exactly when the number has no finite decimal expansion.", "quantifier": "all rational numbers", "why_tests_cant": "All rationals.", "anchors": ["layouts/src/value/mod.rs: Number::decimal_representation"]}
{"id": "C45", "title": "Native numbers are exact when integral", "statement": "`as_native` never panics and returns the exact value for integers that fit in 64 bits.", "quantifier": "all rational numbers", "why_tests_cant": "All rationals.", "anchors": ["layouts/src/value/mod.rs: Number::as_native"]}
{"id": "C46", "title": "JSON round trip of values", "statement": "Converting a value to JSON and back gives the value; conversion fails exactly for values with byte strings, non string keys or non decimal numbers.", "quantifier": "all values", "why_tests_cant": "All nested values.", "anchors": ["layouts/src/value/mod.rs: TryFrom<Value> for json_syntax::Value, From<json_syntax::Value> for Value, NonJsonValue"]}
{"id": "C47", "title": "CBOR numbers", "statement": "Conversion of a number to CBOR denotes the same number per RFC 8949 for every integer (bignum tags included) and never panics.", "quantifier": "all integers", "why_tests_cant": "All integers.", "anchors": ["layouts/src/value/cbor/serde_cbor.rs: From<Number>"]}
{"id": "C48", "title": "Forgetting types", "statement": "`into_untyped` keeps the structure: it commutes with JSON conversion, and the typed and untyped CBOR conversions agree when no layout has a tag.", "quantifier": "all typed values", "why_tests_cant": "All nested values.", "anchors": ["layouts/src/value/mod.rs: TypedValue::into_untyped", "layouts/src/value/cbor/serde_cbor.rs"]}
{"id": "C49", "title": "Registry union precedence", "statement": "`a.with(b)` finds a layout iff one of them does, and the definition of a takes precedence.", "quantifier": "all registries, layout references", "why_tests_cant": "All registries.", "anchors": ["layouts/src/lib.rs: LayoutRegistry::with, LayoutRegistryUnion::get, contains"]}
{"id": "C50", "title": "Registry insertion", "statement": "`Layouts::insert` returns the previous definition, makes the new one visible and changes no other definition.", "quantifier": "all registries, histories of insertions", "why_tests_cant": "All histories.", "anchors": ["layouts/src/lib.rs: Layouts::insert, insert_with", "layouts/src/abs/mod.rs: Builder::insert"]}
{"id": "C51", "title": "Dependencies", "statement": "`Layout::dependencies` is strictly sorted and contains exactly the layout references used in value formats of the layout.", "quantifier": "all layouts", "why_tests_cant": "All layouts.", "anchors": ["layouts/src/layout/mod.rs: Layout::dependencies, visit_dependencies"]}
{"id": "C52", "title": "Scoping of layout variables", "statement": "In the abstract syntax a variable name denotes the index of its innermost declaration; inputs come first, then intros; nested layouts do not see the variables of their parent; undeclared names are rejected with UndeclaredVariable.", "quantifier": "all scopes, headers, names", "why_tests_cant": "All nestings and shadowings.", "anchors": ["layouts/src/abs/syntax/build.rs: Scope::with_header, with_intro, without_variables, bind, variable"]}
{"id": "C53", "title": "Compiled layouts are well scoped", "statement": "Every variable index in a compiled layout is declared where it is used (inputs, intro, field/variant/item intro), so the distillation functions never access an undeclared variable.", "quantifier": "all abstract syntax layouts that build", "why_tests_cant": "All layouts.", "anchors": ["layouts/src/abs/syntax/layout/*.rs: Build impls", "layouts/src/abs/syntax/dataset.rs"]}
{"id": "C54", "title": "Compact IRI resolution", "statement": "A compact IRI whose scheme is a declared prefix expands to prefix ++ suffix; other absolute IRIs stay unchanged; relative references fail without base.", "quantifier": "all compact IRIs and scopes", "why_tests_cant": "All strings.", "anchors": ["layouts/src/abs/syntax/pattern/compact_iri.rs: CompactIri::resolve"]}
{"id": "C55", "title": "Layout redefinition is rejected and harmless", "statement": "Building a layout whose identifier is already defined returns LayoutRedefinition and leaves the existing definition in place; building two anonymous layouts with the same builder always works.", "quantifier": "all builders, layouts", "why_tests_cant": "All histories.", "anchors": ["layouts/src/abs/syntax/layout/mod.rs: Layout::build, Build for Layout", "layouts/src/abs/mod.rs: Builder::insert"]}
{"id": "C56", "title": "Layout documents reject unknown, duplicate and missing entries", "statement": "Parsing a layout JSON object fails if an entry is unknown, a known entry is duplicated or a required entry is missing; it succeeds otherwise when all entries parse.", "quantifier": "all JSON objects", "why_tests_cant": "All entry lists.", "anchors": ["layouts/src/abs/syntax/mod.rs: ObjectUnusedEntries, get_entry, require_entry, check_type"]}
{"id": "C57", "title": "Generated code: identifiers", "statement": "The runtime deserializes an identifier resource to its unique IRI if there is one, to its unique blank id otherwise, and reports an ambiguity or a missing identifier otherwise.", "quantifier": "all interpretations, resources", "why_tests_cant": "All interpretations.", "anchors": ["generators/rust/treeldr-rs/src/datatypes.rs: DeserializeLd for Id"]}
{"id": "C58", "title": "Generated code: integers", "statement": "The runtime deserializes an integer literal iff the resource has exactly one literal with the expected datatype and a valid lexical form; serialization followed by deserialization is the identity.", "quantifier": "all literal sets, all integers of each type", "why_tests_cant": "All integers and literal sets.", "anchors": ["generators/rust/treeldr-rs/src/datatypes.rs"]}
{"id": "C59", "title": "Dehydration terminates when sums are well founded", "statement": "If no sum layout reaches itself through variants only, `dehydrate_with` terminates on every value, whatever the recursion of the other layouts. (A sum that is its own variant recurses forever.)", "quantifier": "all registries, values, interpretations", "why_tests_cant": "Termination for all registries and values.", "anchors": ["layouts/src/distill/de/mod.rs: dehydrate_with"]}
{"id": "C60", "title": "Dehydration only adds quads, and does not depend on those already there", "statement": "`dehydrate_with` never removes a quad from the output dataset, even when it fails; its result, the resources and the terms assigned and the quads added are the same whatever the output contained before.", "quantifier": "all registries, values, initial outputs", "why_tests_cant": "All prior outputs.", "anchors": ["layouts/src/distill/de/mod.rs: dehydrate_with, Environment::instantiate_dataset"]}
{"id": "C61", "title": "UndeclaredVariable is only returned for ill scoped layouts", "statement": "If `dehydrate_with` returns UndeclaredVariable(x), a layout reached from the given one mentions the variable x where it is not declared.", "quantifier": "all registries, values", "why_tests_cant": "All layouts.", "anchors": ["layouts/src/distill/de/mod.rs: Environment::get, instantiate_pattern"]}
{"id": "C62", "title": "Generated identifiers do not clash with the layout's own blank nodes", "statement": "With default options, a resource introduced by `dehydrate` is not identified with a blank node named in a layout.", "quantifier": "all registries, values", "why_tests_cant": "All identifiers.", "anchors": ["layouts/src/distill/de/mod.rs: Options::default, InputInterpretation"]}
{"id": "C63", "title": "Serialized automata keep their language", "statement": "A deterministic automaton deserialized from its own serialized form has the same transitions and accepts the same words.", "quantifier": "all deterministic automata, all words", "why_tests_cant": "Unbounded state graphs; overwritten entries only appear for particular orders of keys.", "anchors": ["layouts/src/utils/automaton.rs: DetTransitions Serialize/Deserialize"]}
{"id": "C64", "title": "Only values of the shape of the layout are dehydrated", "statement": "If dehydration succeeds then the value has the shape of the layout: units are the declared constant, literals are of the kind of the data layout, identifiers are valid IRIs, record keys are fields and contain every required one, tuples have the declared number of items, sums fit one of their variants, recursively.", "quantifier": "all registries, layouts, values, options", "why_tests_cant": "Nested layouts are unbounded; a wrong value accepted deep inside an accepted one only shows for particular combinations.", "anchors": ["layouts/src/distill/de/mod.rs: dehydrate, dehydrate_with", "layouts/src/distill/de/data.rs"]}
{"id": "C65", "title": "Building an automaton adds exactly the transitions asked", "statement": "Automaton::add (and declare_state, add_initial_state, add_final_state, DetAutomaton::declare_transition) adds the given transition or state, keeps all the others and adds no other.", "quantifier": "all automata, states, labels", "why_tests_cant": "Overwritten entries only appear for particular orders of insertions in unbounded graphs.", "anchors": ["layouts/src/utils/automaton.rs: Automaton::add, declare_state, add_initial_state, add_final_state, DetAutomaton::declare_transition"]}
{"id": "C66", "title": "Character sets of the patterns", "statement": "The pattern `[...]` matches exactly the one character words whose character is one of the items or in one of the ranges; `[^...]` exactly the others.", "quantifier": "all character sets, all words", "why_tests_cant": "Ranges may overlap, touch or be reversed in any order over all the characters.", "anchors": ["layouts/src/abs/regexp.rs: parse_charset"]}
{"id": "C67", "title": "Every JSON document can be read as a value", "statement": "The conversion from JSON documents to values, declared infallible, returns a value for every document; when an object repeats a key the last entry wins.", "quantifier": "all JSON documents", "why_tests_cant": "the documents are unbounded trees with arbitrary number texts; tests try a few numbers", "anchors": ["layouts/src/value/mod.rs: From<json_syntax::Value> for Value, TryFromJson for Value, From<NumberBuf> for Number"]}
{"id": "C68", "title": "Serde round trip of values", "statement": "Serializing a value with serde and deserializing the result gives the value back when its numbers are machine integers or exactly representable floats, and serialization never panics.", "quantifier": "all values", "why_tests_cant": "values are unbounded trees; a test only tries some numbers and missed zero", "anchors": ["layouts/src/value/ser.rs: Serialize for Value", "layouts/src/value/de.rs: Deserialize for Value"]}
{"id": "C69", "title": "CBOR tags", "statement": "The tagged CBOR conversion puts around the item of each layout exactly the tag declared by this layout, changes nothing else, and fails when a layout of the value declares an invalid tag.", "quantifier": "all typed values, registries and interpretations", "why_tests_cant": "the values and the tag declarations are unbounded", "anchors": ["layouts/src/value/cbor/mod.rs: get_layout_tag", "layouts/src/value/cbor/serde_cbor.rs: try_into_tagged_serde_cbor_with_ref"]}
{"id": "C70", "title": "The compilation of a document is its meaning", "statement": "When a layout document compiles, the returned reference is defined by the meaning of the document: names become the index of their innermost declaration, IRIs are expanded with the base and prefixes in force, the default inputs, resources, datatypes, property quads and list quads are the documented ones, every nested layout is defined by the reference used for it; the definitions already in the builder are kept and nothing else is defined.", "quantifier": "all documents of unbounded depth, all builders, all contexts", "why_tests_cant": "Documents nest without bound; defaults, shadowing and prefixes combine in infinitely many ways.", "anchors": ["layouts/src/abs/syntax/layout/*.rs: Build impls", "layouts/src/abs/syntax/dataset.rs: Build for Pattern, Quad, Dataset", "layouts/src/abs/syntax/build.rs: Scope, Context"]}
{"id": "C71", "title": "Compilation panics only on unions and intersections", "statement": "Compiling a layout document terminates, and panics only if the document contains a union or an intersection; such a document never compiles.", "quantifier": "all documents, builders, contexts", "why_tests_cant": "All documents.", "anchors": ["layouts/src/abs/syntax/layout/mod.rs: Build for Layout", "layouts/src/abs/syntax/layout/union.rs", "layouts/src/abs/syntax/layout/intersection.rs"]}
{"id": "C73", "title": "Generated code: texts", "statement": "The runtime deserializes a text iff the resource has exactly one xsd:string literal (several are an ambiguity); serialization followed by deserialization is the identity.", "quantifier": "all interpretations, resources and texts", "why_tests_cant": "All literal sets and texts; the error for several literals is only visible on data the tests do not contain.", "anchors": ["generators/rust/treeldr-rs/src/datatypes.rs: DeserializeLd for String, SerializeLd for String"]}
{"id": "C76", "title": "The registry of a builder has exactly its definitions", "statement": "Building the registry of a builder defines every reference of the builder by its definition, with its regular expressions compiled to automata (as described by C32), and defines nothing else; it succeeds when no definition is a union or an intersection, and never succeeds otherwise. In particular a document that compiles gives a registry where its reference is defined by its meaning.", "quantifier": "all builders, all documents of unbounded depth, all regular expressions", "why_tests_cant": "All builders and documents; languages are infinite.", "anchors": ["layouts/src/abs/mod.rs: Builder::build", "layouts/src/abs/layout/mod.rs: Layout::build", "layouts/src/abs/layout/literal/data.rs: TextStringLayout::build", "layouts/src/abs/layout/literal/id.rs: IdLayout::build"]}
{"id": "C74", "title": "Generated code: deserializers agree with hydration", "statement": "The deserializer derived for a Rust type from layout attributes returns a value exactly when hydration with the same layouts (registered under the IRIs of the types) returns a tree for the same dataset, graph and inputs, and the value presents the same data as the tree: same literals, same fields present, same variant, same items in the same order (up to permutation for unordered lists).", "quantifier": "all programs (families of mutually recursive types), all datasets, interpretations, graphs, inputs and recursion depths", "why_tests_cant": "Two independent implementations of the same semantics compared on all layouts and datasets; the tests of the generator exercise one layout of each kind on one dataset.", "anchors": ["generators/rust/treeldr-rs-macros/src/generate/de.rs: generate, generate_data, generate_pattern, dataset_to_array", "generators/rust/treeldr-rs/src/de/mod.rs: select_inputs, select_graph, DeserializeLd, FromRdfLiteral", "layouts/src/distill/hy/mod.rs: hydrate_with"]}
{"id": "C75", "title": "Generated code: what is serialized is read back", "statement": "What the serializer derived for a Rust type writes for a value, the deserializer derived for the same type reads as the same value (up to the order of the items of unordered lists), from any dataset that contains the quads written and other quads about other resources, in any later state of the interpretation; in particular two values serialized one after the other into the same dataset are both read back.", "quantifier": "all programs (families of mutually recursive types), all values of unbounded size, all interpretations, nodes, additional quads and later states", "why_tests_cant": "All types, values and datasets, including the freshness of the new resources across nested and successive serializations; the tests of the generator check one value of one type of each kind.", "anchors": ["generators/rust/treeldr-rs-macros/src/generate/ser.rs: generate, generate_pattern, pattern_interpretation, dataset_to_array", "generators/rust/treeldr-rs/src/ser/environment.rs: Environment::{get, bind, intro, instantiate_pattern, instantiate_dataset}", "generators/rust/treeldr-rs/src/datatypes.rs: SerializeLd implementations", "generators/rust/treeldr-rs-macros/src/generate/de.rs: generate"]}
{"id": "C77", "title": "Derive macros: what the tldr attributes say", "statement": "The attributes of a type, field, variant or tuple item are accepted by the derive macros exactly when each `tldr` attribute is a comma-separated sequence of the documented settings (kind, base, prefix, head, tail, resource, datatype, input, intro, dataset; property, head, rest, intro, dataset, input, graph) and no setting is given two different values; the result has exactly the values given, the last binding of a prefix counting. Attributes with other paths are not read. Two different values of a setting are reported as a conflict, and neither the order nor the grouping of the settings that are given once changes the result.", "quantifier": "all lists of attributes and token streams of unbounded length and nesting, all syntaxes of IRIs and blank node identifiers", "why_tests_cant": "A grammar over unbounded token streams and its exact acceptance: the tests of the macros use a dozen well-formed types.", "anchors": ["generators/rust/treeldr-rs-macros/src/parse.rs: TypeAttributes::parse, ComponentAttributes::parse, replace, parse_list, parse_binding_list, parse_graph_value, quad_token, Kind::from_ident"]}
{"id": "C78", "title": "Derive macros: mistakes in the attributes are reported", "statement": "Every word of a `tldr` attribute that is not the name of a setting is reported as an error, and the identifier of the layout of a type can be given with id(\"..\").", "quantifier": "all attributes", "why_tests_cant": "Absence of silent acceptance over all token streams.", "anchors": ["generators/rust/treeldr-rs-macros/src/parse.rs: TypeAttributes::parse, ComponentAttributes::parse, Kind::from_ident"]}
{"id": "C79", "title": "Derive macros: the layout of a type is the one it declares", "statement": "The derive macros associate to a Rust type the layout declared by its shape and attributes: record of its fields (required unless of type Option), sum of its variants, tuple, list or set of the items of its Vec, unit or literal; each component refers to the layout of its own type, with the intro, dataset, property, input and graph of its attributes or their documented defaults. The layout is computed exactly for the types of the right shape with well-formed attributes, up to the errors of the layout compiler on undeclared names and IRIs; everything else is reported as an error: reading a type and compiling its layout never panic, provided that the identifiers of blank nodes are names of variables (C101).", "quantifier": "all Rust types (any number of fields, variants and attributes), all syntaxes of IRIs", "why_tests_cant": "All types and attributes; absence of panics; the tests of the macros use one type of each kind.", "anchors": ["generators/rust/treeldr-rs-macros/src/parse.rs: parse, TypeMap::insert, FieldType, extract_vec_item, Kind::from_data", "generators/rust/treeldr-rs-macros/src/generate/de.rs: generate (first lines)", "generators/rust/treeldr-rs-macros/src/generate/ser.rs: generate (first lines)"]}
{"id": "C82", "title": "The prelude defines the twelve preset layouts", "statement": "Prelude::build and Prelude::build_with never panic and return a registry with exactly twelve layouts, one at the resource of each IRI that PresetLayout::from_iri recognises, each the literal layout of the Rust type the generator gives to this IRI (one input, represented by itself, with the XSD datatype of the type).", "quantifier": "all fuels, all looked up references, all vocabularies and interpretations (build_with)", "why_tests_cant": "Three tables (prelude/*.json, preset.rs, the generator) must agree, through the serde reader and the compiler; build_with is generic in the interpretation.", "anchors": ["layouts/src/prelude.rs: LAYOUTS, Prelude::build, Prelude::build_with, LayoutRegistry for Prelude", "layouts/prelude/*.json", "layouts/src/preset.rs: PresetLayout::from_iri", "generators/rust/generator/src/lib.rs: Options::layout_ref"]}
{"id": "C83", "title": "Layout documents: what compiles", "statement": "A layout document compiles exactly when it is well formed, the identifiers of its layouts are distinct, and none of them is already defined: all its compact IRIs have a meaning in their environment, all the variables it mentions are declared in the layout or component where they occur, properties have a subject and an object, literal layouts have a resource or an input, and it contains no union or intersection. After compiling, the builder defines the layouts it defined before, those identified by the document, and new blank nodes for the anonymous layouts, nothing else.", "quantifier": "all layout documents of any depth, all states of the builder where the next blank nodes are free, all IRI syntaxes and resolutions", "why_tests_cant": "Unbounded documents; completeness (every well-formed document is accepted) cannot be tested.", "anchors": ["layouts/src/abs/syntax/layout/mod.rs: Layout::build, LayoutRef::build", "layouts/src/abs/syntax/build.rs: Scope, Context", "layouts/src/abs/syntax/layout/*.rs: Build::build", "layouts/src/abs/syntax/build.rs: insert_layout"]}
{"id": "C80", "title": "Code generator: the generated type derives the layout it was generated from", "statement": "The Rust type that the code generator writes for a layout is accepted by the derive macros, and the layout they compute for it is the original layout: same inputs, introduced variables, datasets, fields, variants, items and graphs, every resource being named by its first IRI and the layout of every component being the one of the type generated for it. An item is generated exactly when the resources have IRIs, the components have types and the names of fields and variants are identifiers.", "quantifier": "all layouts, options, identifiers, IRI and Rust syntaxes, interpretations whose IRIs are absolute", "why_tests_cant": "Composition of two independent translations (layout to tokens, tokens to layout) over unbounded layouts; the losses only show on layouts using the lost features.", "anchors": ["generators/rust/generator/src/lib.rs: generate, generate_dataset_attribute, pattern_to_id", "generators/rust/treeldr-rs-macros/src/parse.rs: parse"]}
{"id": "C81", "title": "Code generator: the type of a component", "statement": "The type written for a component of layout r is the runtime type of the preset layout named by the first preset IRI of r; otherwise it is the least identifier given by the IRIs of r, in the module registered for the longest prefix of the last IRI of r that has one. It is the name of the type generated for r. Registering a module fails exactly when its path has arguments, and the last registration of a prefix wins.", "quantifier": "all options, interpretations with any number of IRIs by resource, IRI and Rust syntaxes", "why_tests_cant": "Unbounded sets of modules and IRIs; that the longest prefix wins follows from the order of a map, not from any explicit comparison.", "anchors": ["generators/rust/generator/src/lib.rs: Options::layout_ref, Options::layout_ident, Options::use_module, default_layout_ident", "generators/rust/generator/src/utils.rs: ident_from_iri", "layouts/src/preset.rs: PresetLayout::from_iri"]}
{"id": "C84", "title": "Code generator: a registry is translated into one type per layout", "statement": "Every registry whose layouts can be generated is translated, and different layouts have types of different names.", "quantifier": "all registries, options and interpretations", "why_tests_cant": "Clashes depend on pairs of IRIs and anonymous layouts on the way registries are built.", "anchors": ["generators/rust/treeldr-rs-macros/src/lib.rs: generate_layouts", "generators/rust/generator/src/lib.rs: generate, Options::layout_ident"]}
{"id": "C72", "title": "Layout documents: serde round trip", "statement": "A layout written with serde is read back by serde as the same layout, and different layouts are written differently.", "quantifier": "all layouts of the abstract syntax, of any depth; all conversions between rationals and floats; lists of one element written either way", "why_tests_cant": "Layouts are unbounded trees with optional entries at every level; a test only writes a few of them and missed the languages of literals, the default graph and the constant zero.", "anchors": ["layouts/src/abs/syntax/layout/mod.rs: Layout (Serialize, Deserialize), LayoutHeader", "layouts/src/abs/syntax/pattern/mod.rs: Serialize and Deserialize for Pattern", "layouts/src/abs/syntax/pattern/literal.rs: LiteralValue, LiteralType", "layouts/src/abs/syntax/mod.rs: ValueFormat, OneOrMany"]}
{"id": "C85", "title": "Layout documents: the serde reader and the JSON reader agree", "statement": "A document accepted by the JSON reader (TryFromJson, used by the command line) is read by the serde reader (used by the prelude and by applications) as the same layout, and conversely; the serde reader never panics.", "quantifier": "all JSON documents, both settings of the arbitrary_precision feature of serde_json", "why_tests_cant": "Two independent readers of an unbounded grammar, one derived; agreement is a statement on all documents.", "anchors": ["layouts/src/abs/syntax/layout/mod.rs: TryFromJson for Layout, Layout (Deserialize)", "layouts/src/abs/syntax/pattern/literal.rs: LiteralType, LiteralTypeIri", "layouts/src/abs/syntax/resource.rs: Resource", "Cargo.toml: serde_json (arbitrary_precision)"]}
{"id": "C86", "title": "Command line: the files that are loaded", "statement": "The files given to the program (as layouts or with --include) are loaded exactly when each can be read, is a JSON layout document that compiles, and no identifier is given to two layouts, in one file or in two; the order of the files does not matter, and giving no command only checks them. Once loaded, every command works with one registry: the layouts written in the documents, with the meaning of the documents, then the prelude unless --no-prelude.", "quantifier": "all file systems, all lists of files, all documents, all commands, all inputs", "why_tests_cant": "Any number of files of any size, whose layouts refer to each other; the loader shares one generator of blank nodes between files, so that collisions between files are only excluded by a general argument.", "anchors": ["src/main.rs: run, load_layout, Args, Args::prelude", "layouts/src/abs/mod.rs: Builder::build"]}
{"id": "C87", "title": "Command line: the layout of a command", "statement": "Without --layout, hydrate and dehydrate use the layout of the only file that is not included, by its identifier, or by _:0 when it has none; when no file or several are given they fail, whatever is included. With --layout it makes no difference whether a file is given or included.", "quantifier": "all files, commands, inputs", "why_tests_cant": "Statement on all documents and all combinations of files; the name of an anonymous layout depends on the order of the compilation.", "anchors": ["src/main.rs: DefaultLayoutRef, load_layout, Command::run"]}
{"id": "C88", "title": "Command line: dehydrate, then hydrate", "statement": "Dehydrating a JSON or CBOR input and hydrating the N-Quads text with the same files and the same layout, at the node _:input0 (or at the identifier that the value gives to itself), gives a JSON text that holds the same value, up to the order of the items of sets.", "quantifier": "all files, layouts, values, formats, orders of the datasets", "why_tests_cant": "It composes reading, dehydration, the text of a dataset, its indexation, hydration and writing on unbounded values and layouts.", "anchors": ["src/main.rs: Command::run", "src/format/rdf.rs: RDFFormat::load, RDFFormat::write", "src/format/tree.rs: TreeFormat::load, TreeFormat::write_typed", "layouts/src/distill/de/mod.rs: dehydrate, Options::default", "layouts/src/distill/hy/mod.rs: hydrate"]}
{"id": "C89", "title": "Command line: conversions keep the data", "statement": "convert tree and convert rdf succeed on every input that can be read and keep the value, or the set of quads.", "quantifier": "all texts, values, formats, floats", "why_tests_cant": "Values are unbounded trees; numbers are arbitrary rationals and floats.", "anchors": ["src/main.rs: Convert::run", "src/format/tree.rs: TreeFormat::load, TreeFormat::write_untyped", "src/format/rdf.rs: RDFFormat"]}
{"id": "C90", "title": "Code generator: what a generated serializer writes", "statement": "A generated serializer succeeds on every value of its type. When it succeeds, the quads it appends are exactly the representation of the value described by the layouts (each dataset instantiated once, a new node per list element after the first, absent optional fields not written); the resources it creates are new and distinct; existing resources only get the names of the identifiers and literals of the value placed at them; every resource written is known to the interpretation.", "quantifier": "all programs, values, inputs, graphs, interpretations", "why_tests_cant": "Layouts and values nest without bound; inputs may be any resource, including IRIs of other parts, and the interpretation is in an arbitrary state.", "anchors": ["generators/rust/treeldr-rs-macros/src/generate/ser.rs: generate", "generators/rust/treeldr-rs/src/ser/mod.rs: SerializeLd", "generators/rust/treeldr-rs/src/ser/environment.rs: Environment"]}
{"id": "C91", "title": "The text of a value is unambiguous", "statement": "Two values written with Display to the same text are the same value. The text is a JSON text exactly when the value has no bytes, no number that is not an integer and no key that is not a text; the JSON document then says what the value says, and reading it gives the value back.", "quantifier": "all values of any depth, and any escaping of strings that marks the end of a string and determines it", "why_tests_cant": "Values nest without bound, map keys may be any value, and commas, brackets or quotes in strings could make two values collide.", "anchors": ["layouts/src/value/mod.rs: Display for Number", "layouts/src/value/mod.rs: Display for Literal", "layouts/src/value/mod.rs: Display for Value"]}
{"id": "C92", "title": "The program tldr-rs generates the type of the layout selected among its files", "statement": "Given files that are layout documents, well formed and giving no identifier twice, the program generates the type of the layout that --layout names, or of the only document; it succeeds exactly when that layout is defined, has an identifier ending with the name of a type and refers to layouts that have a type. It fails if a file cannot be read or is not a layout document.", "quantifier": "all lists of files with any contents, any --layout option", "why_tests_cant": "Failures depend on how documents combine: their number, the identifiers they share, the anonymous layouts they contain at any depth.", "anchors": ["generators/rust/generator/src/bin/main.rs: main", "generators/rust/generator/src/bin/main.rs: DefaultLayoutRef", "layouts/src/abs/syntax/layout/mod.rs: Layout::build", "layouts/src/abs/mod.rs: Builder"]}
{"id": "C93", "title": "The macros tldr and tldr_include generate one type for each layout of their files", "statement": "The macros succeed exactly when their files are layout documents, well formed, giving no identifier twice, whose layouts all have a name and refer to layouts that have a type, and the module contains only use declarations whose attributes are tldr(\"prefix\"). They generate one type for each layout written in the files, named after its identifier; the last declaration for a prefix gives the module of the types with that prefix.", "quantifier": "all lists of files with any contents, all modules", "why_tests_cant": "Documents nest layouts at any depth and share one registry; a module may register any number of prefixes, several times.", "anchors": ["generators/rust/treeldr-rs-macros/src/lib.rs: tldr", "generators/rust/treeldr-rs-macros/src/lib.rs: tldr_include", "generators/rust/treeldr-rs-macros/src/lib.rs: Attribute::build", "generators/rust/treeldr-rs-macros/src/lib.rs: generate_layouts", "generators/rust/treeldr-rs-macros/src/lib.rs: use_tree_ident"]}
{"id": "C94", "title": "Only the layouts reached matter", "statement": "Hydration, dehydration and the commands of the command line program give the same result (value, dataset, error or panic) with two registries that agree on the layouts reached from the given one. So inserting a layout that is not reached, or completing the registry with another one, changes nothing.", "quantifier": "all registries, layouts, datasets, values, inputs and amounts of fuel; all commands", "why_tests_cant": "Registries are arbitrary functions and layouts refer to each other, possibly in cycles; a test compares two registries.", "anchors": ["layouts/src/distill/hy/mod.rs: hydrate_with_ref", "layouts/src/distill/de/mod.rs: dehydrate_with_ref", "layouts/src/lib.rs: LayoutRegistry::with", "layouts/src/lib.rs: Layouts::insert", "src/main.rs: Command::run"]}
{"id": "C95", "title": "Numbers stay in the range of their datatype", "statement": "A number layout reads and writes exactly the decimals, always with its own datatype, and rejects those out of the value space of this datatype.", "quantifier": "all datatypes, numbers, lexical values, registries and datasets", "why_tests_cant": "Numbers and lexical values are unbounded, and the datatype is any IRI.", "anchors": ["layouts/src/distill/hy/data.rs: hydrate_number_value", "layouts/src/distill/hy/data.rs: hydrate_data", "layouts/src/distill/de/data.rs: dehydrate_number"]}
{"id": "C96", "title": "Data that no pattern of the layouts speaks of has no influence on hydration", "statement": "Quads that are not instances of any quad pattern of the layouts reached from the given one can be added to or removed from the dataset without changing the outcome of hydration, value or failure.", "quantifier": "all registries, layouts, datasets, inputs and sets of other quads", "why_tests_cant": "The other data is any set of quads, in any position among the others, and the layouts are any registry.", "anchors": ["layouts/src/distill/hy/mod.rs: hydrate_with", "layouts/src/matching.rs: Matching", "layouts/src/layout/mod.rs: Layout"]}
{"id": "C97", "title": "The names of the nodes play no role in hydration", "statement": "Renaming the blank nodes of the dataset and of the inputs by a one-to-one renaming, when the layouts mention none of them, gives the same value, and the same failures up to this renaming.", "quantifier": "all one-to-one renamings, registries, datasets and inputs", "why_tests_cant": "Renamings and datasets are unbounded, and an order on names could play a role in any step of the search.", "anchors": ["layouts/src/distill/hy/mod.rs: hydrate_with", "layouts/src/distill/hy/data.rs: hydrate_data", "layouts/src/matching.rs: Matching"]}
{"id": "C98", "title": "The result of dehydration is unique up to the names of the blank nodes", "statement": "With layouts that mention no blank node, the generator of identifiers, the terms given to the inputs and the order in which the dataset is visited play no role in dehydration: it fails in the same cases with the same errors, and otherwise the datasets and the values of the inputs differ by a permutation of the labels of the blank nodes, so that they are read as the same value.", "quantifier": "all registries, values, generators of fresh blank nodes and iteration orders", "why_tests_cant": "Generators and orders are arbitrary functions; tests run one of each.", "anchors": ["layouts/src/distill/de/mod.rs: dehydrate", "layouts/src/distill/de/mod.rs: Options", "layouts/src/distill/de/mod.rs: InputInterpretation"]}
{"id": "C99", "title": "The errors of layout documents say where they are", "statement": "When a layout document is refused, the position of the error is that of a fragment of the document, and this fragment is what the error is about: a value of the kind found and not among those expected, the object that lacks the entry or the type, the key of the unexpected entry, the text that is not a pattern, an IRI or an expression, the literal whose language tag is invalid, the array that is not a quad, the number that is not an integer or too large; for a duplicate entry the two positions are those of the first two entries with this key in one object. Hence the command line always prints the diagnostic, with one label, or two for a duplicate entry. Keeping positions changes no result.", "quantifier": "all documents", "why_tests_cant": "There are many readers, nested in each other; each computes the positions of its parts from the sizes of the parts before, so that a mistake shows only for documents of some shapes.", "anchors": ["layouts/src/abs/syntax/mod.rs: Error::position, Error::hints, ObjectUnusedEntries, get_entry, require_entry, require_type", "layouts/src/abs/syntax/dataset.rs: Quad::try_from_json_at", "layouts/src/abs/syntax/layout/mod.rs: Layout::try_from_json_object_at", "src/main.rs: Error::into_diagnostic"]}
{"id": "C100", "title": "What is written back is what was read", "statement": "Hydrate a dataset with a layout, then dehydrate the value with the same layout: nothing is written that was not in the dataset. Replacing the blank nodes that dehydration made by the right nodes, each quad written is a quad of the dataset, and the terms returned are the inputs that were read, up to the normal form of booleans and numbers. (With RDF vocabulary: the dataset entails what is written back.)", "quantifier": "all layouts, datasets and inputs that hydrate", "why_tests_cant": "It relates the two directions of the library on datasets that it did not write, with arbitrary names, extra data and non canonical literals; dehydration makes a node for each variable of the layout, and whether one renaming of all of them is right depends on where the variables are introduced and used.", "anchors": ["layouts/src/distill/hy/mod.rs: hydrate", "layouts/src/distill/de/mod.rs: dehydrate", "layouts/src/distill/de/layout/mod.rs: SerializeLayout"]}
{"id": "C101", "title": "Names of variables and patterns that are terms", "statement": "`VariableName::new` accepts exactly the names of its grammar, that is the labels of blank nodes of N-Triples without dots, and keeps them. Every pattern read by the derive macros from the identifier of a blank node is the variable of this name, without panic. A variable whose name is accepted can be used as a term, as the blank node of this name. A term converted into a pattern is converted back into the same term.", "quantifier": "all texts (Unicode), all terms and scopes, all syntaxes of IRIs and blank nodes", "why_tests_cant": "There is no test of variable names; the ranges of Unicode are large, and the `unwrap`s rely on two grammars (the one of this library and the one of the library of RDF types) that must agree on all texts.", "anchors": ["layouts/src/abs/syntax/pattern/variable.rs: VariableName::new, check_variable_name, is_pn_char_base, is_pn_char_u, is_pn_char", "layouts/src/abs/syntax/pattern/mod.rs: Pattern::from_term, Pattern::to_term", "generators/rust/treeldr-rs-macros/src/parse.rs: parse_pattern"]}
{"id": "C102", "title": "Several documents in one dataset", "statement": "Documents that are dehydrated one after the other with the same generator (`Options::with_generator(&mut generator)`), and whose datasets are put together, are kept apart: each result is the one of `dehydrate` alone, the only blank nodes that two results have in common are inputs of the same name, and each document is read back from the common dataset with its layout, provided that two documents about the same resource use different properties of it.", "quantifier": "all lists of documents, all generators that do not repeat names, all registries of layouts (without blank nodes) and all values, all orders of the dataset", "why_tests_cant": "layouts/examples/combine.rs shows two documents and is not checked; whether data mixes depends on all the names that the generator gives during all the calls, and on the properties that all the layouts use.", "anchors": ["layouts/examples/combine.rs: main", "layouts/src/distill/de/mod.rs: dehydrate, Options::with_generator, Options::with_input_term_generator", "layouts/src/distill/hy/mod.rs: hydrate"]}
{"id": "C103", "title": "Command line: exit status and output", "statement": "The program exits with success exactly when the command succeeds and its output has been written. When a command fails (a file, a layout, the input, the value), the status is a failure, a diagnostic is printed, and nothing is written on the standard output. When the output refuses a part of the text (full disk, closed pipe), it holds the beginning of the text and the program reports a failure. The program panics only if the command does: printing a diagnostic never does.", "quantifier": "all files, inputs, arguments, all outputs that stop accepting at any point, all ways of cutting the text in pieces", "why_tests_cant": "Needs every error of every stage, and outputs that fail at any character with any cutting of the text in a line buffer.", "anchors": ["src/main.rs: main, run, Error::into_diagnostic", "src/format/tree.rs: TreeFormat::write_typed, TreeFormat::write_untyped", "src/format/rdf.rs: RDFFormat::write"]}
{"id": "C104", "title": "Command line: the diagnostics name the file at fault", "statement": "When the layout files cannot be loaded, the diagnostic shows the first file at fault in the order of the command line (layouts, then includes): the files before it are acceptable together, its labels are in this file, at the place of the JSON error, or on the fragments that the layout error is about. Conversely, if the first file at fault is not a JSON document, or not the document of a layout, this diagnostic is printed. The same for layouts that cannot be built.", "quantifier": "all sets of files, all command lines", "why_tests_cant": "Quantifies over any number of files, given or included, and any document with a mistake anywhere.", "anchors": ["src/main.rs: run, load_layout, Error::into_diagnostic", "layouts/src/abs/syntax/mod.rs: Error::position, Error::hints"]}
{"id": "C105", "title": "Extra properties of layouts and CBOR tags, from the document to the output", "statement": "After a document is compiled, each of its layouts has in the registry exactly the extra properties written in its header: the properties and the values are read with the base and the prefixes of the header, and of several entries for the same property the last one counts. The layouts of other documents keep theirs, and the properties do not change anything else of the compilation. When a value made with these layouts is converted to tagged CBOR, the item made from a layout has a tag exactly when its header has the property https://schema.treeldr.org/cbor#tag, and the tag is the number written there; if the last entry is not a number below 2^64 of an unsigned type the conversion fails. It never stops on a missing layout.", "quantifier": "all documents (any nesting, base and prefixes), all contexts of resources, all values that conform to the layouts", "why_tests_cant": "Needs every nesting of prefixes and bases, several spellings of the same property, and all values of all layouts; the test of the project has one string with one tag.", "anchors": ["layouts/src/abs/syntax/layout/mod.rs: LayoutHeader::build, ExtraProperties::build", "layouts/src/layout/mod.rs: Layout::extra_properties", "layouts/src/value/cbor/mod.rs: get_layout_tag", "layouts/src/value/cbor/serde_cbor.rs: TypedValue::try_into_tagged_serde_cbor"]}
{"id": "C106", "title": "Compiled layouts written and read with serde", "statement": "A compiled layout written with serde in a self describing format (JSON, CBOR) is read back as the same layout, with its extra properties; the layouts read hydrate and dehydrate exactly as the layouts written.", "quantifier": "all compiled layouts, all collections of layouts, all datasets, graphs, inputs and values; all implementations of serde for resources and datasets that read what they write", "why_tests_cant": "Layouts have unbounded fields, variants, patterns and automata, and the project has no test of the derived implementations; nested options and skipped fields only show on particular layouts (the default graph is lost).", "anchors": ["layouts/src/layout/mod.rs: Layout (Serialize, Deserialize)", "layouts/src/layout/literal/data.rs: UnitLayout, TextStringLayout", "layouts/src/layout/product.rs: ProductLayout, Field", "layouts/src/format.rs: ValueFormat (graph)", "layouts/src/pattern.rs: Pattern", "layouts/src/utils/automaton.rs: DetAutomaton, Serialize and Deserialize for DetTransitions"]}
{"id": "C107", "title": "The order of the patterns of a layout plays no role", "statement": "The dataset of a layout, a field, a variant or an item is a set of quads: listing its patterns in another order (or several times) changes neither the value hydrated from a dataset nor the quads produced by dehydration.", "quantifier": "all layouts, all orders and repetitions of their patterns, all datasets, graphs, inputs, values and interpretations", "why_tests_cant": "The patterns are stored in a BTreeDataset, whose order follows the order of resources: with interned resources it depends on what was interned before. A test runs with one order; the matching algorithm substitutes variables in that order.", "anchors": ["layouts/src/matching.rs: Matching::next", "layouts/src/distill/hy/mod.rs: hydrate_with", "layouts/src/distill/de/mod.rs: dehydrate_with", "layouts/src/graph.rs: Dataset", "layouts/src/layout/product.rs: ProductLayout::dataset, Field::dataset"]}
{"id": "C108", "title": "Names of variables and spellings of IRIs play no role in documents", "statement": "Two layout documents that only differ by the names of their variables and by the way their IRIs are written (prefixes, bases, in full) compile in the same way: the same reference, the same definitions, the same resources created, or the same error up to the name or IRI it quotes. In particular all the variables of a document may be renamed, except \"value\" and \"self\", which formats use by default.", "quantifier": "all documents, all renamings, all spellings and environments, all contexts (vocabularies, interpretations, generators) and builders", "why_tests_cant": "Declarations may be shadowed and nested at any depth, and each layout has its own variables, prefixes and base; a test compares a few documents.", "anchors": ["layouts/src/abs/syntax/build.rs: Scope::bind, Scope::variable, Scope::with_header, Scope::with_intro, Scope::without_variables", "layouts/src/abs/syntax/pattern/compact_iri.rs: CompactIri::resolve", "layouts/src/abs/syntax/layout/mod.rs: Layout::build_with_context", "layouts/src/abs/syntax/mod.rs: ValueFormatOrLayout::build"]}
{"id": "C109", "title": "Reading back the CBOR output", "statement": "The CBOR text that `hydrate` writes is read by `dehydrate` and `convert` as the value that was hydrated, when no layout of the value has a CBOR tag, the numbers are non-zero integers that fit in 64 bits or exact floats, and the unit layouts have the unit constant. With a tag anywhere in the value, or an integer that does not fit, the text is written but every command that reads it fails.", "quantifier": "all registries, datasets, typed values, tags, orders of CBOR maps", "why_tests_cant": "Values are unbounded and the maps are written in the order of CBOR, not in that of the values; the failure must hold for a tag at any depth.", "anchors": ["src/format/tree.rs: TreeFormat::write_typed, TreeFormat::load", "layouts/src/value/de.rs: Deserialize for Value", "layouts/src/value/cbor/serde_cbor.rs: try_into_tagged_serde_cbor_with_ref", "Cargo.toml: serde_cbor, feature tags"]}
{"id": "C110", "title": "The names of layouts play no role", "statement": "Give the layouts of a registry other names (with the references to them; two layouts with the same definition may also be merged, or one duplicated): dehydrating a value gives the same quads, the same resources and the same errors, up to the names in the errors. Hydrating gives the same outcome, and the same value once the names are erased, in the same order provided that no set contains variants of a sum.", "quantifier": "all registries, all relations between the names, all layouts, datasets, graphs, inputs and values", "why_tests_cant": "Names generated for nested layouts depend on everything that was loaded before; a test has one registry with one naming, and the order of a set depends on the names only through the comparison of typed values.", "anchors": ["layouts/src/distill/hy/mod.rs: hydrate_with", "layouts/src/distill/de/mod.rs: dehydrate, dehydrate_with_ref", "layouts/src/value/mod.rs: TypedValue, TypedLiteral (derive Ord)", "layouts/src/ref.rs: Ref"]}
{"id": "C111", "title": "The order of the layout files plays no role", "statement": "Give the command line the same layout files in another order (those of -l among themselves, those of -i among themselves): if it succeeds, it still succeeds. Checking, converting and dehydrating write the same text, and so does hydrating to JSON or CBOR provided that no set contains variants of a sum; otherwise what is hydrated is the same up to the order of the items of lists. The layout of the command is the one of the file or an IRI, not a blank name.", "quantifier": "all files, all permutations of the files, all commands, standard inputs and presets", "why_tests_cant": "The anonymous layouts of the files are numbered in the order of the files, so every permutation gives another registry; a test tries one or two orders of two files.", "anchors": ["src/main.rs: run, load_layout, DefaultLayoutRef, Command::run", "layouts/src/abs/mod.rs: Builder", "layouts/src/distill/hy/mod.rs: hydrate_with"]}
{"id": "C112", "title": "CBOR tags come from the layout files", "statement": "When the command line hydrates a dataset to CBOR, each node of the output has the tag that the documents of the layout files give, by the property cbor#tag, to the layout which hydrated this node, and no other tag; layouts of the prelude have none. When it refuses a tag, some layout that was used has no valid tag in the documents. The extra properties of the files change nothing in the other commands, nor in the hydration to JSON.", "quantifier": "all layout files, command line arguments, standard inputs, datasets and presets", "why_tests_cant": "The only test of tags has one document with one tagged field and calls the library; the properties of several files are merged into one registry beside those of the prelude, and any layout of any file can be used by the value.", "anchors": ["src/main.rs: run, load_layout, Command::run", "src/format/tree.rs: TreeFormat", "layouts/src/value/cbor/mod.rs: get_layout_tag, CBOR_TAG_IRI", "layouts/src/value/cbor/serde_cbor.rs: try_into_tagged_serde_cbor_with", "layouts/src/abs/syntax/layout/mod.rs: LayoutHeader, extra"]}
{"id": "C113", "title": "The classes of the states of an automaton", "statement": "`try_partition` puts each reachable state in the class of its image, in no other class, and no other state in any class; if it fails it is with the error of the function for a reachable state, and it always ends. The classes of `partition`, for a function that separates the final states, can be given to `minimize`: the result is a minimal deterministic automaton, whose blocks accept the same words.", "quantifier": "all automata (cycles, unreachable states), all functions on states, all words", "why_tests_cant": "No test of the project calls these functions; an automaton with one unreachable transition makes `minimize` panic on the classes of `partition`, and every shape of automaton matters.", "anchors": ["layouts/src/utils/automaton.rs: DetAutomaton::partition, try_partition, try_partition_from, minimize"]}
{"id": "C114", "title": "Numbers and machine numbers", "statement": "A number made from an f32 or an f64 is exactly the float (its sign is lost for zero), and making it fails exactly for NaN and the infinities; two floats of the same number are the same float, but for the sign of zero. Turning the number back gives the same f64. Every number made from an integer of 64 bits or from a float is then kept unchanged when a value is serialized and deserialized with serde.", "quantifier": "all floats, all 64-bit integers, all values built from them, all conversions `to_f64` that are exact where a double exists", "why_tests_cant": "There are 2^64 doubles, subnormals and boundaries included; tests try a few round numbers and miss zero (which panics), -2^63 and integers above 2^53.", "anchors": ["layouts/src/value/mod.rs: number_from_integer!, number_from_float!, NonFiniteFloat, Number::to_f64, Number::as_native, NativeNumber", "layouts/src/value/ser.rs: Serialize for Value", "layouts/src/value/de.rs: Deserialize for Value"]}
{"id": "C115", "title": "Layout documents read with serde: exactly the documents of a grammar", "statement": "Deserializing a layout with serde succeeds exactly on the documents of a grammar written apart from the reader, and gives the layout they describe; everything else is an error, never a panic. A layout is a boolean or a map whose keys are distinct texts known for its type (never a sequence); the parts of layouts may also be sequences of their first fields; optional entries may be null, but entries with a default may only be left out; the language of a literal is only read when a type is given and is not an IRI.", "quantifier": "all values a serde format may present (maps with any keys and repeated keys, sequences, null, bytes, numbers), unbounded nesting", "why_tests_cant": "The reader is derived: untagged enumerations that try variants in order, flattened headers and denied unknown fields interact, and which documents are accepted, and as what, depends on all of them at any depth.", "anchors": ["layouts/src/abs/syntax/layout/mod.rs: Layout, LayoutHeader, LayoutRef (Deserialize)", "layouts/src/abs/syntax/layout/{literal,list,product,sum,union,intersection}.rs (Deserialize)", "layouts/src/abs/syntax/mod.rs: OneOrMany, ValueFormatOrLayout, ValueFormat (Deserialize)", "layouts/src/abs/syntax/pattern/literal.rs: LiteralValue, LiteralType, LiteralTypeIri (Deserialize)", "layouts/src/abs/syntax/{dataset,resource}.rs (Deserialize)"]}
{"id": "C116", "title": "Compiled layouts read with serde: exactly the documents of a grammar", "statement": "Deserializing a compiled layout succeeds exactly on the documents of a grammar written apart from the reader, and gives the layout and the extra properties they describe. The structures are maps in which no field is repeated and other entries are ignored, or sequences with exactly one value per field; only the constant of a unit layout, the graph of a format and the pattern of a literal layout may be left out; a field always says if it is required; numbers of variables are 32 bits. Whatever else is presented is an error, never a panic, if the readers of resources, datasets and ranges do not panic.", "quantifier": "all values a self describing serde format may present, any implementation for resources, datasets and ranges of characters", "why_tests_cant": "The reader is derived from nested enumerations and structures; round trip tests never try the documents that the program does not write itself.", "anchors": ["layouts/src/layout/mod.rs: Layout (Deserialize)", "layouts/src/layout/{product,sum}.rs, layouts/src/layout/literal/**, layouts/src/layout/list/** (Deserialize)", "layouts/src/format.rs: ValueFormat (Deserialize)", "layouts/src/pattern.rs: Pattern (Deserialize)", "layouts/src/utils/automaton.rs: DetAutomaton (Deserialize)"]}
{"id": "C117", "title": "Errors of layout documents: the types announced are the types accepted, and the messages are not ambiguous", "statement": "When a layout document is refused because of the type of a layout, the types announced by the hint are exactly the types that a layout may have, each once; the one that was found is not one of them. The hint is the English enumeration of these types, from which they can be read back, and it is followed by the type that was found. The message of an error and its hints determine the error: two documents reported with the same texts have the same error, up to the texts of the kinds of JSON values.", "quantifier": "all layout documents, at any depth; any syntax of IRIs, blank nodes and language tags in which some text is an IRI", "why_tests_cant": "The list announced is written by hand apart from the cases that accept the types, in four places; a test looks at one message for one document.", "anchors": ["layouts/src/abs/syntax/mod.rs: Error, Error::hints, ErrorHint (Display), ExpectedType, check_type", "layouts/src/abs/syntax/layout/mod.rs: Layout::try_from_json_object_at", "layouts/src/abs/syntax/layout/{list,literal}.rs: try_from_json_object_at", "layouts/src/abs/regexp.rs: ParseError (Display)"]}
{"id": "C118", "title": "The errors of hydration tell the truth", "statement": "When hydration returns an error, what the error says is the case: following the layout from the call through fields, items of sets, nodes of lists and items of tuples (never into the variants of a sum), there is a place where the layout named is not defined, is given another number of resources, has no solution (missing data) or several (ambiguous data) for the part of the data named in the error, has no literal of its datatype, or has a number in a datatype that is not one of numbers. Conversely a value is returned only if nothing of this kind is the case at any place asked for. The error of a sum is about the sum itself.", "quantifier": "all registries (recursive or not), datasets, enumeration orders, graphs, layouts and inputs", "why_tests_cant": "The errors of a nested layout depend on all the data visited before; a test looks at one error of one document and cannot exclude that an error names a part of the data that is fine, nor that a value is returned although a part is wrong.", "anchors": ["layouts/src/distill/hy/mod.rs: Error, DataFragment, for_fragment, hydrate_with_ref", "layouts/src/distill/hy/data.rs: hydrate_data", "layouts/src/matching.rs: into_unique, into_required_unique"]}
{"id": "C119", "title": "Which values dehydration accepts: a judgement on values alone", "statement": "Dehydration accepts a value exactly if the layout takes it, for a judgement written on values alone: the constant of a unit layout, a literal of the kind of the layout, an IRI, a record with no unknown key and every required key, a list, a tuple of the right length, each part being taken by its layout, and a value that exactly one variant of a sum takes and all others refuse; all variables looked at being declared. When an error is returned, the value is refused and what the error says is the case: an unknown layout, a wrong number of inputs, a value of the wrong kind, a missing required key, an undeclared variable, no variant or several. No value is both taken and refused, so the answer depends neither on the resources given as inputs (only on their number), nor on the graph, the state or the interpretation. The public function may also fail, for a value that is taken, because one resource is given two terms.", "quantifier": "all registries (recursive or not) with sorted fields, values, graphs, inputs, interpretations and states", "why_tests_cant": "The verdict of a sum depends on the refusal of all other variants at any depth, and the code decides by attempting to write; a test checks one value against one layout and cannot exclude that the data written so far or the inputs change the answer.", "anchors": ["layouts/src/distill/de/mod.rs: dehydrate, dehydrate_with, dehydrate_with_ref, dehydrate_sub_value, Error", "layouts/src/distill/de/data.rs: dehydrate_boolean, dehydrate_number, dehydrate_byte_string, dehydrate_text_string"]}
{"id": "C120", "title": "What hydration reads is never refused by dehydration", "statement": "Read a value with a layout: dehydration with the same layout does not refuse it. It returns no error at all when it is given as many resources as were read, and the public function may only fail because one resource would be given two terms. This holds for layouts that use no undeclared variable, whose sums have variants that exclude each other (a value taken by one is refused by the others), and if the identifiers read are IRIs; without sums nothing is asked about variants.", "quantifier": "all registries meeting the conditions (recursive or not), datasets, graphs, inputs, interpretations and states", "why_tests_cant": "The value comes from arbitrary data and is given to another algorithm, which decides by attempting to write at any depth; tests read and write back a few documents.", "anchors": ["layouts/src/distill/hy/mod.rs: hydrate, hydrate_with", "layouts/src/distill/de/mod.rs: dehydrate, dehydrate_with", "layouts/src/value/mod.rs: TypedValue::into_untyped"]}
{"id": "C121", "title": "When what was read cannot be written back", "statement": "Read a value with a layout and write it back with the same layout. If dehydration reports that one resource would be two terms, these two terms are two ways to write one boolean or one decimal, one of them the normal way of its datatype: never two IRIs, two texts, or two different values. Under the conditions of C120 this is the only error possible. It is possible: a literal such as 042 read both as a text of this datatype and as a number is read without error and cannot be written back. With layouts that read no boolean or decimal as a text, and write their own literals in the normal way, it is impossible: whatever was read is written back without error. If moreover the layouts of literals are supported and no sum is its own variant, dehydration returns, and returns a dataset: a part of the one read, up to the names of blank nodes and the way literals are written.", "quantifier": "all registries whose layouts introduce no unused variable and name no graph, whose sums have exclusive variants (recursive or not), all datasets, inputs, options and orders", "why_tests_cant": "The ambiguity is found after the whole value was written, between literals met at any two places of the document; tests cannot exclude that some document makes two unrelated terms meet on one node.", "anchors": ["layouts/src/distill/de/mod.rs: dehydrate, Error::TermAmbiguity", "layouts/src/distill/de/data.rs: dehydrate_number, dehydrate_boolean", "layouts/src/distill/hy/mod.rs: hydrate"]}
{"id": "C122", "title": "The compiled layouts are as the distillation needs them", "statement": "Whatever documents are compiled, one after the other and with success or not, the registry obtained has the fields of each record in the order of their keys, each key once. So what is proved of hydration and dehydration under this condition holds of compiled layouts: what is read is what the layouts mean and errors are given only for data they do not describe; all that they mean is read, if the variants of the sums introduce no variables; what is written is a value that the layout takes and an error tells why it is refused; and what was read is not refused when written back, if the variants of the sums exclude each other.", "quantifier": "all sequences of documents, registries obtained from them, datasets, layouts, inputs, values, interpretations and states", "why_tests_cant": "The claim links two parts of the library for all documents; tests compile a few documents and distill a few datasets with them.", "anchors": ["layouts/src/abs/syntax/layout/product.rs: ProductLayout::build", "layouts/src/abs/syntax/layout/mod.rs: Layout::build, build_with_context", "layouts/src/abs/mod.rs: Builder::build", "layouts/src/distill/hy/mod.rs: hydrate_with", "layouts/src/distill/de/mod.rs: dehydrate, dehydrate_with"]}
{"id": "C123", "title": "Read, written, and read again", "statement": "Read a value from a dataset with a layout, write it with the same layout, and read what was written, at the nodes returned. Under the conditions of C121 the writing succeeds, and the second reading succeeds and gives the same value, up to the order of the items of sets; without sets, exactly the same value. This although the dataset written is another one: it has other blank nodes, only the quads that the layout names, and normal literals. A set of literals that holds one value written in two ways is an exception: it is read with a duplicate, which is lost when it is read again.", "quantifier": "all datasets, inputs, values, options, orders of the sets, for the layouts of C121 that are trees (C30)", "why_tests_cant": "It composes a reading of an arbitrary dataset, with other quads and other spellings of the literals, with a writing and a reading of unbounded values.", "anchors": ["layouts/src/distill/hy/mod.rs: hydrate", "layouts/src/distill/de/mod.rs: dehydrate"]}
