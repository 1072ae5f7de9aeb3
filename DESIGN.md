# Formal model of the TreeLDR layout engine — design

The source under study is `/repo` (Rust, read as text only; never built or run).  The model is
written in Rocq/Coq 8.16.1 under `rocq/theories`.

## 1. Conventions of the model

* Rust functions become total Gallina functions.  `Result` stays data.  Every panic path
  (`unwrap`, `todo!`, `unreachable!`, out of range indexing) is an explicit `Panic` outcome,
  and a recursion without structural bound takes fuel and answers `OutOfFuel`, which the theorems
  exclude (or about which they speak explicitly when non-termination is the claim).
* `Vec` is `list`; `BTreeMap`/`BTreeSet` are strictly sorted (association) lists built with an
  insertion function; `HashMap`/`HashSet` are lists whose order is never observed.
* `String` is Coq's `string`, read as the sequence of UTF-8 bytes (Rust orders `str` bytewise too);
  where the code works on `char`s (regular expressions) a character is an `N` code point.
* `u32` counters are unbounded (`nat`/`N`); the code would need 2^32 variables to overflow.
* `BigRational` is `Qc` (canonical rationals, Leibniz equality).
* The RDF resource type `R` and its interpretation (`iris_of`, `literals_of`) are parameters, as in
  `hydrate_with`/`dehydrate_with`.  A dataset is given by the list of its quads and an enumeration function
  that, for every pattern, returns the matching quads in an arbitrary order.
* Model files (`*Model.v`) contain definitions only, each citing file and lines.  Specification files
  (`*Spec.v`) do not use model helpers beyond the data types.  `*Proofs.v` hold the lemmas and
  `*Properties.v` the final theorems, each with `Print Assumptions` and an `Example` that meets its hypotheses.
* If a property is false of the faithful model, there is a `..._refuted` theorem with a concrete
  witness, and the largest part found true is proved with suffix `_partial`.

## 2. Trusted base

* Coq's kernel (and `vm_compute` for the examples / refutations).
* The reading of the Rust source in the model (sections 1 and 4).
* Contracts of external crates, modelled by definition and not verified:
  `rdf_types` datasets (`quad_pattern_matching` of a `CanonicalQuadPattern` returns exactly the quads that
  agree with the resources of the pattern and with its repeated variables; a pattern graph `None` only matches the
  default graph; a variable graph only matches named graphs), `rdf_types` unit interpretation,
  `generator::Blank` (n-th identifier `_:n`), `btree_range_map` (range sets/maps as finite maps on characters),
  `xsd_types` lexical forms of `xsd:boolean` and `xsd:decimal`, `json_syntax` objects (ordered list of entries),
  `iref` (reference resolution is an uninterpreted parameter), `serde_cbor` values, `std::io::Stdout` (a `LineWriter`
  flushed at the exit, errors ignored), `codespan_reporting` (`SimpleFiles`, `emit` fails for a label in an unknown file).
* Axioms: see section 5 (output of `Print Assumptions`).

## 3. Plan per property

| id | property | model and proof plan |
|---|---|---|
| C01 | Pattern matching is sound | Stack machine of `matching.rs` modelled step by step; invariant by induction on the run; refinement to a depth first search and from it to the declarative set of solutions. |
| C02 | Pattern matching is complete | Same refinement, other inclusion. |
| C03 | Each solution is produced exactly once | NoDup of the depth first enumeration by induction on the patterns; dataset enumeration assumed duplicate free. |
| C04 | Matching always terminates | Lexicographic/weight measure on the stack; explicit fuel bound. |
| C05 | `into_unique` decides uniqueness exactly | Case analysis on the solution list plus C01-C03. |
| C06 | Matching does not panic on declared variables | Invariant: length of substitution never changes and covers pattern variables. Second half: witness and general statement. |
| C07 | `with_quad` contract | Expected refuted (resource components are not compared); exact characterisation of what is checked (`C07_with_quad_exact`). |
| C08 | Evaluation graph | Follows from C01 with `QuadsWithDefaultGraph` modelled; congruence theorem: quads of other graphs can be added/removed. |
| C09 | Hydration is sound with respect to the layout semantics | Inductive relation `Means` (spec) and induction on fuel. |
| C10 | Hydration is complete with respect to the layout semantics | Induction on the derivation of `Means`. |
| C11 | Hydration depends only on the set of quads | Through C09/C10: `Means` mentions the dataset only through membership; sets are sorted by a total order. |
| C12 | Input arity is enforced | Direct, for hydrate and dehydrate. |
| C13 | Undefined layouts are reported | Induction on fuel with closed registries.  Comparison with any extension of the registry (UndefinedProperties.v): same result, or the error naming a missing layout; proved when the variants of sums use defined layouts only, refuted otherwise. |
| C14 | Hydrated values conform to their layout | Inductive predicate `Conforms`, induction on fuel. |
| C15 | Sets are returned sorted | Sorting function verified; permutation of hydrated matches. |
| C16 | Bottom and top layouts | Direct. |
| C17 | A sum selects exactly one variant | Expected partly refuted: panics (`todo!`) for zero/two variants, variant intro variables not declared. Partial: exact behaviour when variants have no intro (`C17_choice`, SumProperties.v: one variant that applies is returned, none or two panic). |
| C18 | Hydration never panics | Expected refuted (several `todo!`). Partial: list of exact conditions for panic freedom. |
| C19 | Ordered lists are read in link order, or hydration reports an error | Link order: induction on the list. Termination refuted by cyclic list witness (every fuel). |
| C20 | String patterns are enforced | Refuted (TextPatternExamples.v): the automaton is never consulted; whatever the pattern every string is hydrated and dehydrated. In general (TextPatternProperties.v): registries that differ only by their patterns give the same results. |
| C21 | Dehydration returns as many resources as the layout has inputs | Direct on the model of `dehydrate`. |
| C22 | Record keys are checked | Induction on the entries. |
| C23 | Tuple length is checked | Direct. |
| C24 | Introduced resources are fresh | Invariant on the anonymous counter. |
| C25 | Dehydration emits the layout's quads | Invariant on output: every quad is the instance of a pattern of the registry; inclusion for the root. |
| C26 | Dehydration honours the evaluation graph | Expected refuted. |
| C27 | A sum dehydrates through exactly one variant, without trace of the others | Expected refuted (failed variants pollute the output). Partial: at most one variant accepted. |
| C28 | Conflicting identifications are rejected | Model of the ambiguity check and of the memoised mapping. |
| C29 | Variables resolve to the innermost declaration order | Induction on the environment chain against `nth_error` of the concatenation. |
| C30 | Dehydrate then hydrate is the identity | False in general: refuted with seven witnesses (empty ordered list, duplicate literals in a set, shared identifiers, absent optional identifier, a list node identified by the end of the lists, a component in another graph, a choice whose failed variant has written a part of the value). Proved for tree layouts (`RoundTripSpec.v`), including choices between described nodes made by a property of the node (`tagged_layout`), when the other variants refuse the value from its shape or first key (`Refuses`): `RoundTripRun.v` shows that dehydration writes exactly the quads of `Wrote` (`RoundTripWrites.v`), `RoundTripMeans.v` that these quads mean the value in the specification of hydration, and `C10_hydration_complete_partial` that hydration finds it. Only the layouts reached need to be of the class (`C30_round_trip_local_partial`, from C94). The other data of the dataset plays no role as long as it does not concern the layouts (`C30_round_trip_among_partial`, from C96), or is not about the nodes of the result, but for properties of its root that the layout does not use (`C30_round_trip_elsewhere_partial`). |
| C31 | Dehydration never panics | Expected refuted; partial for xsd datatypes. |
| C32 | Regular expression compilation is correct | Refuted: the start state of a non-empty sequence is overwritten (from "ab" the automaton accepts only the empty word, as for every string of two characters or more), `{2,1}`, `(a{2,})*`. Proved for expressions without non-empty sequences (`compilable`); compilation always ends. RegexpBuild.v reasons on graph fragments. |
| C33 | Determinization preserves the language | Subset construction invariant, closure = reachability by epsilon. |
| C34 | Product is intersection | Det product proved; NFA product refuted with epsilon transitions, proved for epsilon-free. For all automata, the product accepts the words that both read with their epsilon transitions at the same places (`C34_product_exact`). |
| C35 | Renaming states keeps the language | `map` proved; `try_map` refuted. |
| C36 | Minimization keeps the language | Refuted (final states dropped: the result accepts nothing). Partial: Hopcroft refinement proved correct (stable, coarsest, terminating), language preserved once the final blocks are restored, and minimal (Nerode on label words). |
| C37 | Compression keeps the language | Refuted (successors never expanded; divergence on cycles). Partial: sound for all automata, complete when only the initial state branches, terminating when the single-transition chains are finite. |
| C38 | Reachable states | Reachability by DFS, fuel bound. |
| C39 | Simplification keeps the language | Refuted on empty sets inside sequences; proved when the items of sequences have words (`solid`). No word is lost (`C39_simplified_keeps`). |
| C40 | `as_singleton` returns the only word | Refuted: the repetition count is lost. Proved when repetitions are `{1}`; `is_singleton` and absence of panics proved for all. |
| C41 | Printing then parsing a regular expression | Refuted (`.`, `{m,n}`, union alone in a sequence, empty union). Proved for `printable` expressions and for all strings. |
| C42 | Postfix operators bind to the preceding atom | Refuted: an operator repeats the whole branch. Proved when operators only come after the first atom of a branch, against a specification that reads the pattern from left to right. `C42_branch_partial`: what the parser understands, wherever the operators are. |
| C43 | The pattern parser is total | Proved: never panics, accepts exactly the well formed patterns, specified by a grammar of tokens. |
| C44 | Decimal representation is exact | Long division invariant; refuted for numbers <= -1. |
| C45 | Native numbers are exact when integral | Refuted at zero; partial for non zero. |
| C46 | JSON round trip of values | Induction on values; numbers through C44. |
| C47 | CBOR numbers | Refuted at zero and for negative bignums; partial otherwise. |
| C48 | Forgetting types | Induction on typed values. |
| C49 | Registry union precedence | Direct. |
| C50 | Registry insertion | Induction on histories of insertions. |
| C51 | Dependencies | Sort/dedup verified. |
| C52 | Scoping of layout variables | Scopes against a naming-environment specification. |
| C53 | Compiled layouts are well scoped | Induction on the abstract syntax. |
| C54 | Compact IRI resolution | Direct. |
| C55 | Layout redefinition is rejected and harmless | Refuted (insert before check; fresh generator per build); the error, the preservation on success and the case of one generator are proved. |
| C56 | Layout documents reject unknown, duplicate and missing entries | Model of every `TryFromJson` implementation of `abs/syntax` (AbsJsonModel.v) against a grammar of the documents (AbsJsonSpec.v); iff statement at any depth, by induction on the size of the document. |
| C57 | Generated code: identifiers | Direct on the model of the runtime. |
| C58 | Generated code: integers | Direct, plus decimal printing/parsing of integers. |
| C59 | Dehydration terminates when sums are well founded | Lexicographic measure (depth of the value, rank of the layout); refuted without the hypothesis (divergence at every fuel). |
| C60 | Dehydration only adds quads | Invariant of the monadic run; simulation between two runs that differ in the initial output. |
| C61 | UndeclaredVariable | Outcome analysis against the independent `undeclared_in`. |
| C62 | Generated identifiers | Refuted: blank identifiers `_:0`... are generated without looking at the layouts. Proved when the layouts mention none of the blank nodes of the options (DehydrateClash.v). |
| C63 | Serialized automata keep their language | Serialization of the transitions as a list of triples, proved. |
| C64 | Only values of the shape of the layout are dehydrated | Shape predicate `Fits`, from `Emits` (C25). |
| C65 | Building an automaton adds exactly the transitions asked | Edges of the result of each function of the API, AutomatonEdges.v. |
| C66 | Character sets of the patterns | Proved from the grammar of C43 and the specification of the range sets. |
| C67 | Every JSON document can be read as a value | Refuted by exponents (`1e2` panics); succeeds exactly without exponent. NumberText.v: for all texts, the number read is the one the text denotes as a decimal numeral with an optional sign, and all other texts panic (`C67_number_text`, `C67_number_panics`). |
| C68 | Serde round trip of values | Refuted at zero; induction on values otherwise, floats as parameters. |
| C69 | CBOR tags | Relation `Tagged`, induction on typed values. |
| C70 | The compilation of a document is its meaning | Relation `compiled` between documents and definitions (AbsSpec.v), independent of the compiler; Hoare-style logic over the builder state, induction on the abstract syntax. |
| C71 | Compilation panics only on unions and intersections | Same logic as C52/C53. |
| C76 | The registry of a builder has exactly its definitions | Induction on the builder (AbsRegistry.v); the automata through C32; documents through C70. |
| C73 | Generated code: texts | Direct on the model of the runtime (GenDataModel.v); the ambiguity of several texts is refuted. `C73_first` says exactly which text is read. |
| C74 | Generated code: deserializers agree with hydration | Model of the generated code (GenModel.v); simulation by induction on the fuel, both ways (GenProofs.v), composed with C09. The converse is proved for programs without enumerations, and for those whose enumerations are discriminated by the dataset (`C74_deserialize_enumerations_partial`: for given inputs, the quads of two variants are never both in the dataset). Refuted in full: IRIs unknown to the interpretation, enumerations whose first variant fails, blank identifiers, ill-formed literals, Rust type different from the layout. |
| C75 | Generated code: what is serialized is read back | Model of the generated serializers (GenSerModel.v).  The writes of each part are described by the slots it owns on existing nodes (`Wrote`) and the frame under which it is read (`View`), composed by sequencing and by allocation (GenSerWrites.v); induction on the values (GenSerProofs.v).  Proved on the types that describe trees; refuted in full: empty ordered lists, blank identifiers in derived `id` layouts, named graphs, variants that are not told apart, identifiers and literals on a resource other than the input. |
| C77 | Derive macros: what the tldr attributes say | Model of the attribute parser on token trees (AttrModel.v); grammar `settings`/`separated` and meaning `slot` as relations (AttrSpec.v); equivalence by strong induction on the tokens (AttrProofs.v). |
| C78 | Derive macros: mistakes in the attributes are reported | Refuted: unknown words without argument are accepted and ignored, `id("..")` is always rejected because `id` is read as a kind first.  Partial: unknown words with an argument are reported. |
| C79 | Derive macros: the layout of a type is the one it declares | Relation `declared` between types and abstract layouts (AttrSpec.v); the compiled layout through C70, C71 and C76, which also exclude panics (AttrDerive.v), provided that the names of blank nodes are names of variables (`blank_names`, an assumption on the external `BlankId::new`; see C101); `C79_computed`: computed exactly when the declared layout is well formed (C83). |
| C82 | The prelude defines the twelve presets | The documents are read by the serde model and compiled by the model of the compiler (PreludeModel.v); the registry is characterized through C76 (PreludeProofs.v); `C82_types` compares the layouts with those of the runtime types (C74). Refuted for `build_with`: an interpretation giving one resource to two presets makes it panic (`C82_same_refuted`). Noticed: the generator uses `bool` and `()` for two presets, for which the runtime does not implement the traits. |
| C83 | Layout documents: what compiles | `well_formed` (AbsAcceptSpec.v) with the identifiers of the document; computations that only read and computations that define layouts, induction on the document (AbsAccept.v). |
| C80 | Code generator: the generated type derives the layout it was generated from | Generated tokens (CodeGenModel.v) read by the specification of the attributes (C77) into an abstract layout, whose meaning (C79) is compared with the original by `same_layout` (CodeGenSpec.v). `C80_declares`: the derived layout is what `declares` relates to the original; `C80_faithful_partial` when nothing is lost (`expressible`); `C80_accepted`: accepted exactly when the variables are declared; `C80_generates`: generated exactly when named. Refuted in general: literals become one-element tuples (no kind attribute, `C80_literal_tuple`, `C80_literal_refuted`), sets are rejected (`BTreeSet` where the macros expect `Vec`, `C80_set_rejected`, `C80_set_refuted`), optional fields become required, unit constants, resources of identifiers and the order of variants are lost (`C80_*_refuted`). |
| C81 | Code generator: the type of a component | `module_of`, `least_ident`, `first_preset` (CodeGenSpec.v); the greatest of the prefixes of an IRI is the longest.. `C81_preset` (PresetTypeProperties.v): the type written for a preset is the text of the runtime type that follows the layout of the prelude (C82). `C81_identifier` (IdentProperties.v): the identifier of an IRI is made of the words of its fragment, or last segment, capitalized (`words`, an inductive definition). |
| C84 | Code generator: a registry is translated into one type per layout | `C84_registry_partial`: translated exactly when every layout has an identifier and is named. Refuted: identifiers forget the namespace (`C84_distinct_refuted`), anonymous layouts have none and make the whole registry fail (`C84_anonymous`, `C84_anonymous_refuted`). |
| C72 | Layout documents: serde round trip | Model of the derived `Serialize` and `Deserialize` implementations on the data model of serde (AbsSerdeModel.v); induction on the layouts, `plain_layout` (AbsSerdeSpec.v) says what is preserved. Refuted in general: the language of a literal is lost (the type, by default `xsd:string`, is tried first), `graph: Some(None)` is read as no graph, the constant zero panics (C68), some regular expressions are not read as they are printed (C41); and what is written is refused by the JSON reader (`"resource": null`). |
| C85 | Layout documents: the serde reader and the JSON reader agree | The grammar of C56 is read by the serde model, induction on the size of what is read (AbsSerdeAgree.v); totality (AbsSerdeTotal.v). Refuted in general: languages; with `arbitrary_precision`, which the workspace selects, a constant number becomes a map and integers in `extra` are refused; conversely serde accepts nulls and arrays that the JSON reader refuses. |
| C86 | Command line: the files that are loaded | Model of `run` and `load_layout` (CliModel.v) on a world of files. `acceptable` (CliSpec.v) composes C56, C83 and the uniqueness of identifiers; the meaning of the registry through C70, C76 and C82 (CliProofs.v); the result does not depend on the fuel (CliMono.v). The parsers of the automata are total on scalar values (RegexpGood.v, C32). |
| C87 | Command line: the layout of a command | Direct on the model, with the identifiers of C83. |
| C88 | Command line: dehydrate, then hydrate | C30 composed with the readers and the writers, which are parameters with read-back laws (`format_laws`, CliSpec.v; an instance from the encodings of std++ in CliCodec.v). The subject to give to `hydrate`, which the program does not print, is `_:input0` (`dehydrated_root`, CliData.v). Partial: the class of C30; refuted outside, see C30, and `C88_duplicates_refuted` (CliLost.v) on the command line. To CBOR: `C88_cbor_partial`, without tags (see C109). Only the layouts reached need to be of the class (`C88_round_trip_local_partial`). |
| C89 | Command line: conversions keep the data | C46, C67 and C68 with the same laws. Refuted in full: a number lower than or equal to -1 is refused by JSON, zero panics to CBOR (and exponents panic, C67). |
| C90 | Code generator: what a generated serializer writes | Same model as C75, for all programs.  `Written` (GenWrittenSpec.v) relates a value and its inputs to the effects that represent it, without the interpretation: resources created, quads written, names given.  Invariant `grows` on the interpretation, induction on the fuel (GenWritten.v).  Success: `Typed`, the values of a type whose layouts have their variables in scope; induction on the derivations.  The laws assumed of the interpretation (`ResolverLaws`, `ResolverMore`) are met by an instance (GenSerExamples.v, GenWrittenExamples.v).  Hypothesis: no identifier in the value is an IRI of the layouts (such an assignment could change the resource of that IRI). |
| C91 | The text of a value is unambiguous | `value_display` (DisplayModel.v), with the string literals of `json_syntax` as a parameter `json_string`, of which only two laws are used: a literal starts with a quote, and it determines the string and what follows it.  Induction on values, with a continuation after the text: texts of numbers, bytes and keywords consist of characters that no continuation starts with.  `C91_injective`: the text determines the value (well formed or not).  `JsonTextOf` (DisplaySpec.v) is the JSON grammar without spaces: `C91_json` and `C91_only_json` show that the text is JSON exactly for the values without bytes, fractions and non-textual keys; `C91_read_back` composes with C46.  Consequence worth knowing, `C91_decimal_not_json`: one half, which has a JSON number, is written `1/2`, so the text of a value representable in JSON need not be JSON. |
| C92 | The program `tldr-rs` generates the type of the layout selected | `program` (GenProgModel.v): reading with serde (C72, C85), one builder shared by the documents, each with its own generator of blank nodes, the registry (C76), the selection and `generate` (C80, C81).  Refuted in three ways: a file that is not a layout document is only logged (`C92_unreadable_refuted`), a missing file panics (`C92_missing_refuted`), and two documents with anonymous layouts, which the command line accepts together (C86), collide on the blank node `_:0` (`C92_anonymous_refuted`).  Proved: `build_all` accepts exactly the documents that are `consistent` and `one_anonymous` (GenProgProofs.v), from C83 and from two facts on the compilation of a document (AbsAnonymous.v): it allocates a blank node exactly when it has an anonymous layout, and otherwise it does not depend on the generator; `C92_program` gives the result in every case, `C92_only` that nothing is generated otherwise, `C92_generates` when it succeeds. |
| C93 | The macros `tldr` and `tldr_include` generate one type for each layout | Same model, `tldr_module` and `tldr_include`.  Refuted for documents with anonymous layouts: they have no type identifier (`C93_anonymous_refuted`), so that every layout of the documents must have an identifier, however deep (`C93_only`); a missing file panics (`sample_module`).  Proved: `C93_module` (exactly when types are generated, and which), `C93_items` and `C93_options` (the declarations of the module, `registers`), `C93_include`. |
| C94 | Only the layouts reached matter | On the models of hydration, dehydration and the commands, by induction on the fuel; `agree_from` (LocalProperties.v) compares two registries on the layouts reached (`reaches` of the specification of C51). |
| C95 | Numbers stay in the range of their datatype | False: refuted with 300 written, and -1 read, as `xsd:unsignedByte` (NumberRangeExamples.v). What is checked is given exactly by `C95_dehydrate` and `C95_hydrate`: the datatype derives from `xsd:decimal` and is that of the layout, and the number is a decimal. |
| C96 | Data that no pattern of the layouts speaks of has no influence on hydration | `concerns` (OtherDataProperties.v) is stated on the pattern quads written in the layouts reached. The dataset is only asked for those (`C96_answers`), so that filtering the other quads out gives exactly the same outcome (`C96_removed`); two datasets with the same quads of interest, in any order of enumeration, agree as in C11 (`C96_agree`, `C96_same_no_sum`). |
| C97 | The names of the nodes play no role in hydration | Hydration commutes with every one-to-one renaming that keeps the IRIs and literals of the nodes and the resources written in the layouts (`C97_renamed`, RenameProperties.v), then for the relabellings of blank nodes (`C97_blank_nodes`). |
| C98 | The result of dehydration is unique up to the names of the blank nodes | The run on resources does not depend on the options; `DehydrateUnique.v` shows that it writes no blank node that the layouts do not mention and assigns none. The names given to the resources by two options are then matched, and this correspondence is extended to a permutation of the labels (`C98_relabelled`). `C98_failures`: same failures. `C98_replaced`: the second options may give any terms. `C98_hydrated`: both results are read as the same value (C97). When a layout mentions a blank node a generator may confuse it with its own: `C98_mentioned_refuted`. |
| C99 | The errors of layout documents say where they are | `PositionModel.v` repeats the readers of `AbsJsonModel.v` with the code map and the positions; a simulation (`PositionProofs.v`) shows reader by reader that both give the same result and that the error is about the fragment at its position (`points_at`, PositionSpec.v). `C99_same_result`: tracking positions changes nothing and never panics by itself; `C99_in_document`, `C99_diagnostic`: the `unwrap`s of `into_diagnostic` succeed, with the labels given exactly; `C99_other`: a second position exactly for duplicate entries. An invalid language tag is placed on the whole literal (`C99_quoted_refuted`), which `points_at` says. |
| C100 | What is written back is what was read | `Represents`, the specification of hydration (C09), gives the nodes that stand for the variables; an invariant of the run of `dehydrate` (`Inv`, WriteBackProofs.v) maps each resource of the run to the node that was read in its place: the resources created for the variables of a header or an item are mapped to the substitution that was used to read. Needs that each variable is used by the patterns that come with it, that no value is read in another named graph, and that at most one variant takes a value (`plain_registry`, WriteBackSpec.v): `C100_written_back_partial`; `C100_part_of_dataset_partial` when the terms are in normal form. Refuted without: a variable shared by two fields only (`C100_shared_refuted`: two nodes are read, one is written), a value in a named graph (`C100_graph_refuted`: written in the default graph), a choice of records (`C100_choice_refuted`: the variants that refuse the value leave the quads of their header). |
| C101 | Names of variables and patterns that are terms | `VariableSpec.v` gives the grammar as tables; `C101_names`, `C101_labels` (VariableProperties.v). The macros check the name of a blank node again and `unwrap`: `C101_derive_exact` says on which texts they panic; never if `BlankId::new` (external) has no dots (`C101_derive_partial`), exactly on the identifiers with dots if it follows N-Triples (`C101_dots`, `C101_derive_refuted`). `to_term` panics only on variables that are not identifiers of blank nodes (`C101_panic`), which excludes the accepted names in both syntaxes (`C101_total_partial`). A term is kept unless its IRIs are abbreviations in the scope (`C101_term_partial`, `C101_term_refuted`). |
| C102 | Several documents in one dataset | `dehydrate_next` (CombineModel.v) is `dehydrate` with the state in which it leaves its generator; `dehydrate_all` is layouts/examples/combine.rs for any list of documents. For any layouts without blank nodes: each result is the one of `dehydrate` with a generator that has already given some names (`C102_each_alone`), and the blank nodes that two results share are inputs of both (`C102_shared_blanks`). For tree layouts (C30), each document is read back from the union when documents about the same resource use different properties of it (`C102_combined_partial`, `C102_combined_equal_partial`), from `C30_round_trip_elsewhere_partial`: reading is not disturbed by quads that are not about the nodes of the result, nor by other properties of its root. False with one generator for each document (`C102_separate_generators_refuted`) and for two documents of the same layout about the same node (`C102_same_subject_refuted`). |
| C103 | Command line: exit status and output | MainModel.v: `main` around the commands of CliModel.v (`run_main_cli`: the same command), with the standard output of Rust (`std::io::LineWriter` over an output that accepts a number of characters and then fails, any buffer size, any cutting of the text in pieces, flushed at the exit without looking at the error). Proved: errors write nothing and give a failure with a diagnostic; with an output that accepts everything, success iff the command succeeds, with its text; no panic of its own; for quads success means that everything is written. The full statement is false: a JSON (or CBOR) text that stays in the buffer is lost with status success when the output refuses it (`C103_silent_refuted`); what may be lost so is exactly bounded by `C103_refused_partial`: a part of the last line, not longer than the buffer. |
| C104 | Command line: the diagnostics name the file at fault | `load_each` keeps the files (`SimpleFiles`) and their numbers; the specification (`first_bad`, `describes` in MainSpec.v) uses `acceptable` (C86) and `points_at` (C99). Both directions are proved for files that are not JSON documents or not layouts. False for layouts that cannot be built: the number of the file is dropped (`LayoutBuild(_file_id, e)`), two sets of files with different files at fault give the same diagnostic (`C104_build_refuted`). |
| C105 | Extra properties of layouts and CBOR tags, from the document to the output | `build_layout_extra` (ExtraModel.v) is the compilation of AbsModel.v with the map of the properties beside the builder; `C105_same_layouts` shows that nothing else changes. The specification `described` (ExtraSpec.v) extends `compiled` (C70) with the entries of the headers, and `has_tag` says which tag is written. The proof uses the logic of C70, made generic in what is observed of the state (`logic` in AbsMeaning.v). `C105_conversion` combines it with C69 (`Tagged`) for all values that conform to the registry (`Conforms`, C14). The test `into_tagged_cbor` of the project is run on the model in ExtraExamples.v. The type given to a number by `xsd_types` and the list of unsigned types stay external. |
| C106 | Compiled layouts written and read with serde | `put_layout`/`get_layout` (LayoutSerdeModel.v) write out the derived implementations on the data model of serde (`serde_value`, JsonModel.v); resources, datasets and ranges of characters are external (class `SerdeExternal`, assumed to read what they write: `faithful`, with an instance for terms in the examples). `C106_read`: whatever is written is read as the same layout except that the graph `Some(None)` ("in the default graph") becomes `None` ("in the current graph") and that automata may lose declared states without transitions, which leaves their language unchanged. The full statement is **false**: `C106_graph_refuted` (the layout read does not find a value in the default graph), `C106_constant_refuted` (the constant zero panics, as in C68) and `C106_states_refuted`. Proved otherwise: equality up to the automata, exact equality for compiled regular expressions (`C106_compiled_partial`), same hydration and dehydration. Not modelled: the text formats themselves (in particular JSON refuses keys that are not texts), and the other forms the derived readers accept for the names of fields (indices, bytes). |
| C107 | The order of the patterns of a layout plays no role | The model keeps a dataset of patterns as a list; `reordered` (ReorderSpec.v) relates layouts whose lists of patterns have the same elements. `C107_means`: they have the same meaning (HydrateSpec.v). `C107_hydrates_partial`: hydration never gives two different values, nor a value and an error. `C107_hydrates_no_sum`: the same value, for layouts without sums. `C107_dehydrates_with`, `C107_dehydrates`: dehydration ends in the same way with the same quads when every variable is declared (which compiled layouts satisfy, C53), for any interpretation. The full statement is **false**: `C107_sum_refuted` (the order of the patterns is the order of the items of a set; with a sum around, one order gives a value and the other panics) and `C107_undeclared_refuted` (the first undeclared variable is reported). This also justifies modelling `BTreeDataset` by the list in order of insertion. |
| C108 | Names of variables and spellings of IRIs play no role in documents | `same_layout` (AlphaSpec.v) relates two documents that only differ by names and spellings: a name stands for the position of its innermost declaration, an IRI for what it denotes in the environment of its layout (`iri_denotes`, AbsSpec.v); the headers may declare other prefixes and bases. `C108_same`: both compilations end in the same state (generator, vocabulary, builder) with the same result, or with errors of the same kind. `C108_renamed`: the documents obtained by `rename f`, `f` injective and keeping "value" and "self", are such documents. Proved in full by a simulation of the two compilations. |
| C109 | Reading back the CBOR output | `cbor_read` (CborReadModel.v): what the visitor of `Value` receives for a `serde_cbor::Value` that was written. Tagged items go to `visit_newtype_struct` (the command line enables the feature `tags`) and the integers below -2^63 to `visit_i128`; the visitor has neither, so the reader fails. The text itself is a parameter with laws (`value_laws`, CborReadSpec.v; an instance in CborReadExamples.v). Values by induction; maps through a permutation, since CBOR has its own order. Partial: refuted for tags (`C109_tag_refuted`), integers (`C109_integers`), and constants of unit layouts (`C109_constant_refuted`). |
| C110 | The names of layouts | Nothing new is modelled. Two registries are related by any relation between names (RelabelSpec.v); hydration and dehydration are shown to be related by induction on the fuel (RelabelProofs.v). The order of typed values, which contain names, does not depend on them without sums, by induction on conforming values (`cmp_alike`). Partial: the items of a set that contains variants are sorted by names, so that the generated names decide the order of the output (`C110_order_refuted`, with a bijection). `Error::map_ids` (MapIdsModel.v) gives the errors of the renamed registry (`C110_map_ids`). |
| C111 | The order of the layout files | Nothing new is modelled. Compiling a document with the generator elsewhere is simulated step by step: the same layouts, with shifted blank names (RelabelBuild.v). Files are apart when they define no common IRI, which does not depend on their order, so that any order is accepted; the names of two orders are related file by file (RelabelFiles.v), and C110 applies (FilesProperties.v). Partial: `--layout _:0` names another layout (`C111_blank_refuted`); blank names are compared as text, `_:10` before `_:9`, and loading a file before or after another one changes the order of the items of a set of variants (`C111_sets_refuted`). For CBOR the extra properties of the layouts, hence the tags, are followed as well (RelabelExtra.v, FilesCborProperties.v, on the model of C112). |
| C112 | CBOR tags on the command line | CliExtraModel.v: the command line of CliModel.v with the extra properties of the files that it loads, instead of a parameter (main.rs `load_layout`, `Command::run`). It is an instance of CliModel.v (`C112_refines`), so that the theorems on the command line apply. The tags are specified on the documents of the files (CliExtraSpec.v): each tag of the output is that written in the description of the layout which hydrated the value (`C112_tags`); the error is given only when a layout that was used has no valid tag (`C112_refused`); the other commands do not depend on the properties (`C112_other_commands`). |
| C113 | Partitions of the states | PartitionModel.v: `try_partition`, `partition` (automaton.rs 388–435); the sets computed by the traversal are those of `select_states` (C38), one for each class. Composed with `minimize` (C36): it succeeds exactly if every source of a transition is reachable (`C113_minimize_succeeds`), and the result is then minimal and reads the same language. Partial: the classes of `partition` leave the unreachable states out, and `minimize` panics on them (`C113_unreachable_refuted`); the final states are those of C36. |
| C114 | Numbers and machine numbers | FloatModel.v: `number_from_integer`, `number_from_float` (value/mod.rs 146–180) with floats as `spec_float` of the standard library (`Coq.Floats.SpecFloat`, no axioms); FloatSpec.v says which rationals have a float (`m * 2^e` within the bounds of the format), without reference to the model. `BigRational::to_f64` is external: `to_f64_laws` (valid, no NaN, exact if a double has the number, +0 for zero), met by the `float_of` of FloatExamples.v. Partial: zero panics on serialization (`C114_zero_refuted`, as C45), short decimals are not floats (`C114_decimal_refuted`), and a double which is an integer out of 64 bits is not read back from CBOR (`C114_cbor_refuted`). |
| C115 | Layout documents read with serde: exactly the documents of a grammar | `layout_sdoc` (SerdeDocSpec.v), an inductive grammar of the values serde presents, written without the reader: maps of texts without repetition, sequences of the first fields, entries given, left out or `null`. `C115_reads` is the equivalence with `layout_deserialize` (the model of C72 and C85), by induction on the size of the value; the enumerations without tags are settled by showing that at most one variant reads a value (SerdeDocNested.v, SerdeDocBody.v). The other theorems are consequences a user meets. |
| C116 | Compiled layouts read with serde: exactly the documents of a grammar | `layout_ldoc` (LayoutDocSpec.v), an inductive grammar apart from the reader `get_layout` of C106; `C116_reads` is the equivalence, by cases on the variants (LayoutDocProperties.v), with the same lemmas on structures as C115; `C116_refuses` adds that everything else is an error (LayoutDocTotal.v), for readers of resources, datasets and ranges that give a result or an error. Two wrong readers that C106 let through, reading fields without `required` and sequences of any length, led to it. |
| C117 | Errors of layout documents: what they tell | `error_text`, `hint_text` (HintModel.v) are the `Display` implementations; the texts of kinds of JSON values are external. The specification (HintSpec.v): `layout_type`, the types of the objects that are read (C99); `enumeration`, an English enumeration built from its end; `names_in`, what a text has between backquotes. `C117_types` follows all the readers (HintProofs.v): the type has been dispatched on before it is checked, so that `ExpectedType::One` never appears for a document. `C117_unambiguous`: the message and the hints determine the error (for `Unexpected`, up to the texts of the kinds). |
| C118 | The errors of hydration tell the truth | About `hydrate_with` (HydrateModel.v). The specification (FaultSpec.v) defines the places asked for (`Asked`: from a layout to its fields, items and nodes, through the unique solutions of its patterns, not into variants) and what may be wrong at one (`Wrong g ref inputs e`, one clause per kind of error), with the notion of solution of MatchingSpec.v only. `C118_tells`: an error is `Wrong` at a place asked for; `C118_value`: a value excludes anything wrong at any place asked for; `C118_reported`, `C118_sum` follow. Induction on the fuel with one lemma per loop, and the soundness of hydration (C09) for the converse. That something wrong always leads to an error is not claimed: hydration may panic or loop elsewhere first (C18, C19). |
| C119 | Which values dehydration accepts: a judgement on values alone | About `dehydrate_with` and `dehydrate` (DehydrateModel.v). The specification (AcceptSpec.v) is two mutually inductive judgements, `Takes ref n v` and `Refuses ref n v e`, which do not mention the data written, the state, the graph nor the inputs, only their number. `C119_accepts` and `C119_refuses`: a call that returns is justified by one of them, and the error returned is the one of the judgement. `C119_exclusive`: by induction on both judgements together, no value is taken and refused. `C119_decides`, `C119_same`: so acceptance is a function of the layout and the value. `C119_public`: for the public function, which may also fail with `DTermAmbiguity` on a value that is taken. The fields of records are assumed sorted by key (`registry_sorted`, an invariant of `BTreeMap`). Calls that panic or do not end are not spoken of (see C31, C59); `loop_neither` shows a layout for which neither judgement holds. |
| C120 | What hydration reads is never refused by dehydration | Joins the two models. The declarative meaning of hydration (`Means`, C09) is shown by mutual induction to give only values that the layout `Takes` (AcceptSpec.v, C119): `C120_taken`. With the exclusivity of the judgements, no call of `dehydrate_with` with the same number of inputs returns an error (`C120_not_refused`), and `dehydrate` only `DTermAmbiguity` (`C120_public`). The conditions are in TakenSpec.v: `declared_registry` (given by the compiler, C53), `decided_sums` (trivial without sums, `C120_no_sum`; met by `kinds_decided`; `C120_apart` in TakenSums.v gives a sufficient condition on the layouts alone: any two variants are told apart by the kind of their values, or are records one of which requires a key that the other lacks) and `ids_valid` (in the code, identifiers read come from values of an IRI type but are kept as strings). `C120_sums_refuted`: two variants told apart by the data but not by the value. Panics and divergence are not spoken of (C31, C59). |
| C121 | When what was read cannot be written back | Uses the invariant of C100 (WriteBackProofs.v): along a run of `dehydrate_with` on a value that was read, each resource stands for a term of the dataset, and each term assigned to it is this term or its normal form. Two terms assigned to one resource are then two spellings of one literal (`C121_ambiguity`, `two_spellings`); with C120 this is the only error (`C121_only_error`). Hypotheses: the class `plain_registry` of C100 and that `xsd:boolean` is not a datatype of numbers (external crate, met by the instance of the examples). The stronger claim that writing back never fails is false: `C121_never_fails_refuted` reads "042" as a text and as a number. It holds for the registries whose text layouts are not for booleans or decimals (`texts_apart`) and whose layouts write their own literals in the normal way (`normal_names`): `C121_no_ambiguity`, and with C120 no error at all, `C121_written_back` (NormalLiterals.v; it follows each resource and each literal of the run to the layout that made it, and assumes of the external crate that a printed decimal is read back). Both conditions are needed (`both_not_apart`, `frozen_fails`). With supported literal layouts (C31), numbers that have a decimal form, and no sum reached from itself through sums only (C59), the call returns a dataset: `C121_total`; `C121_total_written` adds what C100 says of it (WrittenBack.v). |
| C122 | The compiled layouts are as the distillation needs them | Joins the compiler (AbsModel.v) to the distillation. The logic of C53 (AbsProofs.v) is used with the invariant that all definitions of the builder have sorted fields (CompiledProofs.v); `C122_sorted` follows for any sequence of documents (`documents`, also the failed ones). Corollaries without that hypothesis: `C122_reads` (C09), `C122_reads_all` (C10 with C53), `C122_writes` (C119), `C122_writes_back` (C120 with C53). `C122_reads_all` and `C122_writes_back` are for documents whose literal layouts have at most one input (`built`, see `C53_scoped_refuted`). CompiledExamples.v compiles a document whose fields are out of order and repeated, reads with it and writes back. |
| C123 | Read, written, and read again | Composition of `C121_total` (the writing returns a dataset) and C30 (what was written is read): ReadAgain.v. Hypotheses: the conditions of C121, tree layouts, and a value that is `Proper`, with distinct identifiers (C30). Examples: a record with a set and a list from a dataset with other quads and an age written 042; a tuple with a choice, without sets. Every tree meets most of the conditions of C121 (ReadAgainTrees.v): `C123_trees_partial` keeps those on sums and on the types of texts, `C123_no_sum_partial` only the latter. The full statement is false: `C123_duplicates_refuted` reads a set from 42 and 042 as two equal items, writes one quad, and reads one item. Missing: layouts that are not trees. |

## 4. What is modelled and what is not

Each definition cites the lines it models; each `*Model.v` starts with what it leaves out.

| source | model | left out |
|---|---|---|
| `layouts/src/pattern.rs` | PatternModel.v | `AsRef`/`From` conversions (ownership only) |
| `layouts/src/matching.rs` | MatchingModel.v (the stack machine and its stream) | nothing |
| `layouts/src/layout/**`, `format.rs`, `lib.rs`, `graph.rs` | LayoutModel.v, ExtraModel.v, LayoutSerdeModel.v (serde) | `extra_properties` is not a field of the layouts of the model: it is kept beside the builder in ExtraModel.v (C105), and beside the registry of the command line in CliExtraModel.v (C112); iterators over registries |
| `layouts/src/ref.rs` | LayoutModel.v (references are resources) | the phantom type parameter |
| `layouts/src/value/mod.rs`, `value/ser.rs`, `value/de.rs` | ValueModel.v, NumberModel.v, JsonModel.v, DisplayModel.v, FloatModel.v | — |
| `layouts/src/value/cbor/**` | CborModel.v | `value/serde_cbor.rs`, which no `mod` declares |
| `layouts/src/distill/hy/**` | HydrateModel.v | nothing |
| `layouts/src/distill/de/**` | DehydrateModel.v, MapIdsModel.v | `Display` of errors |
| `layouts/src/utils/automaton.rs` | AutomatonModel.v, CharModel.v, PartitionModel.v | accessors |
| `layouts/src/abs/regexp.rs` | RegexpModel.v, AbsSerdeModel.v (serde) | — |
| `layouts/src/abs/syntax/**`, `abs/mod.rs`, `abs/layout/**` | AbsModel.v (compilation), VariableModel.v (names of variables), AbsJsonModel.v (`TryFromJson`), AbsSerdeModel.v (serde), PositionModel.v (`TryFromJson` with code maps and positions), HintModel.v (texts of the errors of reading) | places in the text (spans), texts of the errors of compilation; the recursion limit of `serde_json` |
| `generators/rust/treeldr-rs/src/datatypes.rs` | GenDataModel.v | — |
| `generators/rust/treeldr-rs-macros/src/generate/de.rs`, `treeldr-rs/src/de/**`, `pattern.rs`, `utils.rs` | GenModel.v (behaviour of the generated code; `de/matching.rs`, `pattern.rs` and `utils.rs` are copies of the modules of `layouts`) | token generation; code that does not compile: literal patterns, graph patterns of the serializer, tuples of one element; blank patterns (the macro panics) |
| `generators/rust/treeldr-rs-macros/src/generate/ser.rs`, `treeldr-rs/src/ser/**` | GenSerModel.v (behaviour of the generated code) | token generation; code that does not compile: graph patterns of a value (`Some(Some(..))` moves a pattern where a reference is expected), literal patterns |
| `generators/rust/treeldr-rs-macros/src/parse.rs` | AttrModel.v (on token trees, `syn` being modelled by its data types) | spans; serde-like `extra` properties, which nothing sets |
| `generators/rust/generator/src/lib.rs`, `utils.rs`, `treeldr-rs-macros/src/lib.rs` (`generate_layouts`), `layouts/src/preset.rs` | CodeGenModel.v | `Options::idents` (nothing sets it); `syn` identifiers, IRI components and character classes are parameters (`RustSyntax`) |
| `generators/rust/treeldr-rs-macros/src/lib.rs` (`tldr`, `tldr_include`), `generators/rust/generator/src/bin/main.rs` | GenProgModel.v | parsing of the tokens (`syn`) and of the arguments (`clap`), log, rendering of the errors and of the items; the derive entry points (AttrModel.v) |
| `layouts/src/prelude.rs`, `layouts/prelude/*.json` | PreludeModel.v | the text of the documents (parsed values); `OnceLock` |
| `src/main.rs`, `src/rdf.rs`, `src/format/**` (command line) | CliModel.v (commands), CliExtraModel.v (extra properties), MainModel.v (`main`, the files, diagnostics, standard output), PositionModel.v (labels of layout syntax errors) | the parsing of the arguments (`clap`), the log, the rendering of diagnostics, the texts of messages; the texts of the formats (parameters with read-back laws) |
| `generators/rust/**` (others), `language/**` | not modelled | |

External crates are modelled by contract (section 2): `rdf_types`, `json_syntax`, `xsd_types`, `iref`,
`btree_range_map`, `serde_cbor`, `serde_json`.  Their syntactic predicates (is this text an IRI, a blank node
identifier, a language tag, a decimal) are parameters (`IriSyntax`, `TextSyntax`, `Xsd`, `IntSyntax`, `AbsExternal`), so
that the theorems hold for every such syntax; the examples use small concrete instances.

Simplifications that matter for reading the theorems:

* `u32`/`usize` counters do not overflow; memory and stack are unbounded (a Rust stack overflow is not a `Panic` here).
* Texts are sequences of bytes except in regular expressions and automata, which work on code points.
* The vocabulary indirection of `rdf_types` (indices for IRIs, blank ids, literals) is the identity.
* Iteration order of `HashMap`/`HashSet` is not observed in the functions under study.

### The model against the project's own tests

`DistillTests.v` copies the files of layouts/tests/distill (18 layouts with their dataset and value, and the one that must fail) and runs
the model on them end to end, as layouts/tests/distill.rs does: reading the layout, building it, hydrating, dehydrating. All give the
results that the tests of the project expect, and so do the vectors of the tests of `decimal_representation` (layouts/src/value/mod.rs)
and of regular expressions (layouts/src/abs/regexp.rs); the types of generators/rust/treeldr-rs/tests are accepted by the macros. These are tests of the faithfulness of the model, not proofs of a property. The
test layouts must also be read through serde: the model reads all of them, and finds that for t16 the layout read that way is
not the one read from the document (the languages of its literals are lost, C85), which the tests of the project do not look at.

## 5. Assumptions printed by Coq

`Print Assumptions` answers `Closed under the global context` for every theorem listed in MANIFEST.json (the
`*Examples.v` and some `*Properties.v` files print them at each build).  No axiom of the standard library is used by them, none
is declared here, and there is no `Admitted`, `Parameter`, section-less `Variable`/`Hypothesis`, functor or module type.
The only constants without a body in the compiled environment are the parameters of the module type `Coq.ssr.ssrunder.Under_rel`
of the standard library, loaded with its `ssreflect` files; no theorem depends on them.
