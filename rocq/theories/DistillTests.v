(** * The tests of the project on the model

    The files of layouts/tests/distill (the layouts, the datasets and the values) are copied here, and the model is run on them as
    layouts/tests/distill.rs does: it gives the results that these tests expect.  These are tests of the model, that compare it with
    what its authors observe of the code; they are not part of the proofs. *)

From Coq Require Import String Ascii List Bool Arith NArith ZArith QArith Qcanon.
Import ListNotations.
From Verif Require Import Base BaseProofs Orders PatternModel MatchingModel MatchingSpec MatchingProofs ValueModel NumberModel JsonModel LayoutModel HydrateModel TermModel
  DehydrateModel AbsModel AbsJsonModel AbsSerdeModel RegexpModel AttrModel CliModel.
Open Scope list_scope.
Open Scope nat_scope.
Open Scope string_scope.

(** ** What is external *)
Local Instance test_text : TextSyntax := {|
  blank_suffix := fun s => match s with String "_" (String ":" (String c s)) => Some (String c s) | _ => None end;
  is_iri_ref := fun s => match iri_scheme s with Some _ => true | None => false end;
  is_lang_tag := fun _ => true;
  chars := fun s => map N_of_ascii (list_ascii_of_string s)
|}.
Local Instance test_iris : IriSyntax := fun s => match iri_scheme s with Some _ => true | None => false end.
Local Instance test_external : AbsExternal := {|
  iri_resolved := fun b r => String.append b r;
  decimal_type_of := fun _ => "";
  decimal_lexical_of := fun _ => ""
|}.
Local Instance test_xsd : Xsd := {|
  is_decimal_type := fun ty => existsb (fun n => String.eqb ty (xsd n)) ["decimal"; "integer"; "nonNegativeInteger"];
  decimal_parse := xsd_decimal_parse;
  decimal_print := fun q => match decimal_string q with Ok o => o | _ => None end
|}.

(** ** The tests — layouts/tests/distill.rs 17-127 *)
Record case : Type := Case {
  t_layout : json;
  t_dataset : list (quad term);
  t_value : json
}.

(** [load_layout] — layouts/tests/distill.rs 17-43. *)
Definition test_layouts (t : case) : option (term * layouts term) :=
  match layout_from_json (t_layout t) with
  | Ok l =>
      match build_with_context term_context l (0, []) with
      | (Ok r, s) => match builder_build (E := unit) 1000 (snd s) with Ok m => Some (r, m) | _ => None end
      | _ => None
      end
  | _ => None
  end.

(** The quads in the order of [IndexedBTreeDataset]. *)
Fixpoint sort_insert {A} {C : Cmp A} (a : A) (l : list A) : list A :=
  match l with [] => [a] | b :: l' => match cmp a b with Gt => b :: sort_insert a l' | _ => a :: l end end.
Definition quad_key (q : quad term) := (q_s q, (q_p q, (q_o q, q_g q))).
Definition sorted_quads (ds : list (quad term)) : list (quad term) :=
  map (fun k => Quad (fst k) (fst (snd k)) (fst (snd (snd k))) (snd (snd (snd k))))
    (fold_right sort_insert [] (map quad_key ds)).

(** [hydrate] — layouts/tests/distill.rs 45-74. *)
Definition test_hydrate (t : case) (inputs : list term) : bool :=
  match test_layouts t, value_from_json (t_value t) with
  | Some (r, m), Ok v =>
      match hydrate (list_dataset (sorted_quads (t_dataset t))) (layouts_get m) 100 r inputs with
      | Ok tv => eqb (into_untyped tv) v
      | _ => false
      end
  | _, _ => false
  end.

(** [find_bijection] (external): the one-to-one renamings of the blank nodes of [ds] that give the quads [ds']. *)
Definition renaming : Type := list (string * string).
Definition related (a b : term) (f : renaming) : list renaming :=
  match a, b with
  | TmBlank a, TmBlank b =>
      if existsb (fun p => eqb (fst p) a && eqb (snd p) b) f then [f]
      else if existsb (fun p => eqb (fst p) a || eqb (snd p) b) f then []
      else [(a, b) :: f]
  | _, _ => if eqb a b then [f] else []
  end.
Definition related_quads (q q' : quad term) (f : renaming) : list renaming :=
  flat_map (fun f => flat_map (fun f => flat_map (fun f =>
      match q_g q, q_g q' with
      | None, None => [f]
      | Some g, Some g' => related g g' f
      | _, _ => []
      end) (related (q_o q) (q_o q') f)) (related (q_p q) (q_p q') f)) (related (q_s q) (q_s q') f).
Fixpoint bijections (ds ds' : list (quad term)) (f : renaming) : list renaming :=
  match ds with
  | [] => [f]
  | q :: ds => flat_map (fun q' => flat_map (bijections ds ds') (related_quads q q' f)) ds'
  end.

(** [dehydrate] — layouts/tests/distill.rs 76-127. *)
Definition test_dehydrate (t : case) (expected : list term) : bool :=
  match test_layouts t, value_from_json (t_value t) with
  | Some (r, m), Ok v =>
      match dehydrate (fun l => l) (layouts_get m) 100 v r
        (Options (Some (length expected)) (o_input_term default_options) 0 (o_next default_options)) with
      | Ok (ds, values) =>
          Nat.eqb (length ds) (length (t_dataset t)) && Nat.eqb (length values) (length expected) &&
          match bijections ds (t_dataset t) [] with
          | [] => false
          | f :: _ =>
              match ds with
              | [] => true
              | _ => forallb (fun p => match related (fst p) (snd p) f with
                                       | [f'] => match fst p with TmBlank b => existsb (fun p => eqb (fst p) b) f | _ => true end
                                       | _ => false
                                       end) (combine values expected)
              end
          end
      | _ => false
      end
  | _, _ => false
  end.

Definition t01 : case := Case
  (JObj [("type", JStr "record"); ("input", JArr [JStr "self"]); ("fields", JObj [("name", JObj [("intro", JArr [JStr "value"]);
   ("value", JObj [("layout", JObj [("input", JArr [JStr "self"]); ("type", JStr "string"); ("resource", JStr "_:self")]);
   ("input", JArr [JStr "_:value"])]); ("dataset", JArr [JArr [JStr "_:self"; JStr "https://schema.org/name"; JStr "_:value"]])])])])
  [Quad (TmBlank "john_smith") (TmIri "https://schema.org/name") (TmLit (RdfLiteral "John Smith" (TypeAny xsd_string))) None]
  (JObj [("name", JStr "John Smith")]).

Definition t02 : case := Case
  (JObj [("type", JStr "record"); ("fields", JObj [("name", JObj [("value", JObj [("type", JStr "string")]);
   ("property", JStr "https://schema.org/name")])])])
  [Quad (TmBlank "john_smith") (TmIri "https://schema.org/name") (TmLit (RdfLiteral "John Smith" (TypeAny xsd_string))) None]
  (JObj [("name", JStr "John Smith")]).

Definition t03 : case := Case
  (JObj [("prefixes", JObj [("xsd", JStr "http://www.w3.org/2001/XMLSchema#"); ("schema", JStr "https://schema.org/");
   ("ex", JStr "https://example.org/#")]); ("type", JStr "record"); ("input", JArr [JStr "receipt"]);
   ("fields", JObj [("date", JObj [("intro", JArr [JStr "date"]); ("value", JObj [("input", JArr [JStr "_:date"]);
   ("layout", JObj [("type", JStr "string"); ("input", JArr [JStr "value"]); ("resource", JStr "_:value");
   ("datatype", JStr "xsd:dateTime")])]); ("dataset", JArr [JArr [JStr "_:receipt"; JStr "ex:date"; JStr "_:date"]])]);
   ("bill", JObj [("intro", JArr [JStr "bill"]); ("value", JObj [("input", JArr [JStr "_:bill"]); ("layout", JObj [("type", JStr "record");
   ("input", JArr [JStr "bill"]); ("fields", JObj [("milk1L", JObj [("intro", JArr [JStr "milk1L"]);
   ("value", JObj [("input", JArr [JStr "_:milk1L"]); ("layout", JObj [("id", JStr "ex:ItemByUnit"); ("type", JStr "record");
   ("input", JArr [JStr "item"]); ("fields", JObj [("unitPrice", JObj [("intro", JArr [JStr "unitPrice"]);
   ("value", JObj [("input", JArr [JStr "_:unitPrice"]); ("layout", JObj [("type", JStr "number"); ("input", JArr [JStr "value"]);
   ("datatype", JStr "xsd:decimal"); ("resource", JStr "_:value")])]); ("dataset", JArr [JArr [JStr "_:item"; JStr "ex:unitPrice";
   JStr "_:unitPrice"]])]); ("units", JObj [("intro", JArr [JStr "units"]); ("value", JObj [("input", JArr [JStr "_:units"]);
   ("layout", JObj [("type", JStr "number"); ("input", JArr [JStr "value"]); ("datatype", JStr "xsd:nonNegativeInteger");
   ("resource", JStr "_:value")])]); ("dataset", JArr [JArr [JStr "_:item"; JStr "ex:units"; JStr "_:units"]])])])])]);
   ("dataset", JArr [JArr [JStr "_:bill"; JStr "ex:milk1L"; JStr "_:milk1L"]])]); ("beef", JObj [("intro", JArr [JStr "beef"]);
   ("value", JObj [("input", JArr [JStr "_:beef"]); ("layout", JObj [("id", JStr "ex:ItemByVolume"); ("type", JStr "record");
   ("input", JArr [JStr "item"]); ("fields", JObj [("volumePrice", JObj [("intro", JArr [JStr "volumePrice"]);
   ("value", JObj [("input", JArr [JStr "_:volumePrice"]); ("layout", JObj [("type", JStr "number"); ("input", JArr [JStr "value"]);
   ("datatype", JStr "xsd:decimal"); ("resource", JStr "_:value")])]); ("dataset", JArr [JArr [JStr "_:item"; JStr "ex:volumePrice";
   JStr "_:volumePrice"]])]); ("volume", JObj [("intro", JArr [JStr "volume"]); ("value", JObj [("input", JArr [JStr "_:volume"]);
   ("layout", JObj [("type", JStr "number"); ("input", JArr [JStr "value"]); ("datatype", JStr "xsd:decimal");
   ("resource", JStr "_:value")])]); ("dataset", JArr [JArr [JStr "_:item"; JStr "ex:volume"; JStr "_:volume"]])])])])]);
   ("dataset", JArr [JArr [JStr "_:bill"; JStr "ex:beef"; JStr "_:beef"]])])])])]); ("dataset", JArr [JArr [JStr "_:receipt";
   JStr "ex:bill"; JStr "_:bill"]])]); ("pointOfSale", JObj [("intro", JArr [JStr "pointOfSale"]);
   ("value", JObj [("input", JArr [JStr "_:pointOfSale"]); ("layout", JObj [("id", JStr "ex:PointOfSale"); ("type", JStr "record");
   ("input", JArr [JStr "pointOfSale"]); ("fields", JObj [("address", JObj [("intro", JArr [JStr "address"]);
   ("value", JObj [("input", JArr [JStr "_:address"]); ("layout", JObj [("type", JStr "string"); ("input", JArr [JStr "value"]);
   ("resource", JStr "_:value"); ("datatype", JStr "https://schema.org/Text")])]); ("dataset", JArr [JArr [JStr "_:pointOfSale";
   JStr "schema:address"; JStr "_:address"]])]); ("till", JObj [("intro", JArr [JStr "till"]);
   ("value", JObj [("input", JArr [JStr "_:till"]); ("layout", JObj [("type", JStr "number"); ("input", JArr [JStr "value"]);
   ("datatype", JStr "xsd:nonNegativeInteger"); ("resource", JStr "_:value")])]); ("dataset", JArr [JArr [JStr "_:pointOfSale";
   JStr "ex:till"; JStr "_:till"]])])])])]); ("dataset", JArr [JArr [JStr "_:receipt"; JStr "ex:pointOfSale"; JStr "_:pointOfSale"]])])])])
  [Quad (TmBlank "receipt") (TmIri "https://example.org/#bill") (TmBlank "0") None;
   Quad (TmBlank "receipt") (TmIri "https://example.org/#pointOfSale") (TmBlank "3") None;
   Quad (TmBlank "receipt") (TmIri "https://example.org/#date") (TmLit (RdfLiteral "2024-01-01T00:00:00Z" (TypeAny "http://www.w3.org/2001/XMLSchema#dateTime"))) None;
   Quad (TmBlank "0") (TmIri "https://example.org/#milk1L") (TmBlank "1") None;
   Quad (TmBlank "0") (TmIri "https://example.org/#beef") (TmBlank "2") None;
   Quad (TmBlank "1") (TmIri "https://example.org/#unitPrice") (TmLit (RdfLiteral "1.49" (TypeAny "http://www.w3.org/2001/XMLSchema#decimal"))) None;
   Quad (TmBlank "1") (TmIri "https://example.org/#units") (TmLit (RdfLiteral "2" (TypeAny "http://www.w3.org/2001/XMLSchema#nonNegativeInteger"))) None;
   Quad (TmBlank "2") (TmIri "https://example.org/#volumePrice") (TmLit (RdfLiteral "10.99" (TypeAny "http://www.w3.org/2001/XMLSchema#decimal"))) None;
   Quad (TmBlank "2") (TmIri "https://example.org/#volume") (TmLit (RdfLiteral "0.8" (TypeAny "http://www.w3.org/2001/XMLSchema#decimal"))) None;
   Quad (TmBlank "3") (TmIri "https://schema.org/address") (TmLit (RdfLiteral "Champ-de-Mars, Paris, France" (TypeAny "https://schema.org/Text"))) None;
   Quad (TmBlank "3") (TmIri "https://example.org/#till") (TmLit (RdfLiteral "2" (TypeAny "http://www.w3.org/2001/XMLSchema#nonNegativeInteger"))) None]
  (JObj [("date", JStr "2024-01-01T00:00:00Z"); ("bill", JObj [("milk1L", JObj [("unitPrice", JNum "1.49"); ("units", JNum "2")]);
   ("beef", JObj [("volumePrice", JNum "10.99"); ("volume", JNum "0.8")])]);
   ("pointOfSale", JObj [("address", JStr "Champ-de-Mars, Paris, France"); ("till", JNum "2")])]).

Definition t04 : case := Case
  (JObj [("prefixes", JObj [("xsd", JStr "http://www.w3.org/2001/XMLSchema#"); ("schema", JStr "https://schema.org/");
   ("ex", JStr "https://example.org/#")]); ("type", JStr "record");
   ("fields", JObj [("date", JObj [("value", JObj [("type", JStr "string"); ("datatype", JStr "xsd:dateTime")]);
   ("property", JStr "ex:date")]); ("bill", JObj [("value", JObj [("type", JStr "record");
   ("fields", JObj [("milk1L", JObj [("value", JObj [("id", JStr "ex:ItemByUnit"); ("type", JStr "record");
   ("fields", JObj [("unitPrice", JObj [("value", JObj [("type", JStr "number"); ("datatype", JStr "xsd:decimal")]);
   ("property", JStr "ex:unitPrice")]); ("units", JObj [("value", JObj [("type", JStr "number");
   ("datatype", JStr "xsd:nonNegativeInteger")]); ("property", JStr "ex:units")])])]); ("property", JStr "ex:milk1L")]);
   ("beef", JObj [("value", JObj [("id", JStr "ex:ItemByVolume"); ("type", JStr "record");
   ("fields", JObj [("volumePrice", JObj [("value", JObj [("type", JStr "number"); ("datatype", JStr "xsd:decimal")]);
   ("property", JStr "ex:volumePrice")]); ("volume", JObj [("value", JObj [("type", JStr "number"); ("datatype", JStr "xsd:decimal")]);
   ("property", JStr "ex:volume")])])]); ("property", JStr "ex:beef")])])]); ("property", JStr "ex:bill")]);
   ("pointOfSale", JObj [("value", JObj [("id", JStr "ex:PointOfSale"); ("type", JStr "record");
   ("fields", JObj [("address", JObj [("value", JObj [("type", JStr "string"); ("datatype", JStr "https://schema.org/Text")]);
   ("property", JStr "schema:address")]); ("till", JObj [("value", JObj [("type", JStr "number");
   ("datatype", JStr "xsd:nonNegativeInteger")]); ("property", JStr "ex:till")])])]); ("property", JStr "ex:pointOfSale")])])])
  [Quad (TmBlank "receipt") (TmIri "https://example.org/#bill") (TmBlank "0") None;
   Quad (TmBlank "receipt") (TmIri "https://example.org/#pointOfSale") (TmBlank "3") None;
   Quad (TmBlank "receipt") (TmIri "https://example.org/#date") (TmLit (RdfLiteral "2024-01-01T00:00:00Z" (TypeAny "http://www.w3.org/2001/XMLSchema#dateTime"))) None;
   Quad (TmBlank "0") (TmIri "https://example.org/#milk1L") (TmBlank "1") None;
   Quad (TmBlank "0") (TmIri "https://example.org/#beef") (TmBlank "2") None;
   Quad (TmBlank "1") (TmIri "https://example.org/#unitPrice") (TmLit (RdfLiteral "1.49" (TypeAny "http://www.w3.org/2001/XMLSchema#decimal"))) None;
   Quad (TmBlank "1") (TmIri "https://example.org/#units") (TmLit (RdfLiteral "2" (TypeAny "http://www.w3.org/2001/XMLSchema#nonNegativeInteger"))) None;
   Quad (TmBlank "2") (TmIri "https://example.org/#volumePrice") (TmLit (RdfLiteral "10.99" (TypeAny "http://www.w3.org/2001/XMLSchema#decimal"))) None;
   Quad (TmBlank "2") (TmIri "https://example.org/#volume") (TmLit (RdfLiteral "0.8" (TypeAny "http://www.w3.org/2001/XMLSchema#decimal"))) None;
   Quad (TmBlank "3") (TmIri "https://schema.org/address") (TmLit (RdfLiteral "Champ-de-Mars, Paris, France" (TypeAny "https://schema.org/Text"))) None;
   Quad (TmBlank "3") (TmIri "https://example.org/#till") (TmLit (RdfLiteral "2" (TypeAny "http://www.w3.org/2001/XMLSchema#nonNegativeInteger"))) None]
  (JObj [("date", JStr "2024-01-01T00:00:00Z"); ("bill", JObj [("milk1L", JObj [("unitPrice", JNum "1.49"); ("units", JNum "2")]);
   ("beef", JObj [("volumePrice", JNum "10.99"); ("volume", JNum "0.8")])]);
   ("pointOfSale", JObj [("address", JStr "Champ-de-Mars, Paris, France"); ("till", JNum "2")])]).

Definition t05 : case := Case
  (JObj [("type", JStr "list"); ("input", JStr "head"); ("node", JObj [("intro", JStr "item");
   ("value", JObj [("layout", JObj [("type", JStr "string"); ("input", JStr "value"); ("resource", JStr "_:value")]);
   ("input", JArr [JStr "_:item"])]); ("head", JStr "head"); ("rest", JStr "rest"); ("dataset", JArr [JArr [JStr "_:head";
   JStr "http://www.w3.org/1999/02/22-rdf-syntax-ns#first"; JStr "_:item"]; JArr [JStr "_:head";
   JStr "http://www.w3.org/1999/02/22-rdf-syntax-ns#rest"; JStr "_:rest"]])]); ("head", JStr "_:head");
   ("tail", JStr "http://www.w3.org/1999/02/22-rdf-syntax-ns#nil")])
  [Quad (TmBlank "list") (TmIri "http://www.w3.org/1999/02/22-rdf-syntax-ns#first") (TmLit (RdfLiteral "foo" (TypeAny xsd_string))) None;
   Quad (TmBlank "list") (TmIri "http://www.w3.org/1999/02/22-rdf-syntax-ns#rest") (TmBlank "0") None;
   Quad (TmBlank "0") (TmIri "http://www.w3.org/1999/02/22-rdf-syntax-ns#first") (TmLit (RdfLiteral "bar" (TypeAny xsd_string))) None;
   Quad (TmBlank "0") (TmIri "http://www.w3.org/1999/02/22-rdf-syntax-ns#rest") (TmBlank "1") None;
   Quad (TmBlank "1") (TmIri "http://www.w3.org/1999/02/22-rdf-syntax-ns#first") (TmLit (RdfLiteral "baz" (TypeAny xsd_string))) None;
   Quad (TmBlank "1") (TmIri "http://www.w3.org/1999/02/22-rdf-syntax-ns#rest") (TmIri "http://www.w3.org/1999/02/22-rdf-syntax-ns#nil") None]
  (JArr [JStr "foo"; JStr "bar"; JStr "baz"]).

Definition t06 : case := Case
  (JObj [("type", JStr "list"); ("node", JObj [("type", JStr "string")])])
  [Quad (TmBlank "list") (TmIri "http://www.w3.org/1999/02/22-rdf-syntax-ns#first") (TmLit (RdfLiteral "foo" (TypeAny xsd_string))) None;
   Quad (TmBlank "list") (TmIri "http://www.w3.org/1999/02/22-rdf-syntax-ns#rest") (TmBlank "0") None;
   Quad (TmBlank "0") (TmIri "http://www.w3.org/1999/02/22-rdf-syntax-ns#first") (TmLit (RdfLiteral "bar" (TypeAny xsd_string))) None;
   Quad (TmBlank "0") (TmIri "http://www.w3.org/1999/02/22-rdf-syntax-ns#rest") (TmBlank "1") None;
   Quad (TmBlank "1") (TmIri "http://www.w3.org/1999/02/22-rdf-syntax-ns#first") (TmLit (RdfLiteral "baz" (TypeAny xsd_string))) None;
   Quad (TmBlank "1") (TmIri "http://www.w3.org/1999/02/22-rdf-syntax-ns#rest") (TmIri "http://www.w3.org/1999/02/22-rdf-syntax-ns#nil") None]
  (JArr [JStr "foo"; JStr "bar"; JStr "baz"]).

Definition t07 : case := Case
  (JObj [("type", JStr "set"); ("input", JStr "subject"); ("item", JObj [("intro", JStr "item");
   ("value", JObj [("layout", JObj [("type", JStr "string"); ("input", JStr "value"); ("resource", JStr "_:value")]);
   ("input", JArr [JStr "_:item"])]); ("dataset", JArr [JArr [JStr "_:subject"; JStr "http://example.org/prop"; JStr "_:item"]])])])
  [Quad (TmBlank "subject") (TmIri "http://example.org/prop") (TmLit (RdfLiteral "foo" (TypeAny xsd_string))) None;
   Quad (TmBlank "subject") (TmIri "http://example.org/prop") (TmLit (RdfLiteral "bar" (TypeAny xsd_string))) None;
   Quad (TmBlank "subject") (TmIri "http://example.org/prop") (TmLit (RdfLiteral "baz" (TypeAny xsd_string))) None]
  (JArr [JStr "bar"; JStr "baz"; JStr "foo"]).

Definition t08 : case := Case
  (JObj [("type", JStr "set"); ("item", JObj [("value", JObj [("type", JStr "string")]); ("property", JStr "http://example.org/prop")])])
  [Quad (TmBlank "subject") (TmIri "http://example.org/prop") (TmLit (RdfLiteral "foo" (TypeAny xsd_string))) None;
   Quad (TmBlank "subject") (TmIri "http://example.org/prop") (TmLit (RdfLiteral "bar" (TypeAny xsd_string))) None;
   Quad (TmBlank "subject") (TmIri "http://example.org/prop") (TmLit (RdfLiteral "baz" (TypeAny xsd_string))) None]
  (JArr [JStr "bar"; JStr "baz"; JStr "foo"]).

Definition t09 : case := Case
  (JObj [("type", JStr "tuple"); ("input", JStr "subject"); ("items", JArr [JObj [("intro", JStr "item");
   ("value", JObj [("layout", JObj [("type", JStr "boolean"); ("input", JStr "value"); ("resource", JStr "_:value");
   ("datatype", JStr "http://www.w3.org/2001/XMLSchema#boolean")]); ("input", JArr [JStr "_:item"])]);
   ("dataset", JArr [JArr [JStr "_:subject"; JStr "http://example.org/prop1"; JStr "_:item"]])]; JObj [("intro", JStr "item");
   ("value", JObj [("layout", JObj [("type", JStr "number"); ("input", JStr "value"); ("resource", JStr "_:value");
   ("datatype", JStr "http://www.w3.org/2001/XMLSchema#integer")]); ("input", JArr [JStr "_:item"])]);
   ("dataset", JArr [JArr [JStr "_:subject"; JStr "http://example.org/prop2"; JStr "_:item"]])]; JObj [("intro", JStr "item");
   ("value", JObj [("layout", JObj [("type", JStr "string"); ("input", JStr "value"); ("resource", JStr "_:value");
   ("datatype", JStr "http://www.w3.org/2001/XMLSchema#string")]); ("input", JArr [JStr "_:item"])]);
   ("dataset", JArr [JArr [JStr "_:subject"; JStr "http://example.org/prop3"; JStr "_:item"]])]])])
  [Quad (TmBlank "subject") (TmIri "http://example.org/prop1") (TmLit (RdfLiteral "true" (TypeAny "http://www.w3.org/2001/XMLSchema#boolean"))) None;
   Quad (TmBlank "subject") (TmIri "http://example.org/prop2") (TmLit (RdfLiteral "12" (TypeAny "http://www.w3.org/2001/XMLSchema#integer"))) None;
   Quad (TmBlank "subject") (TmIri "http://example.org/prop3") (TmLit (RdfLiteral "string" (TypeAny xsd_string))) None]
  (JArr [JBool true; JNum "12"; JStr "string"]).

Definition t10 : case := Case
  (JObj [("type", JStr "tuple"); ("items", JArr [JObj [("value", JObj [("type", JStr "boolean")]);
   ("property", JStr "http://example.org/prop1")]; JObj [("value", JObj [("type", JStr "number");
   ("datatype", JStr "http://www.w3.org/2001/XMLSchema#integer")]); ("property", JStr "http://example.org/prop2")];
   JObj [("value", JObj [("type", JStr "string")]); ("property", JStr "http://example.org/prop3")]])])
  [Quad (TmBlank "subject") (TmIri "http://example.org/prop1") (TmLit (RdfLiteral "true" (TypeAny "http://www.w3.org/2001/XMLSchema#boolean"))) None;
   Quad (TmBlank "subject") (TmIri "http://example.org/prop2") (TmLit (RdfLiteral "12" (TypeAny "http://www.w3.org/2001/XMLSchema#integer"))) None;
   Quad (TmBlank "subject") (TmIri "http://example.org/prop3") (TmLit (RdfLiteral "string" (TypeAny xsd_string))) None]
  (JArr [JBool true; JNum "12"; JStr "string"]).

Definition t11 : case := Case
  (JObj [("type", JStr "record"); ("fields", JObj [("id", JObj [("intro", JArr []); ("value", JObj [("layout", JObj [("type", JStr "id")]);
   ("input", JStr "_:self")])]); ("name", JObj [("value", JObj [("type", JStr "string")]);
   ("property", JStr "https://schema.org/name")])])])
  [Quad (TmIri "https://example.org/JohnSmith") (TmIri "https://schema.org/name") (TmLit (RdfLiteral "John Smith" (TypeAny xsd_string))) None]
  (JObj [("id", JStr "https://example.org/JohnSmith"); ("name", JStr "John Smith")]).

Definition t12 : case := Case
  (JObj [("type", JStr "set"); ("item", JObj [("value", JObj [("type", JStr "sum");
   ("variants", JObj [("integer", JObj [("value", JObj [("type", JStr "number");
   ("datatype", JStr "http://www.w3.org/2001/XMLSchema#integer")])]); ("boolean", JObj [("value", JObj [("type", JStr "boolean")])]);
   ("string", JObj [("value", JObj [("type", JStr "string")])])])]); ("property", JStr "http://example.org/prop")])])
  [Quad (TmBlank "subject") (TmIri "http://example.org/prop") (TmLit (RdfLiteral "true" (TypeAny "http://www.w3.org/2001/XMLSchema#boolean"))) None;
   Quad (TmBlank "subject") (TmIri "http://example.org/prop") (TmLit (RdfLiteral "12" (TypeAny "http://www.w3.org/2001/XMLSchema#integer"))) None;
   Quad (TmBlank "subject") (TmIri "http://example.org/prop") (TmLit (RdfLiteral "string" (TypeAny xsd_string))) None]
  (JArr [JBool true; JNum "12"; JStr "string"]).

Definition t13 : case := Case
  (JObj [("type", JStr "unit"); ("const", JStr "Hello World!"); ("dataset", JArr [JArr [JStr "_:self"; JStr "http://example.org/prop";
   JStr "http://example.org/HelloWorld"]])])
  [Quad (TmBlank "subject") (TmIri "http://example.org/prop") (TmIri "http://example.org/HelloWorld") None]
  (JStr "Hello World!").

Definition t14 : case := Case
  (JObj [("type", JStr "record"); ("fields", JObj [("foo", JObj [("value", JObj [("id", JStr "https://example.org/#FieldLayout");
   ("type", JStr "boolean")]); ("property", JStr "https://example.org/#foo")]);
   ("bar", JObj [("value", JStr "https://example.org/#FieldLayout"); ("property", JStr "https://example.org/#bar")])])])
  [Quad (TmBlank "subject") (TmIri "https://example.org/#foo") (TmLit (RdfLiteral "true" (TypeAny "http://www.w3.org/2001/XMLSchema#boolean"))) None;
   Quad (TmBlank "subject") (TmIri "https://example.org/#bar") (TmLit (RdfLiteral "false" (TypeAny "http://www.w3.org/2001/XMLSchema#boolean"))) None]
  (JObj [("foo", JBool true); ("bar", JBool false)]).

Definition t15 : case := Case
  (JObj [("type", JStr "unit"); ("dataset", JArr [JArr [JStr "_:self"; JStr "https://example.org/#foo"; JObj [("value", JStr "Foo");
   ("type", JStr "https://example.org/#Type")]]])])
  [Quad (TmBlank "subject") (TmIri "https://example.org/#foo") (TmLit (RdfLiteral "Foo" (TypeAny "https://example.org/#Type"))) None]
  (JNull).

Definition t16 : case := Case
  (JObj [("type", JStr "record"); ("fields", JObj [("name", JObj [("property", JStr "https://schema.org/name");
   ("value", JObj [("type", JStr "string")])]); ("email", JObj [("property", JStr "https://schema.org/email");
   ("value", JObj [("type", JStr "string")])]); ("achievement", JObj [("intro", JArr []); ("value", JObj [("input", JArr [JStr "_:self"]);
   ("layout", JObj [("type", JStr "sum"); ("variants", JObj [("projectExecution", JObj [("intro", JArr []);
   ("value", JObj [("input", JArr [JStr "_:self"]); ("layout", JObj [("type", JStr "unit"); ("const", JStr "projectExecution");
   ("dataset", JArr [JArr [JStr "_:self"; JStr "https://purl.imsglobal.org/spec/vc/ob/vocab.html#achievement";
   JStr "http://example.com/#projectExecution"]; JArr [JStr "http://example.com/#projectExecution";
   JStr "http://www.w3.org/1999/02/22-rdf-syntax-ns#type"; JStr "https://purl.imsglobal.org/spec/vc/ob/vocab.html#Achievement"];
   JArr [JStr "http://example.com/#projectExecution"; JStr "https://schema.org/name"; JObj [("value", JStr "Project execution");
   ("language", JStr "en")]]; JArr [JStr "http://example.com/#projectExecution";
   JStr "https://purl.imsglobal.org/spec/vc/ob/vocab.html#Criteria"; JStr "http://example.com/#projectExecutionCriteria"];
   JArr [JStr "http://example.com/#projectExecutionCriteria"; JStr "https://purl.imsglobal.org/spec/vc/ob/vocab.html#narrative";
   JObj [("value", JStr "Contribute to solution design and implementation."); ("language", JStr "en")]]])])])])])])])])])])
  [Quad (TmBlank "subject") (TmIri "https://schema.org/name") (TmLit (RdfLiteral "John Smith" (TypeAny xsd_string))) None;
   Quad (TmBlank "subject") (TmIri "https://schema.org/email") (TmLit (RdfLiteral "john.smith@example.com" (TypeAny xsd_string))) None;
   Quad (TmBlank "subject") (TmIri "https://purl.imsglobal.org/spec/vc/ob/vocab.html#achievement") (TmIri "http://example.com/#projectExecution") None;
   Quad (TmIri "http://example.com/#projectExecution") (TmIri "http://www.w3.org/1999/02/22-rdf-syntax-ns#type") (TmIri "https://purl.imsglobal.org/spec/vc/ob/vocab.html#Achievement") None;
   Quad (TmIri "http://example.com/#projectExecution") (TmIri "https://schema.org/name") (TmLit (RdfLiteral "Project execution" (TypeLang "en"))) None;
   Quad (TmIri "http://example.com/#projectExecution") (TmIri "https://purl.imsglobal.org/spec/vc/ob/vocab.html#Criteria") (TmIri "http://example.com/#projectExecutionCriteria") None;
   Quad (TmIri "http://example.com/#projectExecutionCriteria") (TmIri "https://purl.imsglobal.org/spec/vc/ob/vocab.html#narrative") (TmLit (RdfLiteral "Contribute to solution design and implementation." (TypeLang "en"))) None]
  (JObj [("name", JStr "John Smith"); ("email", JStr "john.smith@example.com"); ("achievement", JStr "projectExecution")]).

Definition t17 : case := Case
  (JObj [("type", JStr "set"); ("item", JObj [("value", JObj [("type", JStr "sum");
   ("variants", JObj [("integer", JObj [("value", JObj [("type", JStr "number");
   ("datatype", JStr "http://www.w3.org/2001/XMLSchema#integer")])]); ("boolean", JObj [("value", JObj [("type", JStr "boolean")])]);
   ("string", JObj [("value", JObj [("type", JStr "string")])])])]); ("property", JStr "http://example.org/prop")])])
  []
  (JArr []).

Definition t18 : case := Case
  (JObj [("type", JStr "record"); ("fields", JObj [("evidence", JObj [("intro", JArr []); ("value", JObj [("input", JArr [JStr "_:self"]);
   ("layout", JObj [("type", JStr "set"); ("input", JArr [JStr "self"]); ("intro", JArr []); ("item", JObj [("intro", JArr [JStr "value"]);
   ("property", JStr "https://www.w3.org/2018/credentials#evidence"); ("value", JObj [("input", JArr [JStr "_:value"]);
   ("layout", JObj [("type", JStr "record"); ("fields", JObj [("id", JObj [("intro", JArr []); ("value", JObj [("input", JStr "_:self");
   ("layout", JObj [("type", JStr "string")])])]); ("type", JObj [("intro", JArr []); ("value", JObj [("input", JArr [JStr "_:self"]);
   ("layout", JObj [("type", JStr "unit"); ("const", JArr [JStr "Evidence"])])])])])])])])])])])])])
  []
  (JObj [("evidence", JArr [])]).

Definition e01 : case := Case
  (JObj [("type", JStr "record"); ("input", JArr [JStr "self"]); ("fields", JObj [("name", JObj [("value", JObj [("type", JStr "string")]);
   ("property", JStr "https://schema.org/name"); ("required", JBool true)]); ("email", JObj [("value", JObj [("type", JStr "string")]);
   ("property", JStr "https://schema.org/email"); ("required", JBool true)])])])
  [Quad (TmBlank "john_smith") (TmIri "https://schema.org/name") (TmLit (RdfLiteral "John Smith" (TypeAny xsd_string))) None]
  (JObj [("name", JStr "John Smith")]).
(** ** The results expected by layouts/tests/distill.rs 174-270 *)
Example hydrate_t01 : test_hydrate t01 [TmBlank "john_smith"] = true.
Proof. vm_compute. reflexivity. Qed.
Example dehydrate_t01 : test_dehydrate t01 [TmBlank "john_smith"] = true.
Proof. vm_compute. reflexivity. Qed.
Example hydrate_t02 : test_hydrate t02 [TmBlank "john_smith"] = true.
Proof. vm_compute. reflexivity. Qed.
Example dehydrate_t02 : test_dehydrate t02 [TmBlank "john_smith"] = true.
Proof. vm_compute. reflexivity. Qed.
Example hydrate_t03 : test_hydrate t03 [TmBlank "receipt"] = true.
Proof. vm_compute. reflexivity. Qed.
Example dehydrate_t03 : test_dehydrate t03 [TmBlank "receipt"] = true.
Proof. vm_compute. reflexivity. Qed.
Example hydrate_t04 : test_hydrate t04 [TmBlank "receipt"] = true.
Proof. vm_compute. reflexivity. Qed.
Example dehydrate_t04 : test_dehydrate t04 [TmBlank "receipt"] = true.
Proof. vm_compute. reflexivity. Qed.
Example hydrate_t05 : test_hydrate t05 [TmBlank "list"] = true.
Proof. vm_compute. reflexivity. Qed.
Example dehydrate_t05 : test_dehydrate t05 [TmBlank "list"] = true.
Proof. vm_compute. reflexivity. Qed.
Example hydrate_t06 : test_hydrate t06 [TmBlank "list"] = true.
Proof. vm_compute. reflexivity. Qed.
Example dehydrate_t06 : test_dehydrate t06 [TmBlank "list"] = true.
Proof. vm_compute. reflexivity. Qed.
Example hydrate_t07 : test_hydrate t07 [TmBlank "subject"] = true.
Proof. vm_compute. reflexivity. Qed.
Example dehydrate_t07 : test_dehydrate t07 [TmBlank "subject"] = true.
Proof. vm_compute. reflexivity. Qed.
Example hydrate_t08 : test_hydrate t08 [TmBlank "subject"] = true.
Proof. vm_compute. reflexivity. Qed.
Example dehydrate_t08 : test_dehydrate t08 [TmBlank "subject"] = true.
Proof. vm_compute. reflexivity. Qed.
Example hydrate_t09 : test_hydrate t09 [TmBlank "subject"] = true.
Proof. vm_compute. reflexivity. Qed.
Example dehydrate_t09 : test_dehydrate t09 [TmBlank "subject"] = true.
Proof. vm_compute. reflexivity. Qed.
Example hydrate_t10 : test_hydrate t10 [TmBlank "subject"] = true.
Proof. vm_compute. reflexivity. Qed.
Example dehydrate_t10 : test_dehydrate t10 [TmBlank "subject"] = true.
Proof. vm_compute. reflexivity. Qed.
Example hydrate_t11 : test_hydrate t11 [TmIri "https://example.org/JohnSmith"] = true.
Proof. vm_compute. reflexivity. Qed.
Example dehydrate_t11 : test_dehydrate t11 [TmIri "https://example.org/JohnSmith"] = true.
Proof. vm_compute. reflexivity. Qed.
Example hydrate_t12 : test_hydrate t12 [TmBlank "subject"] = true.
Proof. vm_compute. reflexivity. Qed.
Example dehydrate_t12 : test_dehydrate t12 [TmBlank "subject"] = true.
Proof. vm_compute. reflexivity. Qed.
Example hydrate_t13 : test_hydrate t13 [TmBlank "subject"] = true.
Proof. vm_compute. reflexivity. Qed.
Example dehydrate_t13 : test_dehydrate t13 [TmBlank "subject"] = true.
Proof. vm_compute. reflexivity. Qed.
Example hydrate_t14 : test_hydrate t14 [TmBlank "subject"] = true.
Proof. vm_compute. reflexivity. Qed.
Example dehydrate_t14 : test_dehydrate t14 [TmBlank "subject"] = true.
Proof. vm_compute. reflexivity. Qed.
Example hydrate_t15 : test_hydrate t15 [TmBlank "subject"] = true.
Proof. vm_compute. reflexivity. Qed.
Example dehydrate_t15 : test_dehydrate t15 [TmBlank "subject"] = true.
Proof. vm_compute. reflexivity. Qed.
Example dehydrate_t16 : test_dehydrate t16 [TmBlank "subject"] = true.
Proof. vm_compute. reflexivity. Qed.
Example hydrate_t17 : test_hydrate t17 [TmBlank "subject"] = true.
Proof. vm_compute. reflexivity. Qed.
Example dehydrate_t17 : test_dehydrate t17 [TmBlank "subject"] = true.
Proof. vm_compute. reflexivity. Qed.
Example hydrate_t18 : test_hydrate t18 [TmBlank "subject"] = true.
Proof. vm_compute. reflexivity. Qed.
Example dehydrate_t18 : test_dehydrate t18 [TmBlank "subject"] = true.
Proof. vm_compute. reflexivity. Qed.

(** The negative test: the model gives the error of the missing field, in both directions. *)
Example e01_layouts : exists r m l, test_layouts e01 = Some (r, m) /\ layouts_get m r = Some l.
Proof. do 3 eexists. split; [vm_compute; reflexivity|]. vm_compute. reflexivity. Qed.
Example hydrate_e01 : exists r m e, test_layouts e01 = Some (r, m) /\
  hydrate (list_dataset (sorted_quads (t_dataset e01))) (layouts_get m) 100 r [TmBlank "john_smith"] = Err e.
Proof. do 3 eexists. split; [vm_compute; reflexivity|]. vm_compute. reflexivity. Qed.
Example dehydrate_e01 : exists r m v e, test_layouts e01 = Some (r, m) /\ value_from_json (t_value e01) = Ok v /\
  dehydrate (fun l => l) (layouts_get m) 100 v r default_options = Err e.
Proof. do 4 eexists. split; [vm_compute; reflexivity|]. split; [vm_compute; reflexivity|]. vm_compute. reflexivity. Qed.

Definition no_floats (_ : unit) : option Qc := None.
(** The layouts are also read through [serde], which must succeed — layouts/tests/distill.rs 24-29. *)
Definition serde_reads (t : case) : Prop :=
  forall precise, exists s l, json_serde precise (fun _ => None) (t_layout t) = Ok s /\ layout_deserialize no_floats s = Ok l.
Example serde_layouts :
  Forall serde_reads [t01; t02; t03; t04; t05; t06; t07; t08; t09; t10; t11; t12; t13; t14; t15; t16; t17; t18; e01].
Proof.
  repeat (apply Forall_cons; [|]); try apply Forall_nil; intros []; (do 2 eexists; split; [vm_compute; reflexivity|vm_compute; reflexivity]).
Qed.

(** The tests do not compare the two layouts read.  They are the same, except for t16, whose languages are lost (C85). *)
Definition serde_agrees (t : case) : Prop :=
  forall precise, exists s l, json_serde precise (fun _ => None) (t_layout t) = Ok s /\ layout_deserialize no_floats s = Ok l /\
    layout_from_json (t_layout t) = Ok l.
Example serde_same : Forall serde_agrees [t01; t02; t03; t04; t05; t06; t07; t08; t09; t10; t11; t12; t13; t14; t15; t17; t18; e01].
Proof.
  repeat (apply Forall_cons; [|]); try apply Forall_nil; intros [];
    (do 2 eexists; split; [vm_compute; reflexivity|split; vm_compute; reflexivity]).
Qed.
Example serde_t16 : ~ serde_agrees t16.
Proof.
  intros H. destruct (H false) as [s [l [E1 [E2 E3]]]]. vm_compute in E1. injection E1 as <-. vm_compute in E2, E3.
  injection E2 as E2. injection E3 as E3. rewrite <- E2 in E3. discriminate E3.
Qed.

(** ** [decimal_representation] — layouts/src/value/mod.rs 683-702 *)
Definition one_over (n : positive) : Qc := Q2Qc (1 # n).
Example decimal_representation :
  map (fun n => decimal_string (one_over n)) [1; 2; 3; 4; 5; 6; 7; 8; 9]%positive =
  [Ok (Some "1"); Ok (Some "0.5"); Ok None; Ok (Some "0.25"); Ok (Some "0.2"); Ok None; Ok None; Ok (Some "0.125"); Ok None].
Proof. vm_compute. reflexivity. Qed.

(** ** Regular expressions — layouts/src/abs/regexp.rs 622-645 *)
Definition formatted (s : string) : outcome parse_error (list N) :=
  let* e := re_parse (chars s) in Ok (re_display e).
Example regexps : Forall (fun t => formatted (fst t) = Ok (chars (snd t)))
  [("a*", "a*"); ("a\*", "a\*"); ("[cab]", "[a-c]"); ("[^cab]", "[^a-c]"); ("(abc)|de", "abc|de"); ("(a|b)?", "(a|b)?");
   ("[A-Za-z0-89]", "[0-9A-Za-z]"); ("[a|b]", "[ab\|]")].
Proof. repeat (apply Forall_cons; [vm_compute; reflexivity|]). apply Forall_nil. Qed.

(** ** The types derived in generators/rust/treeldr-rs/tests: the macros accept them *)
Definition rust_type (name : string) : rty := RPath false false [(name, NoArgs)].
Definition rust_app (name : string) (ty : rty) : rty := RPath false false [(name, Angled [GTy ty])].
Definition tldr_attr (ts : list token) : attribute := Attr "tldr" (Some ts).
Definition unnamed (tys : list rty) : rdata := DStruct (FUnnamed (map (RField "" []) tys)).
Definition string_ty : rty := rust_type "String".
Definition prefix_attr (p iri : string) : attribute := tldr_attr [TkIdent "prefix"; TkGroup [TkStr p; TkPunct "="; TkStr iri]].
Definition derived_types : list derive_input := [
  DeriveInput "Id" [tldr_attr [TkIdent "id"]] (unnamed [RPath false false [("rdf_types", NoArgs); ("Id", NoArgs)]]);
  DeriveInput "UnorderedList" [tldr_attr [TkIdent "set"]] (unnamed [rust_app "Vec" string_ty]);
  DeriveInput "UnorderedList" [tldr_attr [TkIdent "list"]] (unnamed [rust_app "Vec" string_ty]);
  DeriveInput "SizedList" [] (unnamed [string_ty; string_ty; string_ty]);
  DeriveInput "Unit" [] (DStruct FUnit);
  DeriveInput "Boolean" [tldr_attr [TkIdent "boolean"]] (unnamed [rust_type "bool"]);
  DeriveInput "I32" [prefix_attr "xsd" "http://www.w3.org/2001/XMLSchema";
    tldr_attr [TkIdent "number"; TkPunct ","; TkIdent "datatype"; TkGroup [TkStr "xsd:int"]]] (unnamed [rust_type "i32"]);
  DeriveInput "TestString" [prefix_attr "xsd" "http://www.w3.org/2001/XMLSchema";
    tldr_attr [TkIdent "number"; TkPunct ","; TkIdent "datatype"; TkGroup [TkStr "xsd:string"]]] (unnamed [string_ty]);
  DeriveInput "Record" [prefix_attr "ex" "http://example.org/#"] (DStruct (FNamed [
    RField "foo" [tldr_attr [TkStr "ex:foo"]] string_ty;
    RField "optional" [tldr_attr [TkStr "ex:bar"]] (rust_app "Option" string_ty)]));
  DeriveInput "Sum" [prefix_attr "ex" "http://example.org/#"] (DEnum [
    RVariant "Foo" [] (FUnnamed [RField "" [] string_ty]); RVariant "Bar" [] (FUnnamed [RField "" [] string_ty])])].
Example derives : Forall (fun input => exists x, derive_layout 10 input = Ok x) derived_types.
Proof. repeat (apply Forall_cons; [eexists; vm_compute; reflexivity|]). apply Forall_nil. Qed.
