(** * The code generated by the derive macros [DeserializeLd] and [SerializeLd]
      ([generators/rust/treeldr-rs-macros/src/generate/{de,ser}.rs])

    What is modelled is the behaviour of the generated code, for each layout the macros read in the
    attributes of a type.  The resources of such a layout are IRIs, represented by strings (blank nodes
    and literals in patterns give code that does not exist or does not compile, see DESIGN.md); the
    layouts referred to are Rust types, designated by the IRI the macro gives them
    ([type_map], made global to the program here).  [treeldr::de::Matching], [treeldr::pattern] and
    [treeldr::utils] are copies of the modules of [treeldr_layouts] with the same names, so the
    definitions of PatternModel.v and MatchingModel.v are reused.  Vocabulary look-ups are the
    identity. *)

From Coq Require Import String List Bool Arith ZArith QArith Qcanon.
Import ListNotations.
From Verif Require Import Base Orders PatternModel MatchingModel ValueModel LayoutModel HydrateModel TermModel
  GenDataModel.
Open Scope list_scope.
Open Scope nat_scope.

(** The Rust type wrapped by a type with a [boolean], [number] or [string] layout: the implementors of
    [FromRdfLiteral] — generators/rust/treeldr-rs/src/de/mod.rs 100-125.  [bool], the integers, and
    [String]. *)
Inductive prim : Type := PBool | PInt (ty : int_type) | PText.

(** The implementors of [DeserializeLd] and [SerializeLd]: [rdf_types::Id], [String] and the integers
    (treeldr-rs/src/datatypes.rs), and the derived types with their layout ([inner] is read for the
    literal layouts only).  The type wrapped by an [id] layout is [rdf_types::Id]. *)
Inductive rust_type : Type :=
| TyId
| TyText
| TyInt (ty : int_type)
| TyDerived (l : layout string) (inner : prim).

(** The types of a program, by the IRI given to them. *)
Definition program : Type := string -> option rust_type.

(** The values of these types.  A newtype ([Self(..)]) is represented by its content; a record by its
    fields in the order of the layout, [None] for an absent optional field; a variant by its position in
    the layout. *)
Inductive rvalue : Type :=
| RvUnit
| RvBool (b : bool)
| RvInt (z : Z)
| RvText (s : string)
| RvId (id : rdf_id)
| RvRecord (fields : list (string * option rvalue))
| RvVariant (index : nat) (v : rvalue)
| RvVec (items : list rvalue)
| RvTuple (items : list rvalue).

(** [rdf_types::RDF_LANG_STRING] (external). *)
Definition rdf_lang_string : string := "http://www.w3.org/1999/02/22-rdf-syntax-ns#langString".

(** [rdf_types]: [TermInterpretation], [TermInterpretationMut] and [InterpretationMut] (external):
    the resource of an IRI, the same allocated if needed, and a new resource. *)
Class Resolver (R I : Type) : Type := {
  rs_iri : I -> string -> option R;
  rs_interpret : string -> I -> R * I;
  rs_new : I -> R * I
}.

(** The name of the Rust field of a key — generate/de.rs 164-171, generate/ser.rs 170-172. *)
Definition field_name (key : value) : option string :=
  match key with
  | VLit (LText name) => Some name
  | _ => None
  end.

Section Gen.
Context {R I : Type} {CR : Cmp R} {RT : Runtime R I} {RS : Resolver R I} {IS : IntSyntax}.

(** ** Deserialization *)

Section De.
Variable i : I.
Variable D : dataset R.
Variable types : program.

Definition gres (A : Type) : Type := outcome de_error A.

(** [From<matching::Error>] — generators/rust/treeldr-rs/src/de/mod.rs 72-79. *)
Definition of_match {A} (m : outcome match_error A) : gres A :=
  match m with
  | Ok a => Ok a
  | Err Ambiguity => Err GenDataModel.DataAmbiguity
  | Err Empty => Err GenDataModel.MissingData
  | Panic w => Panic w
  | OutOfFuel => OutOfFuel
  end.

(** [.ok_or(DeserializeError::MissingData)?] — generate/de.rs, passim. *)
Definition missing {A} (o : option A) : gres A := ok_or GenDataModel.MissingData o.

(** [generate_pattern] — generate/de.rs 648-677. *)
Definition interp_pattern (p : pattern string) : option (pattern R) :=
  match p with
  | PVar x => Some (PVar x)
  | PRes iri => option_map PRes (rs_iri i iri)
  end.

(** The elements of an array, [None] as soon as one is. *)
Fixpoint all_some {A} (l : list (option A)) : option (list A) :=
  match l with
  | [] => Some []
  | None :: _ => None
  | Some a :: l' => option_map (cons a) (all_some l')
  end.

(** [inputs_to_array] — generate/de.rs 643-646. *)
Definition interp_patterns (ps : list (pattern string)) : option (list (pattern R)) :=
  all_some (map interp_pattern ps).

(** One element of [dataset_to_array] — generate/de.rs 625-638. *)
Definition interp_quad (q : qpat string) : option (qpat R) :=
  match interp_pattern (q_s q), interp_pattern (q_p q), interp_pattern (q_o q) with
  | Some s, Some p, Some o =>
      match q_g q with
      | None => Some (Quad s p o None)
      | Some g => option_map (fun g => Quad s p o (Some g)) (interp_pattern g)
      end
  | _, _, _ => None
  end.

(** [dataset_to_array] — generate/de.rs 624-641. *)
Definition interp_quads (qs : list (qpat string)) : option (list (qpat R)) :=
  all_some (map interp_quad qs).

(** [generate_graph_pattern] — generate/de.rs 613-622. *)
Definition interp_graph (g : option (option (pattern string))) : option (option (option (pattern R))) :=
  match g with
  | None => Some None
  | Some None => Some (Some None)
  | Some (Some p) => option_map (fun p => Some (Some p)) (interp_pattern p)
  end.

(** [.apply(&substitution).into_resource().unwrap()]. *)
Definition resolve (s : subst R) (p : pattern R) : gres R :=
  unwrap "into_resource" (into_resource (papply s p)).

(** [select_inputs] — generators/rust/treeldr-rs/src/de/mod.rs 12-23. *)
Definition de_inputs (ps : list (pattern R)) (s : subst R) : gres (list R) := mapM (resolve s) ps.

(** [select_graph] — generators/rust/treeldr-rs/src/de/mod.rs 25-37. *)
Definition de_graph (current : option R) (graph : option (option (pattern R))) (s : subst R)
  : gres (option R) :=
  match graph with
  | None => Ok current
  | Some None => Ok None
  | Some (Some p) => let* r := resolve s p in Ok (Some r)
  end.

(** [Matching::new(dataset, s, #dataset.ok_or(MissingData)?.with_default_graph(current_graph))]
    [.into_unique()?] and [.into_required_unique()?]. *)
Definition de_unique (g : option R) (ps : list (qpat string)) (s : subst R) : gres (option (subst R)) :=
  let* ps := missing (interp_quads ps) in
  of_match (stream_unique (stream D (with_default_graph g ps) s)).

Definition de_required (g : option R) (ps : list (qpat string)) (s : subst R) : gres (subst R) :=
  let* ps := missing (interp_quads ps) in
  of_match (stream_required_unique (stream D (with_default_graph g ps) s)).

(** First lines of all the bodies — generate/de.rs 63-77, 107-121, 240-254, 324-338, 364-378,
    439-453, 560-574, 710-724. *)
Definition de_header (g : option R) (h : header string) (inputs : list R) : gres (subst R) :=
  de_required g (h_dataset h) (sintro (from_inputs inputs) (h_intro h)).

(** The loop on the IRIs of an [id] layout — generate/de.rs 81-98; [TryFrom::try_from] is the identity
    of [rdf_types::Id]. *)
Definition de_id (r : R) : gres rvalue :=
  let* selected := id_loop IdIri (rt_iris i r) None in
  match selected with
  | Some id => Ok (RvId id)
  | None => Err MissingId
  end.

(** [FromRdfLiteral::from_rdf_literal] — generators/rust/treeldr-rs/src/de/mod.rs 100-125,
    [ParseXsd for String] (external) accepts every string. *)
Definition from_rdf_literal (p : prim) (s : string) : option rvalue :=
  match p with
  | PBool => option_map RvBool (boolean_parse s)
  | PInt ty => option_map RvInt (int_parse ty s)
  | PText => Some (RvText s)
  end.

(** [ty_iri] — generate/de.rs 735-742. *)
Definition literal_type_iri (l : rdf_literal) : string :=
  match rl_type l with
  | TypeAny iri => iri
  | TypeLang _ => rdf_lang_string
  end.

(** The loop of [generate_data] — generate/de.rs 732-751, without [has_literal]. *)
Fixpoint de_literals (p : prim) (datatype : string) (ls : list rdf_literal) (result : option rvalue)
  : gres (option rvalue) :=
  match ls with
  | [] => Ok result
  | l :: ls' =>
      if eqb (literal_type_iri l) datatype then
        match from_rdf_literal p (rl_value l) with
        | Some v =>
            match result with
            | Some _ => Err AmbiguousLiteralValue
            | None => de_literals p datatype ls' (Some v)
            end
        | None => de_literals p datatype ls' result
        end
      else de_literals p datatype ls' result
  end.

(** [generate_data] — generate/de.rs 728-760 ([has_literal] is whether there is a literal). *)
Definition de_data (p : prim) (datatype : string) (r : R) : gres rvalue :=
  let* result := de_literals p datatype (rt_literals i r) None in
  match result with
  | Some v => Ok v
  | None =>
      match rt_literals i r with
      | [] => Err ExpectedLiteral
      | _ => Err LiteralTypeMismatch
      end
  end.

(** The calls to [DeserializeLd::deserialize_ld_with] on the types of the parts: current graph, type,
    inputs. *)
Variable rec : option R -> string -> list R -> gres rvalue.

(** [select_inputs], [select_graph] and the call — generate/de.rs 213-223, 304-314, 397-411,
    477-491, 534-548. *)
Definition de_format (g : option R) (vf : vformat string) (s : subst R) : gres rvalue :=
  let* ps := missing (interp_patterns (vf_input vf)) in
  let* inputs := de_inputs ps s in
  let* gp := missing (interp_graph (vf_graph vf)) in
  let* g' := de_graph g gp s in
  rec g' (vf_layout vf) inputs.

(** [#(#deserialize_fields)*] — generate/de.rs 182-228: the structure [Data]. *)
Fixpoint de_fields (g : option R) (s : subst R) (fs : list (value * field string))
  : gres (list (string * (bool * option rvalue))) :=
  match fs with
  | [] => Ok []
  | (key, f) :: fs' =>
      let* name := unwrap "InvalidFieldIdent" (field_name key) in
      let* o := de_unique g (it_dataset (f_item f)) (sintro s (it_intro (f_item f))) in
      let* v := match o with
                | Some s' => let* v := de_format g (it_value (f_item f)) s' in Ok (Some v)
                | None => Ok None
                end in
      let* vs := de_fields g s fs' in
      Ok ((name, (f_required f, v)) :: vs)
  end.

(** [#(#unwrap_fields),*] — generate/de.rs 230-237. *)
Fixpoint unwrap_fields (data : list (string * (bool * option rvalue)))
  : gres (list (string * option rvalue)) :=
  match data with
  | [] => Ok []
  | (name, (required, v)) :: data' =>
      match v, required with
      | None, true => Err (MissingField name)
      | _, _ => let* fs := unwrap_fields data' in Ok ((name, v) :: fs)
      end
  end.

(** [#(#variants)*] — generate/de.rs 274-321: [result] is the local variable of the generated code. *)
Fixpoint de_variants (g : option R) (s : subst R) (index : nat) (vs : list (variant string))
  (result : option rvalue) : gres (option rvalue) :=
  match vs with
  | [] => Ok result
  | v :: vs' =>
      let* o := de_unique g (it_dataset (va_item v)) (sintro s (it_intro (va_item v))) in
      match o with
      | None => de_variants g s (S index) vs' result
      | Some s' =>
          let* value := de_format g (it_value (va_item v)) s' in
          match result with
          | Some _ => Err GenDataModel.DataAmbiguity
          | None => de_variants g s (S index) vs' (Some (RvVariant index value))
          end
      end
  end.

(** The loop of an unordered list — generate/de.rs 396-414. *)
Fixpoint de_items (g : option R) (vf : vformat string) (ms : list (item R)) : gres (list rvalue) :=
  match ms with
  | [] => Ok []
  | inl w :: _ => Panic w
  | inr s :: ms' =>
      let* v := de_format g vf s in
      let* vs := de_items g vf ms' in
      Ok (v :: vs)
  end.

(** The loop of an ordered list — generate/de.rs 459-496.  The loop takes fuel. *)
Fixpoint de_nodes (fuel : nat) (g : option R) (s : subst R) (node : item_layout string) (head tail : R)
  : gres (list rvalue) :=
  match fuel with
  | 0 => OutOfFuel
  | S fuel' =>
      if eqb head tail then Ok []
      else
        let s0 := sintro (spush s (Some head)) (1 + it_intro node) in
        let rest := length s + 1 in
        let* s' := de_required g (it_dataset node) s0 in
        let* v := de_format g (it_value node) s' in
        let* head' := unwrap "item_substitution.get(rest)" (sget s' rest) in
        let* vs := de_nodes fuel' g s node head' tail in
        Ok (v :: vs)
  end.

(** [#(#items)*] — generate/de.rs 507-552. *)
Fixpoint de_tuple (g : option R) (s : subst R) (items : list (item_layout string)) : gres (list rvalue) :=
  match items with
  | [] => Ok []
  | it :: items' =>
      let* s' := de_required g (it_dataset it) (sintro s (it_intro it)) in
      let* v := de_format g (it_value it) s' in
      let* vs := de_tuple g s items' in
      Ok (v :: vs)
  end.

(** The body of [deserialize_ld_with] — generate/de.rs 52-587. *)
Definition de_layout (fuel : nat) (g : option R) (l : layout string) (inner : prim) (inputs : list R)
  : gres rvalue :=
  match l with
  | Never | Always => Panic "unreachable"
  | UnitL h _ => let* _ := de_header g h inputs in Ok RvUnit
  | DataL _ h resource datatype =>
      let* s := de_header g h inputs in
      let* p := missing (interp_pattern resource) in
      let* r := resolve s p in
      de_data inner datatype r
  | IdL h resource _ =>
      let* s := de_header g h inputs in
      let* p := missing (interp_pattern resource) in
      let* r := resolve s p in
      de_id r
  | ProductL h fields =>
      let* s := de_header g h inputs in
      let* data := de_fields g s fields in
      let* fs := unwrap_fields data in
      Ok (RvRecord fs)
  | SumL h variants =>
      let* s := de_header g h inputs in
      let* result := de_variants g s 0 variants None in
      missing result
  | UnorderedL h it =>
      let* s := de_header g h inputs in
      let* ps := missing (interp_quads (it_dataset it)) in
      let* items := de_items g (it_value it)
                      (stream D (with_default_graph g ps) (sintro s (it_intro it))) in
      Ok (RvVec items)
  | OrderedL h node head tail =>
      let* s := de_header g h inputs in
      let* hp := missing (interp_pattern head) in
      let* head := resolve s hp in
      let* tp := missing (interp_pattern tail) in
      let* tail := resolve s tp in
      let* items := de_nodes fuel g s node head tail in
      Ok (RvVec items)
  | SizedL h items =>
      let* s := de_header g h inputs in
      let* vs := de_tuple g s items in
      Ok (RvTuple vs)
  end.

(** The implementations of the runtime, with [&inputs[0]] — datatypes.rs 51-83, 112-133, 168-209. *)
Definition de_runtime (ty : rust_type) (r : R) : gres rvalue :=
  match ty with
  | TyId => let* id := id_de i r in Ok (RvId id)
  | TyText => let* s := text_de i r in Ok (RvText s)
  | TyInt ty => let* z := int_de ty i r in Ok (RvInt z)
  | TyDerived _ _ => Panic "unreachable"
  end.

End De.

(** [DeserializeLd::deserialize_ld_with] of a type of the program.  The number of inputs is checked by the
    Rust compiler: a call with another number, or on a type that does not exist, is not a program (a
    panic here).  The recursive calls and the [while] loops take fuel. *)
Fixpoint deserialize (i : I) (D : dataset R) (types : program) (fuel : nat) (g : option R) (ty : string)
  (inputs : list R) : outcome de_error rvalue :=
  match fuel with
  | 0 => OutOfFuel
  | S fuel' =>
      match types ty with
      | None => Panic "not a program: unknown type"
      | Some (TyDerived l inner) =>
          if match input_count l with Some n => Nat.eqb n (length inputs) | None => false end
          then de_layout i D (deserialize i D types fuel') fuel' g l inner inputs
          else Panic "not a program: number of inputs"
      | Some t =>
          match inputs with
          | [r] => de_runtime i t r
          | _ => Panic "not a program: number of inputs"
          end
      end
  end.

End Gen.
