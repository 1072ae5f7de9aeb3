(** * Hydration: RDF to tree ([layouts/src/distill/hy/mod.rs], [hy/data.rs])

    Everything in both files is modelled.  Vocabulary look-ups ([vocabulary.iri(i).unwrap()],
    [vocabulary.literal(l).unwrap()]) are the identity: IRIs and literals are represented by their lexical
    form.  [Matching] is used through [stream] (MatchingModel.v), which the stack machine refines
    (theorems [collect_stream] and [into_unique_stream]). *)

From Coq Require Import String List Bool Arith NArith QArith Qcanon.
Import ListNotations.
From Verif Require Import Base BaseProofs Orders PatternModel MatchingModel ValueModel LayoutModel.
Open Scope list_scope.
Open Scope nat_scope.

(** [rdf_types::LiteralType]: datatype IRI, or language tag. *)
Inductive lit_type : Type :=
| TypeAny (iri : string)
| TypeLang (tag : string).

(** [rdf_types::Literal]. *)
Record rdf_literal : Type := RdfLiteral {
  rl_value : string;
  rl_type : lit_type
}.

(** [rdf_types::Interpretation] with [ReverseIriInterpretation] and
    [ReverseLiteralInterpretation]: the lexical representations of a resource. *)
Class Interp (R : Type) : Type := {
  iris_of : R -> list string;
  literals_of : R -> list rdf_literal
}.

(** [xsd_types] (external crate): recognition of the datatypes derived from
    [xsd:decimal] ([Datatype::from_iri(..) = Some(Datatype::Decimal(_))]) and their lexical forms
    ([lexical::Decimal::parse], [Decimal::try_from(BigRational)] followed by [to_string]). *)
Class Xsd : Type := {
  is_decimal_type : string -> bool;
  decimal_parse : string -> option Qc;
  decimal_print : Qc -> option string
}.

Definition xsd_boolean : string := "http://www.w3.org/2001/XMLSchema#boolean".
Definition xsd_string : string := "http://www.w3.org/2001/XMLSchema#string".

(** [xsd_types::Boolean::parse_xsd] (external crate). *)
Definition boolean_parse (s : string) : option bool :=
  if eqb s "true"%string then Some true
  else if eqb s "1"%string then Some true
  else if eqb s "false"%string then Some false
  else if eqb s "0"%string then Some false
  else None.

(** [DataFragment] — layouts/src/distill/hy/mod.rs 50-78. *)
Inductive fragment (R : Type) : Type :=
| FDiscriminant (ref : R)
| FVariant (ref : R) (name : string)
| FKey (ref : R) (key : value)
| FOrderedListNode (ref : R) (head tail : R)
| FSizedListItem (ref : R) (index : nat).
Arguments FDiscriminant {R} ref.
Arguments FVariant {R} ref name.
Arguments FKey {R} ref key.
Arguments FOrderedListNode {R} ref head tail.
Arguments FSizedListItem {R} ref index.

(** [Error] — layouts/src/distill/hy/mod.rs 24-45. *)
Inductive hy_error (R : Type) : Type :=
| IncompatibleLayout
| InvalidInputCount (expected found : nat)
| DataAmbiguity (f : fragment R)
| MissingData (f : fragment R)
| UnknownNumberDatatype (iri : string)
| NoMatchingLiteral
| LayoutNotFound (ref : R).
Arguments IncompatibleLayout {R}.
Arguments InvalidInputCount {R} expected found.
Arguments DataAmbiguity {R} f.
Arguments MissingData {R} f.
Arguments UnknownNumberDatatype {R} iri.
Arguments NoMatchingLiteral {R}.
Arguments LayoutNotFound {R} ref.

Section Hydrate.
Context {R : Type} {CR : Cmp R} {I : Interp R} {X : Xsd}.
Variable D : dataset R.
Variable reg : registry R.

Definition hres (A : Type) : Type := outcome (hy_error R) A.

(** [for_fragment] / [from_matching_error] — layouts/src/distill/hy/mod.rs 80-101. *)
Definition for_fragment {A} (m : outcome match_error A) (f : fragment R) : hres A :=
  match m with
  | Ok a => Ok a
  | Err Ambiguity => Err (DataAmbiguity f)
  | Err Empty => Err (MissingData f)
  | Panic w => Panic w
  | OutOfFuel => OutOfFuel
  end.

(** [select_inputs] — layouts/src/distill/hy/mod.rs 556-561. *)
Definition select_inputs (inputs : list (pattern R)) (s : subst R) : hres (list R) :=
  mapM (fun p => unwrap "select_inputs" (into_resource (papply s p))) inputs.

(** [select_graph] — layouts/src/distill/hy/mod.rs 563-575. *)
Definition select_graph (current : option R) (graph : option (option (pattern R))) (s : subst R)
  : hres (option R) :=
  match graph with
  | None => Ok current
  | Some None => Ok None
  | Some (Some p) =>
      let* r := unwrap "select_graph" (into_resource (papply s p)) in Ok (Some r)
  end.

(** [Matching::new(..).into_unique()] and [into_required_unique()] on the quads of a
    layout with the current graph — layouts/src/distill/hy/mod.rs, passim. *)
Definition match_unique (g : option R) (ps : list (qpat R)) (s : subst R) (f : fragment R)
  : hres (option (subst R)) :=
  for_fragment (stream_unique (stream D (with_default_graph g ps) s)) f.

Definition match_required (g : option R) (ps : list (qpat R)) (s : subst R) (f : fragment R)
  : hres (subst R) :=
  for_fragment (stream_required_unique (stream D (with_default_graph g ps) s)) f.

(** First lines of all layouts: [Substitution::from_inputs], [intro], required unique match
    — layouts/src/distill/hy/mod.rs 206-214, 247-255, 324-333, 387-396, 439-448,
    503-512; hy/data.rs 38-47, 52-61... *)
Definition match_header (g : option R) (ref : R) (h : header R) (inputs : list R)
  : hres (subst R) :=
  match_required g (h_dataset h) (sintro (from_inputs inputs) (h_intro h)) (FDiscriminant ref).

(** [hydrate_boolean_value] — layouts/src/distill/hy/data.rs 226-235. *)
Definition hydrate_boolean_value (v ty : string) : hres bool :=
  if eqb ty xsd_boolean
  then unwrap "hydrate_boolean_value: invalid lexical value" (boolean_parse v)
  else Panic "hydrate_boolean_value: unknown boolean type".

(** [hydrate_number_value] — layouts/src/distill/hy/data.rs 237-250. *)
Definition hydrate_number_value (v ty : string) : hres Qc :=
  if is_decimal_type ty
  then unwrap "hydrate_number_value: invalid lexical value" (decimal_parse v)
  else Err (UnknownNumberDatatype ty).

(** [hydrate_byte_string_value] — layouts/src/distill/hy/data.rs 252-254. *)
Definition hydrate_byte_string_value (v ty : string) : hres string :=
  Panic "hydrate_byte_string_value: todo".

(** [hydrate_text_string_value] — layouts/src/distill/hy/data.rs 256-258. *)
Definition hydrate_text_string_value (v ty : string) : hres string := Ok v.

(** The typed literal built from one RDF literal — hy/data.rs 81 and 90, 124 and 133, 167 and
    176, 210 and 219. *)
Definition hydrate_literal_value (k : data_kind) (ref : R) (v ty : string)
  : hres (typed_literal R) :=
  match k with
  | KBoolean => let* b := hydrate_boolean_value v ty in Ok (TBool b ref)
  | KNumber => let* n := hydrate_number_value v ty in Ok (TNum n ref)
  | KByteString => let* s := hydrate_byte_string_value v ty in Ok (TBytes s ref)
  | KTextString _ => let* s := hydrate_text_string_value v ty in Ok (TText s ref)
  end.

(** The loop on the literals of the resource — layouts/src/distill/hy/data.rs 69-92 (and the
    identical 112-135, 155-178, 198-221).  [sel] is the local [value]. *)
Fixpoint hydrate_literals (k : data_kind) (ref datatype : R) (ls : list rdf_literal)
  (sel : option (typed_literal R)) : hres (typed_literal R) :=
  match ls with
  | [] => ok_or NoMatchingLiteral sel
  | l :: ls' =>
      match rl_type l with
      | TypeLang _ => Panic "hydrate_data: lang string"
      | TypeAny i =>
          if existsb (eqb i) (iris_of datatype) then
            let* v := hydrate_literal_value k ref (rl_value l) i in
            match sel with
            | Some _ => Panic "hydrate_data: ambiguity"
            | None => hydrate_literals k ref datatype ls' (Some v)
            end
          else hydrate_literals k ref datatype ls' sel
      end
  end.

(** The recursive calls of [hydrate_with_ref]: current graph, layout reference, inputs. *)
Variable rec : option R -> R -> list R -> hres (typed_value R).

(** Evaluation of a [ValueFormat]: [select_inputs], [select_graph], recursive call —
    layouts/src/distill/hy/mod.rs 277-294, 354-367, 412-429, 476-493, 531-543. *)
Definition hydrate_format (g : option R) (vf : vformat R) (s : subst R) : hres (typed_value R) :=
  let* inputs := select_inputs (vf_input vf) s in
  let* g' := select_graph g (vf_graph vf) s in
  rec g' (vf_layout vf) inputs.

(** Loop of the sum — layouts/src/distill/hy/mod.rs 260-310.  The variant's [intro] variables
    are introduced in a copy of the substitution that is never used (261-262, 266).
    [failures] is write-only. *)
Fixpoint hydrate_variants (g : option R) (ref : R) (s : subst R) (i : nat)
  (vs : list (variant R)) (sel : option (nat * typed_value R))
  : hres (option (nat * typed_value R)) :=
  match vs with
  | [] => Ok sel
  | v :: vs' =>
      let* o := match_unique g (it_dataset (va_item v)) s (FVariant ref (va_name v)) in
      match o with
      | None => hydrate_variants g ref s (S i) vs' sel
      | Some s' =>
          match hydrate_format g (it_value (va_item v)) s' with
          | Ok value =>
              match sel with
              | Some _ => Panic "hydrate: variant ambiguity"
              | None => hydrate_variants g ref s (S i) vs' (Some (i, value))
              end
          | Err _ => hydrate_variants g ref s (S i) vs' sel
          | Panic w => Panic w
          | OutOfFuel => OutOfFuel
          end
      end
  end.

(** Loop of the product — layouts/src/distill/hy/mod.rs 337-380. *)
Fixpoint hydrate_fields (g : option R) (ref : R) (s : subst R)
  (fs : list (value * field R)) (record : list (value * typed_value R))
  : hres (list (value * typed_value R)) :=
  match fs with
  | [] => Ok record
  | (key, f) :: fs' =>
      let* o := match_unique g (it_dataset (f_item f)) (sintro s (it_intro (f_item f)))
                  (FKey ref key) in
      match o with
      | Some s' =>
          let* value := hydrate_format g (it_value (f_item f)) s' in
          hydrate_fields g ref s fs' (bt_insert key value record)
      | None =>
          if f_required f then Err (MissingData (FKey ref key))
          else hydrate_fields g ref s fs' record
      end
  end.

(** Loop of the unordered list — layouts/src/distill/hy/mod.rs 411-432.  The items of the
    matching are pulled one by one. *)
Fixpoint hydrate_items (g : option R) (vf : vformat R) (ms : list (item R))
  : hres (list (typed_value R)) :=
  match ms with
  | [] => Ok []
  | inl w :: _ => Panic w
  | inr s :: ms' =>
      let* v := hydrate_format g vf s in
      let* vs := hydrate_items g vf ms' in
      Ok (v :: vs)
  end.

(** Loop of the ordered list — layouts/src/distill/hy/mod.rs 455-498. *)
Fixpoint hydrate_nodes (fuel : nat) (g : option R) (ref : R) (s : subst R) (node : item_layout R)
  (head tail : R) : hres (list (typed_value R)) :=
  match fuel with
  | 0 => OutOfFuel
  | S fuel' =>
      if eqb head tail then Ok []
      else
        let s0 := sintro (spush s (Some head)) (1 + it_intro node) in
        let rest := length s + 1 in
        let* s' := match_required g (it_dataset node) s0 (FOrderedListNode ref head tail) in
        let* v := hydrate_format g (it_value node) s' in
        let* head' := unwrap "hydrate: list rest" (sget s' rest) in
        let* vs := hydrate_nodes fuel' g ref s node head' tail in
        Ok (v :: vs)
  end.

(** Loop of the sized list — layouts/src/distill/hy/mod.rs 516-546. *)
Fixpoint hydrate_tuple (g : option R) (ref : R) (s : subst R) (index : nat)
  (items : list (item_layout R)) : hres (list (typed_value R)) :=
  match items with
  | [] => Ok []
  | it :: items' =>
      let* s' := match_required g (it_dataset it) (sintro s (it_intro it))
                   (FSizedListItem ref index) in
      let* v := hydrate_format g (it_value it) s' in
      let* vs := hydrate_tuple g ref s (S index) items' in
      Ok (v :: vs)
  end.

(** [hydrate_with_ref] on the layout found — layouts/src/distill/hy/mod.rs 188-553. *)
Definition hydrate_layout (fuel : nat) (g : option R) (ref : R) (l : layout R) (inputs : list R)
  : hres (typed_value R) :=
  match l with
  | Never => Err IncompatibleLayout
  | UnitL h const =>
      let* _ := match_header g ref h inputs in
      Ok (TLit (TUnit const ref))
  | DataL k h resource datatype =>
      let* s := match_header g ref h inputs in
      let* r := unwrap "hydrate_data: resource" (into_resource (papply s resource)) in
      let* t := hydrate_literals k ref datatype (literals_of r) None in
      Ok (TLit t)
  | IdL h resource _ =>
      let* s := match_header g ref h inputs in
      let* r := unwrap "hydrate: id resource" (into_resource (papply s resource)) in
      match iris_of r with
      | [iri] => Ok (TLit (TId iri ref))
      | [] => Panic "hydrate: no IRI matching the layout"
      | _ => Panic "hydrate: IRI ambiguity"
      end
  | SumL h variants =>
      let* s := match_header g ref h inputs in
      let* sel := hydrate_variants g ref s 0 variants None in
      match sel with
      | Some (i, v) => Ok (TVariant v ref i)
      | None => Panic "hydrate: no variant found"
      end
  | ProductL h fields =>
      let* s := match_header g ref h inputs in
      let* record := hydrate_fields g ref s fields [] in
      Ok (TMap record ref)
  | UnorderedL h it =>
      let* s := match_header g ref h inputs in
      let* items := hydrate_items g (it_value it)
                      (stream D (with_default_graph g (it_dataset it)) (sintro s (it_intro it))) in
      Ok (TList (sort items) ref)
  | OrderedL h node head tail =>
      let* s := match_header g ref h inputs in
      let* head := unwrap "hydrate: list head" (into_resource (papply s head)) in
      let* tail := unwrap "hydrate: list tail" (into_resource (papply s tail)) in
      let* items := hydrate_nodes fuel g ref s node head tail in
      Ok (TList items ref)
  | SizedL h items =>
      let* s := match_header g ref h inputs in
      let* vs := hydrate_tuple g ref s 0 items in
      Ok (TList vs ref)
  | Always => Ok (TAlways vunit)
  end.

(** [hydrate_with_ref] — layouts/src/distill/hy/mod.rs 159-186. *)
Definition hydrate_body (fuel : nat) (g : option R) (ref : R) (inputs : list R)
  : hres (typed_value R) :=
  let* l := ok_or (LayoutNotFound ref) (reg ref) in
  match input_count l with
  | Some expected =>
      if Nat.eqb expected (length inputs)
      then hydrate_layout fuel g ref l inputs
      else Err (InvalidInputCount expected (length inputs))
  | None => hydrate_layout fuel g ref l inputs
  end.

End Hydrate.

Section HydrateRec.
Context {R : Type} {CR : Cmp R} {I : Interp R} {X : Xsd}.
Variable D : dataset R.
Variable reg : registry R.

(** [hydrate_with_ref] (= [hydrate_with], layouts/src/distill/hy/mod.rs 130-157): the recursive
    calls and the [while] loops take fuel. *)
Fixpoint hydrate_with (fuel : nat) (g : option R) (ref : R) (inputs : list R)
  : outcome (hy_error R) (typed_value R) :=
  match fuel with
  | 0 => OutOfFuel
  | S fuel' => hydrate_body D reg (hydrate_with fuel') fuel' g ref inputs
  end.

(** [hydrate] — layouts/src/distill/hy/mod.rs 116-126: no current graph.  (The Rust function also
    fixes the interpretation to [()] and resources to [Term].) *)
Definition hydrate (fuel : nat) (ref : R) (inputs : list R) := hydrate_with fuel None ref inputs.

End HydrateRec.
