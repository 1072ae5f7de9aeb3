(** * Compiled layouts and serde ([Serialize] and [Deserialize], derived, in [layouts/src/layout/**],
      [layouts/src/format.rs], [layouts/src/pattern.rs] and [layouts/src/utils/automaton.rs])

    [serde_value] ([JsonModel.v]) is what is sent to a serializer, and what a self describing deserializer
    presents (for instance those of [serde_json], JSON objects having texts for keys set apart, and of the CBOR
    crates).  In these formats [Some(x)] is written as [x] and [None] as the unit.  The derived implementations
    (external crate [serde_derive]) are written out by hand; their errors are not distinguished; the keys of the
    structures are texts.  A layout comes with its [extra_properties], which the layouts of [LayoutModel] do not
    have. *)

From Coq Require Import String Ascii List Bool Arith NArith ZArith QArith Qcanon.
Import ListNotations.
From Verif Require Import Base BaseProofs Orders PatternModel ValueModel LayoutModel NumberModel HydrateModel JsonModel
  AutomatonModel AbsSerdeModel.
Open Scope list_scope.
Open Scope nat_scope.

(** External: resources ([R]: [Serialize] and [Deserialize]), datasets of patterns ([rdf_types::dataset::BTreeDataset], with the
    feature [serde]) and ranges of characters ([btree_range_map::AnyRange], with the feature [serde]). *)
Class SerdeExternal (R F : Type) : Type := {
  put_resource : R -> serde_value F;
  get_resource : serde_value F -> outcome unit R;
  put_dataset : list (qpat R) -> serde_value F;
  get_dataset : serde_value F -> outcome unit (list (qpat R));
  put_range : range -> serde_value F;
  get_range : serde_value F -> outcome unit range
}.

Section LayoutSerde.
Context {R F : Type} {CR : Cmp R} {SE : SerdeExternal R F}.
(** [BigRational::to_f64] and [from_float] (external). *)
Variables (to_f64 : Qc -> F) (from_f64 : F -> option Qc).
Notation sv := (serde_value F).

(** ** The pieces *)

(** [u32] and [usize] (external): numbers below [2^bits]. *)
Definition put_nat (n : nat) : sv := SU64 (Z.of_nat n).
Definition get_nat (bits : Z) (s : sv) : outcome unit nat :=
  match s with
  | SU64 n | SI64 n => if ((0 <=? n) && (n <? 2 ^ bits))%Z then Ok (Z.to_nat n) else Err tt
  | _ => Err tt
  end.
Definition get_u32 : sv -> outcome unit nat := get_nat 32.
Definition get_usize : sv -> outcome unit nat := get_nat 64.

(** A derived enumeration: a text for a variant without content, a map of one entry for a variant with one.  A
    variant without content is also read from a map. *)
Definition put_variant (name : string) (s : sv) : sv := SMap [(SStr name, s)].
Definition get_variant (s : sv) : outcome unit (string * option sv) :=
  match s with
  | SStr name => Ok (name, None)
  | SMap [(SStr name, s)] => Ok (name, Some s)
  | _ => Err tt
  end.
Definition no_content (s : option sv) : outcome unit unit :=
  match s with None | Some SUnit => Ok tt | Some _ => Err tt end.
Definition content (s : option sv) : outcome unit sv :=
  match s with Some s => Ok s | None => Err tt end.

(** A derived structure with the fields [names], in this order: a map, or a sequence of as many values. *)
Definition get_struct (names : list string) (s : sv) : outcome unit fields :=
  match s with
  | SMap m => named m
  | SSeq l => if Nat.eqb (length l) (length names) then Ok (combine names l) else Err tt
  | _ => Err tt
  end.

(** [Pattern] — layouts/src/pattern.rs 9-18. *)
Definition put_pattern (p : pattern R) : sv :=
  match p with
  | PRes r => put_variant "Resource" (put_resource r)
  | PVar x => put_variant "Var" (put_nat x)
  end.
Definition get_pattern (s : sv) : outcome unit (pattern R) :=
  let* v := get_variant s in
  let* c := content (snd v) in
  if String.eqb (fst v) "Resource" then let* r := get_resource c in Ok (PRes r)
  else if String.eqb (fst v) "Var" then let* x := get_u32 c in Ok (PVar x)
  else Err tt.

(** [ValueFormat] — layouts/src/format.rs 3-15, with [Ref] (layouts/src/ref.rs 49-57, [transparent]). *)
Definition put_format (f : vformat R) : sv :=
  SMap (entry "layout" (put_resource (vf_layout f)) ++
        entry "input" (SSeq (map put_pattern (vf_input f))) ++
        entry "graph" (ser_option (ser_option put_pattern) (vf_graph f))).
Definition get_format (s : sv) : outcome unit (vformat R) :=
  let* o := get_struct ["layout"; "input"; "graph"]%string s in
  let* layout := f_require o "layout" get_resource in
  let* input := f_require o "input" (de_vec get_pattern) in
  let* graph := f_option o "graph" (de_option get_pattern) in
  Ok (VFormat layout input graph).

(** [DetTransitions] — layouts/src/utils/automaton.rs 699-762: the triples of [AutomatonModel.serialize_transitions]. *)
Definition put_transition (t : nat * (range * nat)) : sv :=
  SSeq [put_nat (fst t); put_range (fst (snd t)); put_nat (snd (snd t))].
Definition get_transition (s : sv) : outcome unit (nat * (range * nat)) :=
  match s with
  | SSeq [a; b; c] =>
      let* a := get_usize a in let* b := get_range b in let* c := get_usize c in Ok (a, (b, c))
  | _ => Err tt
  end.

(** [DetAutomaton<usize>] — layouts/src/utils/automaton.rs 263-272. *)
Definition put_automaton (d : det_automaton nat) : sv :=
  SMap (entry "initial_state" (put_nat (da_initial d)) ++
        entry "final_states" (SSeq (map put_nat (da_final d))) ++
        entry "transitions"
          (SSeq (map put_transition
             (serialize_transitions (Dfa (da_initial d) (da_final d) (da_transitions d)))))).
Definition get_automaton (s : sv) : outcome unit (det_automaton nat) :=
  let* o := get_struct ["initial_state"; "final_states"; "transitions"]%string s in
  let* i := f_require o "initial_state" get_usize in
  let* f := f_require o "final_states" (de_vec get_usize) in
  let* t := f_require o "transitions" (de_vec get_transition) in
  Ok (DetAutomaton i (set_collect f) (deserialize_transitions t)).

(** [extra_properties: BTreeMap<R, R>] (external). *)
Definition put_extra (m : list (R * R)) : sv :=
  SMap (map (fun e : R * R => (put_resource (fst e), put_resource (snd e))) m).
Definition get_extra : sv -> outcome unit (list (R * R)) := de_btreemap get_resource get_resource.

(** ** Writing *)

(** The fields [intro], [value] and [dataset] of [ItemLayout] (layouts/src/layout/list/mod.rs 63-80), [NodeLayout]
    (list/ordered.rs 46-64), [Field] (product.rs 50-70) and [Variant] (sum.rs 48-68). *)
Definition put_item_fields (it : item_layout R) : list (sv * sv) :=
  entry "intro" (put_nat (it_intro it)) ++
  entry "value" (put_format (it_value it)) ++
  entry "dataset" (put_dataset (it_dataset it)).
Definition put_item (it : item_layout R) : sv := SMap (put_item_fields it).

(** [Field] — layouts/src/layout/product.rs 50-70. *)
Definition put_field (f : field R) : sv :=
  SMap (put_item_fields (f_item f) ++ entry "required" (SBool (f_required f))).

(** [Variant] — layouts/src/layout/sum.rs 48-68. *)
Definition put_sum_variant (v : variant R) : sv :=
  SMap (entry "name" (SStr (va_name v)) ++ put_item_fields (va_item v)).

(** The fields [input] and [intro] of all the layouts. *)
Definition put_counts (h : header R) : list (sv * sv) :=
  entry "input" (put_nat (h_input h)) ++ entry "intro" (put_nat (h_intro h)).

(** [fields: BTreeMap<Value, Field<R>>] — layouts/src/layout/product.rs 26. *)
Definition put_fields (fs : list (value * field R)) : outcome Empty_set sv :=
  let* m := traverse (fun e : value * field R =>
              let* k := value_serialize to_f64 (fst e) in Ok (k, put_field (snd e))) fs in
  Ok (SMap m).

(** [Layout] — layouts/src/layout/mod.rs 65-115, with [LiteralLayout] (layout/literal/mod.rs 15-26), [DataLayout] and its
    structures (layout/literal/data.rs 19-191), [IdLayout] (layout/literal/id.rs 8-29), [ProductLayout] (product.rs 11-33),
    [SumLayout] (sum.rs 10-30), [ListLayout] (list/mod.rs 17-29), [UnorderedListLayout] (list/unordered.rs 8-28),
    [OrderedListLayout] (list/ordered.rs 6-32) and [SizedListLayout] (list/sized.rs 8-26).  The constant of a unit layout is
    left out when it is the unit (data.rs 68). *)
Definition put_layout (l : layout R) (extra : list (R * R)) : outcome Empty_set sv :=
  let last := entry "extra_properties" (put_extra extra) in
  let literal := fun s => put_variant "Literal" s in
  let data := fun name s => literal (put_variant "Data" (put_variant name s)) in
  let list := fun name s => put_variant "List" (put_variant name s) in
  match l with
  | Never => Ok (SStr "Never")
  | Always => Ok (SStr "Always")
  | UnitL h const =>
      let* c := match const with
                | VLit LUnit => Ok []
                | c => let* s := value_serialize to_f64 c in Ok (entry "const" s)
                end in
      Ok (data "Unit"%string
        (SMap (put_counts h ++ entry "dataset" (put_dataset (h_dataset h)) ++ c ++ last)))
  | DataL k h resource datatype =>
      let rest := entry "dataset" (put_dataset (h_dataset h)) ++
                  entry "resource" (put_pattern resource) ++
                  entry "datatype" (put_resource datatype) ++ last in
      Ok match k with
         | KBoolean => data "Boolean"%string (SMap (put_counts h ++ rest))
         | KNumber => data "Number"%string (SMap (put_counts h ++ rest))
         | KByteString => data "ByteString"%string (SMap (put_counts h ++ rest))
         | KTextString pat =>
             data "TextString"%string
               (SMap (put_counts h ++ entry "pattern" (ser_option put_automaton pat) ++ rest))
         end
  | IdL h resource pat =>
      Ok (literal (put_variant "Id"
        (SMap (put_counts h ++ entry "dataset" (put_dataset (h_dataset h)) ++
               entry "pattern" (ser_option put_automaton pat) ++
               entry "resource" (put_pattern resource) ++ last))))
  | ProductL h fields =>
      let* f := put_fields fields in
      Ok (put_variant "Product"
        (SMap (put_counts h ++ entry "fields" f ++ entry "dataset" (put_dataset (h_dataset h)) ++ last)))
  | SumL h variants =>
      Ok (put_variant "Sum"
        (SMap (put_counts h ++ entry "variants" (SSeq (map put_sum_variant variants)) ++
               entry "dataset" (put_dataset (h_dataset h)) ++ last)))
  | UnorderedL h item =>
      Ok (list "Unordered"%string
        (SMap (put_counts h ++ entry "item" (put_item item) ++
               entry "dataset" (put_dataset (h_dataset h)) ++ last)))
  | OrderedL h node head tail =>
      Ok (list "Ordered"%string
        (SMap (put_counts h ++ entry "node" (put_item node) ++ entry "head" (put_pattern head) ++
               entry "tail" (put_pattern tail) ++ entry "dataset" (put_dataset (h_dataset h)) ++ last)))
  | SizedL h items =>
      Ok (list "Sized"%string
        (SMap (put_counts h ++ entry "items" (SSeq (map put_item items)) ++
               entry "dataset" (put_dataset (h_dataset h)) ++ last)))
  end.

(** ** Reading, see above *)

Definition get_item_fields (o : fields) : outcome unit (item_layout R) :=
  let* n := f_require o "intro" get_u32 in
  let* f := f_require o "value" get_format in
  let* d := f_require o "dataset" get_dataset in
  Ok (Item n f d).
Definition get_item (s : sv) : outcome unit (item_layout R) :=
  let* o := get_struct ["intro"; "value"; "dataset"]%string s in get_item_fields o.
Definition get_field (s : sv) : outcome unit (field R) :=
  let* o := get_struct ["intro"; "value"; "dataset"; "required"]%string s in
  let* it := get_item_fields o in
  let* b := f_require o "required" de_bool in
  Ok (Field it b).
Definition get_sum_variant (s : sv) : outcome unit (variant R) :=
  let* o := get_struct ["name"; "intro"; "value"; "dataset"]%string s in
  let* n := f_require o "name" de_string in
  let* it := get_item_fields o in
  Ok (Variant n it).

(** The fields [input], [intro], [dataset] and [extra_properties] of all the layouts. *)
Definition get_header (o : fields) : outcome unit (header R * list (R * R)) :=
  let* i := f_require o "input" get_u32 in
  let* n := f_require o "intro" get_u32 in
  let* d := f_require o "dataset" get_dataset in
  let* e := f_require o "extra_properties" get_extra in
  Ok (Header i n d, e).

Definition get_fields : sv -> outcome unit (list (value * field R)) :=
  de_btreemap (value_deserialize from_f64) get_field.

Definition get_data (s : sv) : outcome unit (layout R * list (R * R)) :=
  let* v := get_variant s in
  let* c := content (snd v) in
  let plain := fun k =>
    let* o := get_struct ["input"; "intro"; "dataset"; "resource"; "datatype"; "extra_properties"]%string c in
    let* h := get_header o in
    let* r := f_require o "resource" get_pattern in
    let* d := f_require o "datatype" get_resource in
    Ok (DataL k (fst h) r d, snd h) in
  if String.eqb (fst v) "Unit" then
    let* o := get_struct ["input"; "intro"; "dataset"; "const"; "extra_properties"]%string c in
    let* h := get_header o in
    let* c := f_default o "const" (value_deserialize from_f64) (VLit LUnit) in
    Ok (UnitL (fst h) c, snd h)
  else if String.eqb (fst v) "Boolean" then plain KBoolean
  else if String.eqb (fst v) "Number" then plain KNumber
  else if String.eqb (fst v) "ByteString" then plain KByteString
  else if String.eqb (fst v) "TextString" then
    let* o := get_struct ["input"; "intro"; "pattern"; "dataset"; "resource"; "datatype"; "extra_properties"]%string c in
    let* h := get_header o in
    let* p := f_option o "pattern" get_automaton in
    let* r := f_require o "resource" get_pattern in
    let* d := f_require o "datatype" get_resource in
    Ok (DataL (KTextString p) (fst h) r d, snd h)
  else Err tt.

Definition get_literal (s : sv) : outcome unit (layout R * list (R * R)) :=
  let* v := get_variant s in
  let* c := content (snd v) in
  if String.eqb (fst v) "Data" then get_data c
  else if String.eqb (fst v) "Id" then
    let* o := get_struct ["input"; "intro"; "dataset"; "pattern"; "resource"; "extra_properties"]%string c in
    let* h := get_header o in
    let* p := f_option o "pattern" get_automaton in
    let* r := f_require o "resource" get_pattern in
    Ok (IdL (fst h) r p, snd h)
  else Err tt.

Definition get_list (s : sv) : outcome unit (layout R * list (R * R)) :=
  let* v := get_variant s in
  let* c := content (snd v) in
  if String.eqb (fst v) "Unordered" then
    let* o := get_struct ["input"; "intro"; "item"; "dataset"; "extra_properties"]%string c in
    let* h := get_header o in
    let* it := f_require o "item" get_item in
    Ok (UnorderedL (fst h) it, snd h)
  else if String.eqb (fst v) "Ordered" then
    let* o := get_struct ["input"; "intro"; "node"; "head"; "tail"; "dataset"; "extra_properties"]%string c in
    let* h := get_header o in
    let* n := f_require o "node" get_item in
    let* hd := f_require o "head" get_pattern in
    let* tl := f_require o "tail" get_pattern in
    Ok (OrderedL (fst h) n hd tl, snd h)
  else if String.eqb (fst v) "Sized" then
    let* o := get_struct ["input"; "intro"; "items"; "dataset"; "extra_properties"]%string c in
    let* h := get_header o in
    let* l := f_require o "items" (de_vec get_item) in
    Ok (SizedL (fst h) l, snd h)
  else Err tt.

Definition get_layout (s : sv) : outcome unit (layout R * list (R * R)) :=
  let* v := get_variant s in
  if String.eqb (fst v) "Never" then let* _ := no_content (snd v) in Ok (Never, [])
  else if String.eqb (fst v) "Always" then let* _ := no_content (snd v) in Ok (Always, [])
  else
    let* c := content (snd v) in
    if String.eqb (fst v) "Literal" then get_literal c
    else if String.eqb (fst v) "List" then get_list c
    else if String.eqb (fst v) "Product" then
      let* o := get_struct ["input"; "intro"; "fields"; "dataset"; "extra_properties"]%string c in
      let* h := get_header o in
      let* f := f_require o "fields" get_fields in
      Ok (ProductL (fst h) f, snd h)
    else if String.eqb (fst v) "Sum" then
      let* o := get_struct ["input"; "intro"; "variants"; "dataset"; "extra_properties"]%string c in
      let* h := get_header o in
      let* l := f_require o "variants" (de_vec get_sum_variant) in
      Ok (SumL (fst h) l, snd h)
    else Err tt.

End LayoutSerde.
