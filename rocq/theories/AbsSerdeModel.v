(** * Layouts and serde ([Serialize] and [Deserialize] in [layouts/src/abs/syntax/**] and
      [layouts/src/abs/regexp.rs], mostly derived)

    [serde_value] ([JsonModel.v]) is what is sent to a serializer, and what a self describing
    deserializer presents.  The derived readers (external crate [serde_derive]) are written out by
    hand: since [Layout] is an untagged enumeration, everything is first buffered, then read from
    the buffer.  Their errors are not distinguished, so that the order in which entries are read does
    not matter.  The keys of the maps read as structures are texts, and texts are not given as
    bytes: this is the case of JSON.  The limit on the depth of the documents is not modelled. *)

From Coq Require Import String Ascii List Bool Arith NArith ZArith QArith Qcanon.
Import ListNotations.
From Verif Require Import Base Orders PatternModel ValueModel LayoutModel NumberModel HydrateModel JsonModel
  RegexpModel AbsModel AbsJsonModel.
Open Scope list_scope.
Open Scope nat_scope.

(** External: a text made of these characters. *)
Class TextPrint : Type := text_of : list N -> string.

(** ** Structures *)

Section Structures.
Context {F : Type}.
Notation sv := (serde_value F).

(** The entries of a map whose keys are texts. *)
Definition fields : Type := list (string * sv).
Fixpoint named (m : list (sv * sv)) : outcome unit fields :=
  match m with
  | [] => Ok []
  | (SStr k, v) :: m' => let* o := named m' in Ok ((k, v) :: o)
  | _ :: _ => Err tt
  end.

(** [deny_unknown_fields]. *)
Definition only (names : list string) (o : fields) : outcome unit fields :=
  if forallb (fun e : string * sv => existsb (String.eqb (fst e)) names) o then Ok o else Err tt.

(** A structure with the fields [names], in this order: a map, or a sequence of at most as many
    values.  [deny]: with [deny_unknown_fields]. *)
Definition de_struct (deny : bool) (names : list string) (s : sv) : outcome unit fields :=
  match s with
  | SMap m => let* o := named m in if deny then only names o else Ok o
  | SSeq l => if length l <=? length names then Ok (combine names l) else Err tt
  | _ => Err tt
  end.

(** A structure with a flattened field: a map. *)
Definition de_flat (deny : bool) (names : list string) (s : sv) : outcome unit fields :=
  match s with
  | SMap m => de_struct deny names (SMap m)
  | _ => Err tt
  end.

(** A field given at most once. *)
Definition field_at (o : fields) (key : string) : outcome unit (option sv) :=
  match filter (fun e : string * sv => String.eqb (fst e) key) o with
  | [] => Ok None
  | [e] => Ok (Some (snd e))
  | _ => Err tt
  end.
(** A required field; a field with a default; an [Option] with or without [#[serde(default)]]. *)
Definition f_require {T} (o : fields) (key : string) (de : sv -> outcome unit T) : outcome unit T :=
  let* s := field_at o key in
  match s with Some s => de s | None => Err tt end.
Definition f_default {T} (o : fields) (key : string) (de : sv -> outcome unit T) (default : T)
  : outcome unit T :=
  let* s := field_at o key in
  match s with Some s => de s | None => Ok default end.
Definition de_option {T} (de : sv -> outcome unit T) (s : sv) : outcome unit (option T) :=
  match s with SUnit => Ok None | s => let* t := de s in Ok (Some t) end.
Definition f_option {T} (o : fields) (key : string) (de : sv -> outcome unit T)
  : outcome unit (option T) := f_default o key (de_option de) None.

(** [#[serde(untagged)]]: the first variant that reads the value. *)
Fixpoint untagged {T} (des : list (sv -> outcome unit T)) (s : sv) : outcome unit T :=
  match des with
  | [] => Err tt
  | de :: des' => match de s with Err _ => untagged des' s | r => r end
  end.
Definition variant_of {T U} (f : T -> U) (de : sv -> outcome unit T) (s : sv) : outcome unit U :=
  let* t := de s in Ok (f t).

(** [String], [bool], [i64], [Vec], [BTreeMap] (external). *)
Definition de_string (s : sv) : outcome unit string := match s with SStr s => Ok s | _ => Err tt end.
Definition de_bool (s : sv) : outcome unit bool := match s with SBool b => Ok b | _ => Err tt end.
Definition de_i64 (s : sv) : outcome unit Z :=
  match s with
  | SU64 n | SI64 n => if ((- 2 ^ 63 <=? n) && (n <? 2 ^ 63))%Z then Ok n else Err tt
  | _ => Err tt
  end.
Definition de_vec {T} (de : sv -> outcome unit T) (s : sv) : outcome unit (list T) :=
  match s with SSeq l => traverse de l | _ => Err tt end.
Definition de_btreemap {K V} {CK : Cmp K} (de_key : sv -> outcome unit K) (de : sv -> outcome unit V)
    (s : sv) : outcome unit (list (K * V)) :=
  match s with
  | SMap m =>
      let* l := traverse (fun e : sv * sv =>
                  let* k := de_key (fst e) in let* v := de (snd e) in Ok (k, v)) m in
      Ok (bt_collect l)
  | _ => Err tt
  end.

(** [OneOrMany] — layouts/src/abs/syntax/mod.rs 379-384. *)
Definition de_one_or_many {T} (de : sv -> outcome unit T) (s : sv) : outcome unit (list T) :=
  untagged [variant_of (fun t => [t]) de; de_vec de] s.

(** The marker of a type — layouts/src/abs/syntax/layout/mod.rs 627-657. *)
Definition de_marker (name : string) (s : sv) : outcome unit unit :=
  match s with SStr s => if String.eqb s name then Ok tt else Err tt | _ => Err tt end.

(** The size of what is read. *)
Fixpoint sv_size (s : sv) : nat :=
  match s with
  | SSeq l => S ((fix go (l : list sv) := match l with [] => 0 | s :: l' => sv_size s + go l' end) l)
  | SMap m =>
      S ((fix go (m : list (sv * sv)) :=
            match m with [] => 0 | (k, s) :: m' => sv_size k + sv_size s + go m' end) m)
  | _ => 1
  end.
End Structures.

(** ** Reading *)

Section Read.
Context {TS : TextSyntax} {F : Type} (from_f64 : F -> option Qc).
Notation sv := (serde_value F).

(** [CompactIri] — layouts/src/abs/syntax/pattern/compact_iri.rs 10-12 ([IriRefBuf]: external). *)
Definition de_iri (s : sv) : outcome unit compact_iri :=
  match s with SStr s => if is_iri_ref s then Ok s else Err tt | _ => Err tt end.

(** [LangTagBuf] (external). *)
Definition de_lang (s : sv) : outcome unit string :=
  match s with SStr s => if is_lang_tag s then Ok s else Err tt | _ => Err tt end.

(** [LiteralType] — layouts/src/abs/syntax/pattern/literal.rs 57-64 with [LiteralTypeIri] (94-104) and
    [LiteralTypeLanguage] (112-117): the type is [xsd:string] by default. *)
Definition de_literal_type (o : fields) : outcome unit alit_type :=
  match f_default o "type" de_iri xsd_string with
  | Err _ => let* tag := f_require o "language" de_lang in Ok (ATypeLang tag)
  | Ok ty => Ok (ATypeIri ty)
  | Panic w => Panic w
  | OutOfFuel => OutOfFuel
  end.

(** [LiteralValue] — layouts/src/abs/syntax/pattern/literal.rs 9-17: the type is flattened, the other
    entries are ignored. *)
Definition de_literal (s : sv) : outcome unit apattern :=
  let* o := de_flat false [] s in
  let* v := f_require o "value" de_string in
  let* ty := de_literal_type (filter (fun e => negb (String.eqb (fst e) "value")) o) in
  Ok (ALiteral v ty).

(** [Pattern] — layouts/src/abs/syntax/pattern/mod.rs 115-151. *)
Definition de_pattern (s : sv) : outcome unit apattern :=
  match s with
  | SStr v =>
      match blank_suffix v with
      | Some name => Ok (AVar name)
      | None => if is_iri_ref v then Ok (AIri v) else Err tt
      end
  | s => de_literal s
  end.

(** [Quad] — layouts/src/abs/syntax/dataset.rs 50-56: a sequence, the last value by default [None]. *)
Definition de_quad (s : sv) : outcome unit (quad apattern) :=
  match s with
  | SSeq (s :: p :: o :: g) =>
      let* s := de_pattern s in
      let* p := de_pattern p in
      let* o := de_pattern o in
      match g with
      | [] => Ok (Quad s p o None)
      | [g] => let* g := de_option de_pattern g in Ok (Quad s p o g)
      | _ => Err tt
      end
  | _ => Err tt
  end.

(** [Dataset] — layouts/src/abs/syntax/dataset.rs 6-8. *)
Definition de_dataset : sv -> outcome unit (list (quad apattern)) := de_vec de_quad.

(** [TypedString] — layouts/src/abs/syntax/resource.rs 91-99: the unknown fields are ignored. *)
Definition de_typed_string (s : sv) : outcome unit aresource :=
  let* o := de_struct false ["value"; "type"]%string s in
  let* v := f_require o "value" de_string in
  let* ty := f_require o "type" de_iri in
  Ok (ATypedString v ty).

(** [Resource] — layouts/src/abs/syntax/resource.rs 11-25. *)
Definition de_resource : sv -> outcome unit aresource :=
  untagged [variant_of ABoolean de_bool; variant_of ANumber de_i64; variant_of AString de_string;
            de_typed_string].

(** [RegExp] — layouts/src/abs/regexp.rs 595-621. *)
Definition de_regexp (s : sv) : outcome unit regexp :=
  match s with
  | SStr s =>
      match re_parse (chars s) with
      | Ok e => Ok e
      | Err _ => Err tt
      | Panic w => Panic w
      | OutOfFuel => OutOfFuel
      end
  | _ => Err tt
  end.

(** [LayoutHeader] — layouts/src/abs/syntax/layout/mod.rs 389-412, flattened in the layouts. *)
Definition header_fields : list string :=
  ["base"; "prefixes"; "id"; "input"; "intro"; "dataset"; "extra"]%string.
Definition de_header (o : fields) : outcome unit aheader :=
  let* base := f_option o "base" de_iri in
  let* prefixes := f_default o "prefixes" (de_btreemap de_string de_iri) [] in
  let* id := f_option o "id" de_iri in
  let* input := f_default o "input" (de_one_or_many de_string) ["self"%string] in
  let* intro := f_default o "intro" (de_one_or_many de_string) [] in
  let* dataset := f_default o "dataset" de_dataset [] in
  let* extra := f_default o "extra" (de_btreemap de_iri de_resource) [] in
  Ok (AHeader base prefixes id input intro dataset extra).

(** A layout: its type, its header and its own fields [names]. *)
Definition de_layout_struct {T} (type : string) (names : list string)
    (de : fields -> aheader -> outcome unit T) (s : sv) : outcome unit T :=
  let* o := de_flat true ("type"%string :: header_fields ++ names) s in
  let* _ := f_require o "type" (de_marker type) in
  let* h := de_header o in
  de o h.

(** The literal layouts — layouts/src/abs/syntax/layout/literal.rs 187-198 ([UnitLayout]), 247-260
    ([BooleanLayout]), 340-351 ([NumberLayout]), 409-420 ([ByteStringLayout]), 478-494
    ([TextStringLayout]), 559-571 ([IdLayout]). *)
Definition de_unit : sv -> outcome unit alayout :=
  de_layout_struct "unit" ["const"]%string (fun o h =>
    let* c := f_default o "const" (value_deserialize from_f64) (VLit LUnit) in
    Ok (AUnit h c)).
Definition de_boolean : sv -> outcome unit alayout :=
  de_layout_struct "boolean" ["resource"; "datatype"]%string (fun o h =>
    let* res := f_option o "resource" de_pattern in
    let* dt := f_option o "datatype" de_iri in
    Ok (ALiteralL (AKBoolean dt) h res)).
Definition de_number : sv -> outcome unit alayout :=
  de_layout_struct "number" ["resource"; "datatype"]%string (fun o h =>
    let* res := f_option o "resource" de_pattern in
    let* dt := f_require o "datatype" de_iri in
    Ok (ALiteralL (AKNumber dt) h res)).
Definition de_bytes : sv -> outcome unit alayout :=
  de_layout_struct "bytes" ["resource"; "datatype"]%string (fun o h =>
    let* res := f_option o "resource" de_pattern in
    let* dt := f_require o "datatype" de_iri in
    Ok (ALiteralL (AKByteString dt) h res)).
Definition de_text : sv -> outcome unit alayout :=
  de_layout_struct "string" ["pattern"; "resource"; "datatype"]%string (fun o h =>
    let* pat := f_option o "pattern" de_regexp in
    let* res := f_option o "resource" de_pattern in
    let* dt := f_option o "datatype" de_iri in
    Ok (ALiteralL (AKTextString pat dt) h res)).
Definition de_id : sv -> outcome unit alayout :=
  de_layout_struct "id" ["pattern"; "resource"]%string (fun o h =>
    let* pat := f_option o "pattern" de_regexp in
    let* res := f_option o "resource" de_pattern in
    Ok (ALiteralL (AKId pat) h res)).

(** The other layouts; [nested] reads the nested layouts. *)
Section Nested.
Context (nested : sv -> outcome unit alayout).

(** [LayoutRef] — layouts/src/abs/syntax/layout/mod.rs 266-271. *)
Definition de_ref : sv -> outcome unit (alayout_ref alayout) :=
  untagged [variant_of RefIri de_iri; variant_of RefLayout nested].

(** [ValueFormat] — layouts/src/abs/syntax/mod.rs 498-508, and [VariantFormat] — syntax/layout/sum.rs
    204-214; [default] is the variable of the default input. *)
Definition de_format_struct (default : string) (s : sv) : outcome unit (aformat alayout) :=
  let* o := de_struct true ["layout"; "input"; "graph"]%string s in
  let* layout := f_require o "layout" de_ref in
  let* input := f_default o "input" (de_one_or_many de_pattern) [AVar default] in
  let* graph := f_option o "graph" (de_option de_pattern) in
  Ok (AFormat layout input graph).

(** [ValueFormatOrLayout] — layouts/src/abs/syntax/mod.rs 445-450, and [VariantFormatOrLayout] —
    syntax/layout/sum.rs 151-156. *)
Definition de_format (default : string) : sv -> outcome unit (aformat alayout) :=
  untagged [de_format_struct default; variant_of AFormatLayout de_ref].

(** [ListItem] — layouts/src/abs/syntax/layout/list.rs 405-418. *)
Definition de_item (s : sv) : outcome unit (aitem alayout) :=
  let* o := de_struct true ["intro"; "value"; "dataset"; "property"]%string s in
  let* intro := f_default o "intro" (de_one_or_many de_string) ["value"%string] in
  let* v := f_require o "value" (de_format "value") in
  let* ds := f_default o "dataset" de_dataset [] in
  let* property := f_option o "property" de_pattern in
  Ok (AItem intro v ds property).

(** [Field] — layouts/src/abs/syntax/layout/product.rs 135-151. *)
Definition de_field (s : sv) : outcome unit (afield alayout) :=
  let* o := de_struct true ["intro"; "value"; "dataset"; "property"; "required"]%string s in
  let* intro := f_default o "intro" (de_one_or_many de_string) ["value"%string] in
  let* v := f_require o "value" (de_format "value") in
  let* ds := f_default o "dataset" de_dataset [] in
  let* property := f_option o "property" de_pattern in
  let* required := f_default o "required" de_bool false in
  Ok (AField (AItem intro v ds property) required).

(** [Variant] — layouts/src/abs/syntax/layout/sum.rs 74-84. *)
Definition de_variant (s : sv) : outcome unit (avariant alayout) :=
  let* o := de_struct true ["intro"; "value"; "dataset"]%string s in
  let* intro := f_default o "intro" (de_one_or_many de_string) [] in
  let* v := f_require o "value" (de_format "self") in
  let* ds := f_default o "dataset" de_dataset [] in
  Ok (AVariant intro v ds).

(** [ListNode] — layouts/src/abs/syntax/layout/list.rs 238-261. *)
Definition de_node_struct (s : sv) : outcome unit (anode alayout) :=
  let* o := de_struct true ["head"; "rest"; "intro"; "value"; "dataset"]%string s in
  let* head := f_default o "head" de_string "head"%string in
  let* rest := f_default o "rest" de_string "rest"%string in
  let* intro := f_default o "intro" (de_one_or_many de_string) ["value"%string] in
  let* v := f_require o "value" (de_format "value") in
  let* ds := f_option o "dataset" de_dataset in
  Ok (ANode head rest intro v ds).

(** [ListNodeOrLayout] — layouts/src/abs/syntax/layout/list.rs 148-153. *)
Definition de_node : sv -> outcome unit (anode alayout) :=
  untagged [de_node_struct; variant_of ANodeLayout de_ref].

(** [ProductLayout] — layouts/src/abs/syntax/layout/product.rs 19-30. *)
Definition de_product : sv -> outcome unit alayout :=
  de_layout_struct "record" ["fields"]%string (fun o h =>
    let* fs := f_default o "fields" (de_btreemap (value_deserialize from_f64) de_field) [] in
    Ok (AProduct h fs)).

(** [SumLayout] — layouts/src/abs/syntax/layout/sum.rs 16-27. *)
Definition de_sum : sv -> outcome unit alayout :=
  de_layout_struct "sum" ["variants"]%string (fun o h =>
    let* vs := f_default o "variants" (de_btreemap de_string de_variant) [] in
    Ok (ASum h vs)).

(** [OrderedListLayout] — layouts/src/abs/syntax/layout/list.rs 89-111. *)
Definition de_ordered : sv -> outcome unit alayout :=
  de_layout_struct "list" ["node"; "head"; "tail"]%string (fun o h =>
    let* node := f_require o "node" de_node in
    let* head := f_default o "head" de_pattern (AVar "self") in
    let* tail := f_default o "tail" de_pattern (AIri (rdf "nil")) in
    Ok (AOrdered h node head tail)).

(** [UnorderedListLayout] — layouts/src/abs/syntax/layout/list.rs 362-372. *)
Definition de_unordered : sv -> outcome unit alayout :=
  de_layout_struct "set" ["item"]%string (fun o h =>
    let* item := f_require o "item" de_item in
    Ok (AUnordered h item)).

(** [SizedListLayout] — layouts/src/abs/syntax/layout/list.rs 525-536. *)
Definition de_sized : sv -> outcome unit alayout :=
  de_layout_struct "tuple" ["items"]%string (fun o h =>
    let* items := f_default o "items" (de_vec de_item) [] in
    Ok (ASized h items)).

(** [UnionLayout] — layouts/src/abs/syntax/layout/union.rs 12-20, and [IntersectionLayout] —
    syntax/layout/intersection.rs 12-20. *)
Definition de_union : sv -> outcome unit alayout :=
  de_layout_struct "union" [] (fun _ h => Ok (AUnion h)).
Definition de_intersection : sv -> outcome unit alayout :=
  de_layout_struct "intersection" [] (fun _ h => Ok (AIntersection h)).

(** [Layout] — layouts/src/abs/syntax/layout/mod.rs 44-96, with the untagged enumerations
    [LiteralLayout], [DataLayout] (layout/literal.rs 21-26, 87-95) and [ListLayout] (layout/list.rs
    18-24) in their places. *)
Definition de_body : sv -> outcome unit alayout :=
  untagged [de_unit; de_boolean; de_number; de_bytes; de_text; de_id; de_product; de_sum; de_ordered;
            de_unordered; de_sized; variant_of ABool de_bool; de_union; de_intersection].
End Nested.

(** [Layout::deserialize]: the recursion follows the nesting of the value, bounded by [fuel]. *)
Fixpoint de_layout (fuel : nat) (s : sv) : outcome unit alayout :=
  match fuel with
  | 0 => OutOfFuel
  | S fuel => de_body (de_layout fuel) s
  end.
Definition layout_deserialize (s : sv) : outcome unit alayout := de_layout (sv_size s) s.
End Read.

(** ** Writing *)

Section Write.
Context {TP : TextPrint} {F : Type} (to_f64 : Qc -> F).
Notation sv := (serde_value F).

(** [OneOrMany] — layouts/src/abs/syntax/mod.rs 379-384.  The model does not keep whether a list of one
    element is a [One] or a [Many]: [many] tells which, given what its element is written as. *)
Variable many : sv -> bool.
Definition ser_one_or_many (l : list sv) : sv :=
  match l with
  | [s] => if many s then SSeq [s] else s
  | l => SSeq l
  end.

(** An entry; an entry left out when a condition holds ([skip_serializing_if]); an [Option] left out
    when it is [None]. *)
Definition entry (key : string) (s : sv) : list (sv * sv) := [(SStr key, s)].
Definition entry_unless (skip : bool) (key : string) (s : sv) : list (sv * sv) :=
  if skip then [] else entry key s.
Definition entry_some {T} (key : string) (ser : T -> sv) (t : option T) : list (sv * sv) :=
  match t with Some t => entry key (ser t) | None => [] end.
Definition ser_option {T} (ser : T -> sv) (t : option T) : sv :=
  match t with Some t => ser t | None => SUnit end.
Definition is_nil {T} (l : list T) : bool := match l with [] => true | _ => false end.

(** [Pattern] — layouts/src/abs/syntax/pattern/mod.rs 102-113, with [LiteralValue], [LiteralType],
    [LiteralTypeIri] and [LiteralTypeLanguage] (pattern/literal.rs 9-17, 57-64, 94-104, 112-117). *)
Definition ser_literal_type (ty : alit_type) : list (sv * sv) :=
  match ty with
  | ATypeIri ty => entry_unless (String.eqb ty xsd_string) "type" (SStr ty)
  | ATypeLang tag => entry "language" (SStr tag)
  end.
Definition ser_pattern (p : apattern) : sv :=
  match p with
  | AVar name => SStr ("_:" ++ name)
  | AIri iri => SStr iri
  | ALiteral v ty => SMap (entry "value" (SStr v) ++ ser_literal_type ty)
  end.

(** [Quad] and [Dataset] — layouts/src/abs/syntax/dataset.rs 6-8, 50-56. *)
Definition ser_quad (q : quad apattern) : sv :=
  SSeq ([ser_pattern (q_s q); ser_pattern (q_p q); ser_pattern (q_o q)] ++
        match q_g q with Some g => [ser_pattern g] | None => [] end).
Definition ser_dataset (ds : list (quad apattern)) : sv := SSeq (map ser_quad ds).

(** [Resource] and [TypedString] — layouts/src/abs/syntax/resource.rs 11-25, 90-99. *)
Definition ser_resource (r : aresource) : sv :=
  match r with
  | ABoolean b => SBool b
  | ANumber z => SI64 z
  | AString s => SStr s
  | ATypedString v ty => SMap (entry "value" (SStr v) ++ entry "type" (SStr ty))
  end.

(** [RegExp] — layouts/src/abs/regexp.rs 586-593. *)
Definition ser_regexp (e : regexp) : sv := SStr (text_of (re_display e)).

(** The default of a list of one name or pattern — [is_default] in layouts/src/abs/syntax/layout/mod.rs
    359-362, 524-527, syntax/mod.rs 549-552, syntax/layout/sum.rs 291-294. *)
Definition is_name (name : string) (l : list string) : bool :=
  match l with [n] => String.eqb n name | _ => false end.
Definition is_variable (name : string) (l : list apattern) : bool :=
  match l with [AVar n] => String.eqb n name | _ => false end.

Definition ser_strings (l : list string) : sv := ser_one_or_many (map SStr l).
Definition ser_patterns (l : list apattern) : sv := ser_one_or_many (map ser_pattern l).

(** [LayoutHeader] — layouts/src/abs/syntax/layout/mod.rs 389-412. *)
Definition ser_header (h : aheader) : list (sv * sv) :=
  entry_some "base" SStr (ah_base h) ++
  entry_unless (is_nil (ah_prefixes h)) "prefixes"
    (SMap (map (fun e : string * compact_iri => (SStr (fst e), SStr (snd e))) (ah_prefixes h))) ++
  entry_some "id" SStr (ah_id h) ++
  entry_unless (is_name "self" (ah_input h)) "input" (ser_strings (ah_input h)) ++
  entry_unless (is_nil (ah_intro h)) "intro" (ser_strings (ah_intro h)) ++
  entry_unless (is_nil (ah_dataset h)) "dataset" (ser_dataset (ah_dataset h)) ++
  entry_unless (is_nil (ah_extra h)) "extra"
    (SMap (map (fun e : compact_iri * aresource => (SStr (fst e), ser_resource (snd e))) (ah_extra h))).

(** A layout: its type, its header and its own fields. *)
Definition ser_layout_struct (type : string) (h : aheader) (own : list (sv * sv)) : sv :=
  SMap (entry "type" (SStr type) ++ ser_header h ++ own).

(** The fields of the literal layouts — layouts/src/abs/syntax/layout/literal.rs 247-260, 340-351,
    409-420, 478-494, 559-571: an absent resource is written. *)
Definition ser_literal (k : aliteral_kind) (h : aheader) (res : option apattern) : sv :=
  let resource := entry "resource" (ser_option ser_pattern res) in
  match k with
  | AKBoolean dt => ser_layout_struct "boolean" h (resource ++ entry_some "datatype" SStr dt)
  | AKNumber dt => ser_layout_struct "number" h (resource ++ entry "datatype" (SStr dt))
  | AKByteString dt => ser_layout_struct "bytes" h (resource ++ entry "datatype" (SStr dt))
  | AKTextString pat dt =>
      ser_layout_struct "string" h
        (entry_some "pattern" ser_regexp pat ++ resource ++ entry_some "datatype" SStr dt)
  | AKId pat => ser_layout_struct "id" h (entry_some "pattern" ser_regexp pat ++ resource)
  end.

(** The parts of the other layouts; [nested] writes the nested layouts. *)
Section Nested.
Context {L : Type} (nested : L -> outcome Empty_set sv).

Definition ser_ref (r : alayout_ref L) : outcome Empty_set sv :=
  match r with
  | RefIri iri => Ok (SStr iri)
  | RefLayout l => nested l
  end.

Definition ser_format (default : string) (f : aformat L) : outcome Empty_set sv :=
  match f with
  | AFormat layout input graph =>
      let* layout := ser_ref layout in
      Ok (SMap (entry "layout" layout ++
                entry_unless (is_variable default input) "input" (ser_patterns input) ++
                entry_some "graph" (ser_option ser_pattern) graph))
  | AFormatLayout layout => ser_ref layout
  end.

(** The fields common to [ListItem] (syntax/layout/list.rs 405-418) and [Field] (syntax/layout/product.rs 135-151). *)
Definition ser_item_fields (it : aitem L) : outcome Empty_set (list (sv * sv)) :=
  let* v := ser_format "value" (ai_value it) in
  Ok (entry_unless (is_name "value" (ai_intro it)) "intro" (ser_strings (ai_intro it)) ++
      entry "value" v ++
      entry_unless (is_nil (ai_dataset it)) "dataset" (ser_dataset (ai_dataset it)) ++
      entry_some "property" ser_pattern (ai_property it)).
Definition ser_item (it : aitem L) : outcome Empty_set sv :=
  let* m := ser_item_fields it in Ok (SMap m).
Definition ser_field (f : afield L) : outcome Empty_set sv :=
  let* m := ser_item_fields (af_item f) in
  Ok (SMap (m ++ entry_unless (negb (af_required f)) "required" (SBool (af_required f)))).
Definition ser_variant (v : avariant L) : outcome Empty_set sv :=
  let* f := ser_format "self" (av_value v) in
  Ok (SMap (entry_unless (is_nil (av_intro v)) "intro" (ser_strings (av_intro v)) ++
            entry "value" f ++
            entry_unless (is_nil (av_dataset v)) "dataset" (ser_dataset (av_dataset v)))).
Definition ser_node (n : anode L) : outcome Empty_set sv :=
  match n with
  | ANode head rest intro v ds =>
      let* v := ser_format "value" v in
      Ok (SMap (entry_unless (String.eqb head "head") "head" (SStr head) ++
                entry_unless (String.eqb rest "rest") "rest" (SStr rest) ++
                entry_unless (is_name "value" intro) "intro" (ser_strings intro) ++
                entry "value" v ++
                entry_some "dataset" ser_dataset ds))
  | ANodeLayout layout => ser_ref layout
  end.
End Nested.

(** [Pattern::is_default_head], [is_default_tail] — layouts/src/abs/syntax/pattern/mod.rs 36-52;
    [Value::is_unit] — layouts/src/value/mod.rs 316-318. *)
Definition is_default_head (p : apattern) : bool :=
  match p with AVar x => String.eqb x "self" | _ => false end.
Definition is_default_tail (p : apattern) : bool :=
  match p with AIri i => String.eqb i (rdf "nil") | _ => false end.
Definition is_unit (v : value) : bool := match v with VLit LUnit => true | _ => false end.

(** [Layout::serialize]: the structures read by [de_body], in the order of their fields. *)
Fixpoint layout_serialize (l : alayout) : outcome Empty_set sv :=
  match l with
  | AUnit h const =>
      let* c := value_serialize to_f64 const in
      Ok (ser_layout_struct "unit" h (entry_unless (is_unit const) "const" c))
  | ALiteralL k h res => Ok (ser_literal k h res)
  | AProduct h fs =>
      let* fs := traverse (fun f : value * afield alayout =>
                   let* k := value_serialize to_f64 (fst f) in
                   let* v := ser_field layout_serialize (snd f) in Ok (k, v)) fs in
      Ok (ser_layout_struct "record" h (entry_unless (is_nil fs) "fields" (SMap fs)))
  | ASum h vs =>
      let* vs := traverse (fun v : string * avariant alayout =>
                   let* s := ser_variant layout_serialize (snd v) in Ok (SStr (fst v), s)) vs in
      Ok (ser_layout_struct "sum" h (entry_unless (is_nil vs) "variants" (SMap vs)))
  | AOrdered h node head tail =>
      let* n := ser_node layout_serialize node in
      Ok (ser_layout_struct "list" h
            (entry "node" n ++
             entry_unless (is_default_head head) "head" (ser_pattern head) ++
             entry_unless (is_default_tail tail) "tail" (ser_pattern tail)))
  | AUnordered h it =>
      let* i := ser_item layout_serialize it in
      Ok (ser_layout_struct "set" h (entry "item" i))
  | ASized h its =>
      let* is := traverse (ser_item layout_serialize) its in
      Ok (ser_layout_struct "tuple" h (entry_unless (is_nil is) "items" (SSeq is)))
  | ABool b => Ok (SBool b)
  | AUnion h => Ok (ser_layout_struct "union" h [])
  | AIntersection h => Ok (ser_layout_struct "intersection" h [])
  end.
End Write.

(** ** JSON (external crate [serde_json]) *)

Section Json.
Context {F : Type}.
(** The feature [arbitrary_precision] of [serde_json], which the workspace selects (Cargo.toml 44) and
    the crate of the layouts does not (layouts/Cargo.toml 33). *)
Variable arbitrary_precision : bool.
(** The float nearest to a number ([None]: out of range). *)
Variable json_float : string -> option F.
Notation sv := (serde_value F).

(** A number: a machine integer if it is written as one and fits, a float otherwise. With the feature,
    a map with a reserved key. *)
Definition json_number_serde (s : string) : outcome unit sv :=
  let float := match json_float s with Some f => Ok (SF64 f) | None => Err tt end in
  if arbitrary_precision then Ok (SMap [(SStr "$serde_json::private::Number", SStr s)])
  else
    match s with
    | String "-" s' =>
        match parse_digits s' with
        | Some n => if ((0 <? n) && (n <=? 2 ^ 63))%Z then Ok (SI64 (- n)) else float
        | None => float
        end
    | s =>
        match parse_digits s with
        | Some n => if (n <? 2 ^ 64)%Z then Ok (SU64 n) else float
        | None => float
        end
    end.

(** What [serde_json] presents for a document. *)
Fixpoint json_serde (j : json) : outcome unit sv :=
  match j with
  | JNull => Ok SUnit
  | JBool b => Ok (SBool b)
  | JNum s => json_number_serde s
  | JStr s => Ok (SStr s)
  | JArr l => let* l := traverse json_serde l in Ok (SSeq l)
  | JObj o =>
      let* m := traverse (fun e : string * json =>
                  let* s := json_serde (snd e) in Ok (SStr (fst e), s)) o in
      Ok (SMap m)
  end.
End Json.
