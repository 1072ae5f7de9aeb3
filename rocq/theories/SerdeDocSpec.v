(** * Specification of the layout documents read with serde

    A grammar of what is read, without the functions that read it, to be compared with the grammar of the JSON reader ([AbsJsonSpec.v]): a
    structure may also be given as the sequence of its fields, [null] is an absent optional field, [true] and [false] are layouts wherever a
    layout is expected, and the literals have other rules. *)

From Coq Require Import String Ascii List Bool Arith NArith ZArith QArith Qcanon.
Import ListNotations.
From Verif Require Import Base Orders PatternModel ValueModel LayoutModel NumberModel HydrateModel JsonModel
  RegexpModel AbsModel AbsJsonModel AbsSerdeModel.
Open Scope list_scope.
Open Scope string_scope.

Section Structures.
Context {F : Type}.
Notation sv := (serde_value F).
Notation object := (list (string * sv)).

(** A map whose keys are texts. *)
Definition text_map (o : object) : sv := SMap (map (fun e => (SStr (fst e), snd e)) o).

(** The fields of a structure: a map with known keys, none given twice, or a sequence that gives the first fields, in order. *)
Inductive struct_doc (names : list string) : sv -> object -> Prop :=
| StructMap o : NoDup (map fst o) -> (forall k, In k (map fst o) -> In k names) -> struct_doc names (text_map o) o
| StructSeq l : length l <= length names -> struct_doc names (SSeq l) (combine names l).

(** The field [k] describes [x]; it may be absent when [x] is the default; an optional field may be [null]. *)
Definition given {T} (o : object) (k : string) (D : sv -> T -> Prop) (x : T) : Prop := exists s, In (k, s) o /\ D s x.
Definition given_or {T} (o : object) (k : string) (D : sv -> T -> Prop) (default x : T) : Prop :=
  given o k D x \/ (~ In k (map fst o) /\ x = default).
Definition given_opt {T} (o : object) (k : string) (D : sv -> T -> Prop) (x : option T) : Prop :=
  match x with
  | Some x => exists s, In (k, s) o /\ s <> SUnit /\ D s x
  | None => ~ In k (map fst o) \/ In (k, SUnit) o
  end.
(** The key is not repeated. *)
Definition unrepeated (o : object) (k : string) : Prop := count_occ string_dec (map fst o) k <= 1.

Definition string_sdoc (s : sv) (t : string) : Prop := s = SStr t.
Definition bool_sdoc (s : sv) (b : bool) : Prop := s = SBool b.
Definition seq_sdoc {T} (D : sv -> T -> Prop) (s : sv) (l : list T) : Prop := exists ss, s = SSeq ss /\ Forall2 D ss l.
Definition one_or_many_sdoc {T} (D : sv -> T -> Prop) (s : sv) (l : list T) : Prop := seq_sdoc D s l \/ exists x, l = [x] /\ D s x.
Definition map_sdoc {K V} {CK : Cmp K} (DK : sv -> K -> Prop) (D : sv -> V -> Prop) (s : sv) (m : list (K * V)) : Prop :=
  exists e raw, s = SMap e /\ Forall2 (fun (x : sv * sv) (kv : K * V) => DK (fst x) (fst kv) /\ D (snd x) (snd kv)) e raw /\ m = bt_collect raw.
End Structures.

Section Docs.
Context {TS : TextSyntax} {F : Type} (from_f64 : F -> option Qc).
Notation sv := (serde_value F).
Notation object := (list (string * sv)).

Definition iri_sdoc (s : sv) (i : compact_iri) : Prop := s = SStr i /\ is_iri_ref i = true.
Definition lang_sdoc (s : sv) (t : string) : Prop := s = SStr t /\ is_lang_tag t = true.

(** The type of a literal is [xsd:string] by default, its other entries are ignored: the language is only looked at when the type that is given
    is wrong. *)
Inductive pattern_sdoc : sv -> apattern -> Prop :=
| SPatternVar s name : blank_suffix s = Some name -> pattern_sdoc (SStr s) (AVar name)
| SPatternIri s : blank_suffix s = None -> is_iri_ref s = true -> pattern_sdoc (SStr s) (AIri s)
| SPatternTyped o v ty : unrepeated o "value" -> given o "value" string_sdoc v -> unrepeated o "type" -> given o "type" iri_sdoc ty ->
    pattern_sdoc (text_map o) (ALiteral v (ATypeIri ty))
| SPatternString o v : unrepeated o "value" -> given o "value" string_sdoc v -> ~ In "type" (map fst o) ->
    pattern_sdoc (text_map o) (ALiteral v (ATypeIri xsd_string))
| SPatternLang o v tag : unrepeated o "value" -> given o "value" string_sdoc v ->
    In "type" (map fst o) -> ~ (unrepeated o "type" /\ exists ty, given o "type" iri_sdoc ty) ->
    unrepeated o "language" -> given o "language" lang_sdoc tag ->
    pattern_sdoc (text_map o) (ALiteral v (ATypeLang tag)).

Inductive quad_sdoc : sv -> quad apattern -> Prop :=
| SQuadDefault js jp jo s p o g : pattern_sdoc js s -> pattern_sdoc jp p -> pattern_sdoc jo o -> g = [] \/ g = [SUnit] ->
    quad_sdoc (SSeq (js :: jp :: jo :: g)) (Quad s p o None)
| SQuadNamed js jp jo jg s p o g : pattern_sdoc js s -> pattern_sdoc jp p -> pattern_sdoc jo o -> pattern_sdoc jg g ->
    quad_sdoc (SSeq [js; jp; jo; jg]) (Quad s p o (Some g)).
Definition dataset_sdoc : sv -> list (quad apattern) -> Prop := seq_sdoc quad_sdoc.

(** A text with a type: its other entries are ignored. *)
Inductive resource_sdoc : sv -> aresource -> Prop :=
| SResBool b : resource_sdoc (SBool b) (ABoolean b)
| SResInt s z : s = SU64 z \/ s = SI64 z -> (- 2 ^ 63 <= z < 2 ^ 63)%Z -> resource_sdoc s (ANumber z)
| SResString t : resource_sdoc (SStr t) (AString t)
| SResTyped o v ty : unrepeated o "value" -> given o "value" string_sdoc v -> unrepeated o "type" -> given o "type" iri_sdoc ty ->
    resource_sdoc (text_map o) (ATypedString v ty)
| SResSeq v ty : is_iri_ref ty = true -> resource_sdoc (SSeq [SStr v; SStr ty]) (ATypedString v ty).

(** Regular expressions (C41-C43) and constants (C68). *)
Definition regexp_sdoc (s : sv) (e : regexp) : Prop := exists t, s = SStr t /\ re_parse (chars t) = Ok e.
Definition const_sdoc (s : sv) (v : value) : Prop := value_deserialize from_f64 s = Ok v.

Definition header_sdoc (o : object) (h : aheader) : Prop :=
  given_opt o "base" iri_sdoc (ah_base h) /\
  given_or o "prefixes" (map_sdoc string_sdoc iri_sdoc) [] (ah_prefixes h) /\
  given_opt o "id" iri_sdoc (ah_id h) /\
  given_or o "input" (one_or_many_sdoc string_sdoc) ["self"] (ah_input h) /\
  given_or o "intro" (one_or_many_sdoc string_sdoc) [] (ah_intro h) /\
  given_or o "dataset" dataset_sdoc [] (ah_dataset h) /\
  given_or o "extra" (map_sdoc iri_sdoc resource_sdoc) [] (ah_extra h).

(** The parts of layouts, for documents [D] of the nested layouts. *)
Section Nested.
Context (D : sv -> alayout -> Prop).

Inductive ref_sdoc : sv -> alayout_ref alayout -> Prop :=
| SRefIri i : is_iri_ref i = true -> ref_sdoc (SStr i) (RefIri i)
| SRefLayout s l : D s l -> ref_sdoc s (RefLayout l).

Inductive format_sdoc (default : string) : sv -> aformat alayout -> Prop :=
| SFormatLayout s r : ref_sdoc s r -> format_sdoc default s (AFormatLayout r)
| SFormatStruct s o r input graph : struct_doc ["layout"; "input"; "graph"] s o ->
    given o "layout" ref_sdoc r ->
    given_or o "input" (one_or_many_sdoc pattern_sdoc) [AVar default] input ->
    given_opt o "graph" pattern_sdoc graph ->
    format_sdoc default s (AFormat r input (option_map Some graph)).

Inductive item_sdoc : sv -> aitem alayout -> Prop :=
| SItem s o intro f ds p : struct_doc ["intro"; "value"; "dataset"; "property"] s o ->
    given_or o "intro" (one_or_many_sdoc string_sdoc) ["value"] intro ->
    given o "value" (format_sdoc "value") f ->
    given_or o "dataset" dataset_sdoc [] ds ->
    given_opt o "property" pattern_sdoc p ->
    item_sdoc s (AItem intro f ds p).

Inductive field_sdoc : sv -> afield alayout -> Prop :=
| SField s o intro f ds p req : struct_doc ["intro"; "value"; "dataset"; "property"; "required"] s o ->
    given_or o "intro" (one_or_many_sdoc string_sdoc) ["value"] intro ->
    given o "value" (format_sdoc "value") f ->
    given_or o "dataset" dataset_sdoc [] ds ->
    given_opt o "property" pattern_sdoc p ->
    given_or o "required" bool_sdoc false req ->
    field_sdoc s (AField (AItem intro f ds p) req).

Inductive variant_sdoc : sv -> avariant alayout -> Prop :=
| SVariant s o intro f ds : struct_doc ["intro"; "value"; "dataset"] s o ->
    given_or o "intro" (one_or_many_sdoc string_sdoc) [] intro ->
    given o "value" (format_sdoc "self") f ->
    given_or o "dataset" dataset_sdoc [] ds ->
    variant_sdoc s (AVariant intro f ds).

Inductive node_sdoc : sv -> anode alayout -> Prop :=
| SNodeLayout s r : ref_sdoc s r -> node_sdoc s (ANodeLayout r)
| SNode s o head rest intro f ds : struct_doc ["head"; "rest"; "intro"; "value"; "dataset"] s o ->
    given_or o "head" string_sdoc "head" head ->
    given_or o "rest" string_sdoc "rest" rest ->
    given_or o "intro" (one_or_many_sdoc string_sdoc) ["value"] intro ->
    given o "value" (format_sdoc "value") f ->
    given_opt o "dataset" dataset_sdoc ds ->
    node_sdoc s (ANode head rest intro f ds).
End Nested.

(** The fields of each type of layouts, besides [type] and those of the header. *)
Definition own_fields (ty : string) : list string :=
  match ty with
  | "unit" => ["const"]
  | "boolean" | "number" | "bytes" => ["resource"; "datatype"]
  | "string" => ["pattern"; "resource"; "datatype"]
  | "id" => ["pattern"; "resource"]
  | "record" => ["fields"]
  | "sum" => ["variants"]
  | "list" => ["node"; "head"; "tail"]
  | "set" => ["item"]
  | "tuple" => ["items"]
  | _ => []
  end.

(** A layout is a map, with its type. *)
Definition layout_map (ty : string) (s : sv) (o : object) (h : aheader) : Prop :=
  s = text_map o /\ NoDup (map fst o) /\
  (forall k, In k (map fst o) -> k = "type" \/ In k ["base"; "prefixes"; "id"; "input"; "intro"; "dataset"; "extra"] \/ In k (own_fields ty)) /\
  In ("type", SStr ty) o /\ header_sdoc o h.

Inductive layout_sdoc : sv -> alayout -> Prop :=
| SBoolLayout b : layout_sdoc (SBool b) (ABool b)
| SUnitLayout s o h c : layout_map "unit" s o h -> given_or o "const" const_sdoc (VLit LUnit) c -> layout_sdoc s (AUnit h c)
| SBooleanLayout s o h res dt : layout_map "boolean" s o h -> given_opt o "resource" pattern_sdoc res -> given_opt o "datatype" iri_sdoc dt ->
    layout_sdoc s (ALiteralL (AKBoolean dt) h res)
| SNumberLayout s o h res dt : layout_map "number" s o h -> given_opt o "resource" pattern_sdoc res -> given o "datatype" iri_sdoc dt ->
    layout_sdoc s (ALiteralL (AKNumber dt) h res)
| SBytesLayout s o h res dt : layout_map "bytes" s o h -> given_opt o "resource" pattern_sdoc res -> given o "datatype" iri_sdoc dt ->
    layout_sdoc s (ALiteralL (AKByteString dt) h res)
| STextLayout s o h pat res dt : layout_map "string" s o h -> given_opt o "pattern" regexp_sdoc pat -> given_opt o "resource" pattern_sdoc res ->
    given_opt o "datatype" iri_sdoc dt -> layout_sdoc s (ALiteralL (AKTextString pat dt) h res)
| SIdLayout s o h pat res : layout_map "id" s o h -> given_opt o "pattern" regexp_sdoc pat -> given_opt o "resource" pattern_sdoc res ->
    layout_sdoc s (ALiteralL (AKId pat) h res)
| SRecordLayout s o h fs : layout_map "record" s o h -> given_or o "fields" (map_sdoc const_sdoc (field_sdoc layout_sdoc)) [] fs ->
    layout_sdoc s (AProduct h fs)
| SSumLayout s o h vs : layout_map "sum" s o h -> given_or o "variants" (map_sdoc string_sdoc (variant_sdoc layout_sdoc)) [] vs ->
    layout_sdoc s (ASum h vs)
| SListLayout s o h node head tail : layout_map "list" s o h -> given o "node" (node_sdoc layout_sdoc) node ->
    given_or o "head" pattern_sdoc (AVar "self") head -> given_or o "tail" pattern_sdoc (AIri (rdf "nil")) tail ->
    layout_sdoc s (AOrdered h node head tail)
| SSetLayout s o h item : layout_map "set" s o h -> given o "item" (item_sdoc layout_sdoc) item -> layout_sdoc s (AUnordered h item)
| STupleLayout s o h items : layout_map "tuple" s o h -> given_or o "items" (seq_sdoc (item_sdoc layout_sdoc)) [] items ->
    layout_sdoc s (ASized h items)
| SUnionLayout s o h : layout_map "union" s o h -> layout_sdoc s (AUnion h)
| SIntersectionLayout s o h : layout_map "intersection" s o h -> layout_sdoc s (AIntersection h).
End Docs.
