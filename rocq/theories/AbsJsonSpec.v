(** * Specification of layout documents: which JSON documents describe which layouts

    A grammar of the documents, without the functions that read them. *)

From Coq Require Import String Ascii List Bool Arith NArith ZArith.
Import ListNotations.
From Verif Require Import Base Orders PatternModel ValueModel LayoutModel NumberModel NumberSpec
  JsonModel RegexpModel AbsModel AbsJsonModel.
Open Scope list_scope.
Open Scope string_scope.

(** The entries of an object are known, none is given twice, and the required ones are given. *)
Definition well_keyed (required optional : list string) (o : object) : Prop :=
  NoDup (map fst o) /\
  (forall k, In k (map fst o) -> In k required \/ In k optional) /\
  (forall k, In k required -> In k (map fst o)).

(** The entry [k] describes [x]; it may be absent when [x] is the default. *)
Definition has {T} (o : object) (k : string) (D : json -> T -> Prop) (x : T) : Prop :=
  exists j, In (k, j) o /\ D j x.
Definition has_or {T} (o : object) (k : string) (D : json -> T -> Prop) (default x : T) : Prop :=
  has o k D x \/ (~ In k (map fst o) /\ x = default).
Definition has_opt {T} (o : object) (k : string) (D : json -> T -> Prop) (x : option T) : Prop :=
  match x with
  | Some x => has o k D x
  | None => ~ In k (map fst o)
  end.

(** ** Texts, sequences and maps *)

Definition string_doc (j : json) (s : string) : Prop := j = JStr s.
Definition bool_doc (j : json) (b : bool) : Prop := j = JBool b.

Definition array_doc {T} (D : json -> T -> Prop) (j : json) (l : list T) : Prop :=
  exists js, j = JArr js /\ Forall2 D js l.

(** A single element, or an array of elements. *)
Definition one_or_many_doc {T} (D : json -> T -> Prop) (j : json) (l : list T) : Prop :=
  array_doc D j l \/ ((forall js, j <> JArr js) /\ exists x, l = [x] /\ D j x).

(** An object read as a map: of the entries with the same key only the last remains. *)
Definition map_doc {K V} {CK : Cmp K} (DK : string -> K -> Prop) (D : json -> V -> Prop) (j : json)
    (m : list (K * V)) : Prop :=
  exists o raw, j = JObj o /\
    Forall2 (fun (e : string * json) (kv : K * V) => DK (fst e) (fst kv) /\ D (snd e) (snd kv)) o raw /\
    m = bt_collect raw.

(** The integer [z] written in decimal. *)
Definition integer_text (s : string) (z : Z) : Prop :=
  exists ds, digits ds /\ ds <> [] /\
    ((s = digits_text ds /\ z = digits_value ds) \/
     (s = String "+" (digits_text ds) /\ z = digits_value ds) \/
     (s = String "-" (digits_text ds) /\ z = (- digits_value ds)%Z)).

Section Docs.
Context {TS : TextSyntax}.

(** ** Leaves *)

Definition key_iri (s : string) (i : compact_iri) : Prop := i = s /\ is_iri_ref s = true.
Definition iri_doc (j : json) (i : compact_iri) : Prop := j = JStr i /\ is_iri_ref i = true.

(** A variable is written as a blank node identifier; a literal has a type or a language. *)
Inductive pattern_doc : json -> apattern -> Prop :=
| PatternVar s name : blank_suffix s = Some name -> pattern_doc (JStr s) (AVar name)
| PatternIri s : blank_suffix s = None -> is_iri_ref s = true -> pattern_doc (JStr s) (AIri s)
| PatternTyped o v ty :
    well_keyed ["value"; "type"] [] o -> has o "value" string_doc v -> has o "type" iri_doc ty ->
    pattern_doc (JObj o) (ALiteral v (ATypeIri ty))
| PatternLang o v tag :
    well_keyed ["value"; "language"] [] o -> has o "value" string_doc v ->
    has o "language" string_doc tag -> is_lang_tag tag = true ->
    pattern_doc (JObj o) (ALiteral v (ATypeLang tag)).

Inductive quad_doc : json -> quad apattern -> Prop :=
| QuadDefault js jp jo s p o :
    pattern_doc js s -> pattern_doc jp p -> pattern_doc jo o ->
    quad_doc (JArr [js; jp; jo]) (Quad s p o None)
| QuadNamed js jp jo jg s p o g :
    pattern_doc js s -> pattern_doc jp p -> pattern_doc jo o -> pattern_doc jg g ->
    quad_doc (JArr [js; jp; jo; jg]) (Quad s p o (Some g)).

Definition dataset_doc : json -> list (quad apattern) -> Prop := array_doc quad_doc.

(** The values of [extra]: integers of 64 bits. *)
Inductive resource_doc : json -> aresource -> Prop :=
| ResBool b : resource_doc (JBool b) (ABoolean b)
| ResInt n z : integer_text n z -> (- 2 ^ 63 <= z < 2 ^ 63)%Z -> resource_doc (JNum n) (ANumber z)
| ResString s : resource_doc (JStr s) (AString s)
| ResTyped o v ty :
    well_keyed ["value"; "type"] [] o -> has o "value" string_doc v -> has o "type" iri_doc ty ->
    resource_doc (JObj o) (ATypedString v ty).

(** Regular expressions (see C41-C43) and constants (see C67). *)
Definition regexp_doc (j : json) (e : regexp) : Prop :=
  exists s, j = JStr s /\ re_parse (chars s) = Ok e.
Definition const_doc (j : json) (v : value) : Prop := value_from_json j = Ok v.

(** A graph; [null] is the same as no graph. *)
Definition graph_doc (j : json) (g : option (option apattern)) : Prop :=
  (j = JNull /\ g = None) \/ (exists p, j <> JNull /\ pattern_doc j p /\ g = Some (Some p)).

(** ** Layouts *)

Definition header_keys : list string :=
  ["base"; "prefixes"; "id"; "input"; "intro"; "dataset"; "extra"].

Definition header_doc (o : object) (h : aheader) : Prop :=
  has_opt o "base" iri_doc (ah_base h) /\
  has_or o "prefixes" (map_doc eq iri_doc) [] (ah_prefixes h) /\
  has_opt o "id" iri_doc (ah_id h) /\
  has_or o "input" (one_or_many_doc string_doc) ["self"] (ah_input h) /\
  has_or o "intro" (one_or_many_doc string_doc) [] (ah_intro h) /\
  has_or o "dataset" dataset_doc [] (ah_dataset h) /\
  has_or o "extra" (map_doc key_iri resource_doc) [] (ah_extra h).

(** The parts of layouts, for documents [D] of the nested layout objects. *)
Section Nested.
Context (D : object -> alayout -> Prop).

Inductive ref_doc : json -> alayout_ref alayout -> Prop :=
| RefDocIri i : is_iri_ref i = true -> ref_doc (JStr i) (RefIri i)
| RefDocLayout o l : D o l -> ref_doc (JObj o) (RefLayout l).

(** The layout alone, or an object without entry [type]. *)
Inductive format_doc (default : string) : json -> aformat alayout -> Prop :=
| FormatLayout j r :
    ref_doc j r -> (forall o, j = JObj o -> In "type" (map fst o)) ->
    format_doc default j (AFormatLayout r)
| FormatObject o r input graph :
    well_keyed ["layout"] ["input"; "graph"] o ->
    has o "layout" ref_doc r ->
    has_or o "input" (one_or_many_doc pattern_doc) [AVar default] input ->
    has_or o "graph" graph_doc None graph ->
    format_doc default (JObj o) (AFormat r input graph).

Inductive item_doc : json -> aitem alayout -> Prop :=
| ItemObject o intro f ds p :
    well_keyed ["value"] ["intro"; "dataset"; "property"] o ->
    has_or o "intro" (one_or_many_doc string_doc) ["value"] intro ->
    has o "value" (format_doc "value") f ->
    has_or o "dataset" dataset_doc [] ds ->
    has_opt o "property" pattern_doc p ->
    item_doc (JObj o) (AItem intro f ds p).

Inductive field_doc : json -> afield alayout -> Prop :=
| FieldObject o intro f ds p req :
    well_keyed ["value"] ["intro"; "dataset"; "property"; "required"] o ->
    has_or o "intro" (one_or_many_doc string_doc) ["value"] intro ->
    has o "value" (format_doc "value") f ->
    has_or o "dataset" dataset_doc [] ds ->
    has_opt o "property" pattern_doc p ->
    has_or o "required" bool_doc false req ->
    field_doc (JObj o) (AField (AItem intro f ds p) req).

Inductive variant_doc : json -> avariant alayout -> Prop :=
| VariantObject o intro f ds :
    well_keyed ["value"] ["intro"; "dataset"] o ->
    has_or o "intro" (one_or_many_doc string_doc) [] intro ->
    has o "value" (format_doc "self") f ->
    has_or o "dataset" dataset_doc [] ds ->
    variant_doc (JObj o) (AVariant intro f ds).

Inductive node_doc : json -> anode alayout -> Prop :=
| NodeLayout j r :
    ref_doc j r -> (forall o, j = JObj o -> In "type" (map fst o)) -> node_doc j (ANodeLayout r)
| NodeObject o head rest intro f ds :
    well_keyed ["value"] ["head"; "rest"; "intro"; "dataset"] o ->
    has_or o "head" string_doc "head" head ->
    has_or o "rest" string_doc "rest" rest ->
    has_or o "intro" (one_or_many_doc string_doc) ["value"] intro ->
    has o "value" (format_doc "value") f ->
    has_opt o "dataset" dataset_doc ds ->
    node_doc (JObj o) (ANode head rest intro f ds).
End Nested.

(** The entries of each type of layouts, besides [type] and those of the header: required,
    optional. *)
Definition required_keys (ty : string) : list string :=
  match ty with
  | "number" | "bytes" => ["datatype"]
  | "list" => ["node"]
  | "set" => ["item"]
  | _ => []
  end.
Definition optional_keys (ty : string) : list string :=
  match ty with
  | "unit" => ["const"]
  | "boolean" => ["resource"; "datatype"]
  | "number" | "bytes" => ["resource"]
  | "string" => ["pattern"; "resource"; "datatype"]
  | "id" => ["pattern"; "resource"]
  | "record" => ["fields"]
  | "sum" => ["variants"]
  | "list" => ["head"; "tail"]
  | "tuple" => ["items"]
  | _ => []
  end.

(** The type, the entries and the header of a layout object. *)
Definition layout_object (ty : string) (o : object) (h : aheader) : Prop :=
  In ("type", JStr ty) o /\
  well_keyed ("type" :: required_keys ty) (header_keys ++ optional_keys ty) o /\
  header_doc o h.

Inductive object_doc : object -> alayout -> Prop :=
| DocUnit o h c :
    layout_object "unit" o h -> has_or o "const" const_doc (VLit LUnit) c ->
    object_doc o (AUnit h c)
| DocBoolean o h res dt :
    layout_object "boolean" o h -> has_opt o "resource" pattern_doc res ->
    has_opt o "datatype" iri_doc dt -> object_doc o (ALiteralL (AKBoolean dt) h res)
| DocNumber o h res dt :
    layout_object "number" o h -> has_opt o "resource" pattern_doc res ->
    has o "datatype" iri_doc dt -> object_doc o (ALiteralL (AKNumber dt) h res)
| DocBytes o h res dt :
    layout_object "bytes" o h -> has_opt o "resource" pattern_doc res ->
    has o "datatype" iri_doc dt -> object_doc o (ALiteralL (AKByteString dt) h res)
| DocText o h pat res dt :
    layout_object "string" o h -> has_opt o "pattern" regexp_doc pat ->
    has_opt o "resource" pattern_doc res -> has_opt o "datatype" iri_doc dt ->
    object_doc o (ALiteralL (AKTextString pat dt) h res)
| DocId o h pat res :
    layout_object "id" o h -> has_opt o "pattern" regexp_doc pat ->
    has_opt o "resource" pattern_doc res -> object_doc o (ALiteralL (AKId pat) h res)
| DocRecord o h fields :
    layout_object "record" o h ->
    has_or o "fields"
      (map_doc (fun s k => k = VLit (LText s)) (field_doc object_doc)) [] fields ->
    object_doc o (AProduct h fields)
| DocSum o h variants :
    layout_object "sum" o h ->
    has_or o "variants" (map_doc eq (variant_doc object_doc)) [] variants ->
    object_doc o (ASum h variants)
| DocList o h node head tail :
    layout_object "list" o h -> has o "node" (node_doc object_doc) node ->
    has_or o "head" pattern_doc (AVar "self") head ->
    has_or o "tail" pattern_doc (AIri (rdf "nil")) tail ->
    object_doc o (AOrdered h node head tail)
| DocSet o h item :
    layout_object "set" o h -> has o "item" (item_doc object_doc) item ->
    object_doc o (AUnordered h item)
| DocTuple o h items :
    layout_object "tuple" o h -> has_or o "items" (array_doc (item_doc object_doc)) [] items ->
    object_doc o (ASized h items)
| DocUnion o h : layout_object "union" o h -> object_doc o (AUnion h)
| DocIntersection o h : layout_object "intersection" o h -> object_doc o (AIntersection h).

(** Which document describes which layout. *)
Inductive layout_doc : json -> alayout -> Prop :=
| DocBool b : layout_doc (JBool b) (ABool b)
| DocObject o l : object_doc o l -> layout_doc (JObj o) l.
End Docs.

(** [x] is [j] or occurs in it. *)
Inductive inside (x : json) : json -> Prop :=
| InsideHere : inside x x
| InsideItem l j : In j l -> inside x j -> inside x (JArr l)
| InsideEntry o k j : In (k, j) o -> inside x j -> inside x (JObj o).

(** [c] is the value of an entry [const] of an object of [j]. *)
Definition constant_in (c j : json) : Prop := exists o, inside (JObj o) j /\ In ("const", c) o.
