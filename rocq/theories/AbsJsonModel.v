(** * Reading layout documents
      ([TryFromJson] in [layouts/src/abs/syntax/**] and [layouts/src/abs/regexp.rs])

    The positions carried by the errors ([offset], [other_offset]) and the code map are not
    modelled.  The readers of [json_syntax] (external) for the types of the standard library are
    [from_string], [from_bool], [from_vec], [from_btreemap] and [from_option] below. *)

From Coq Require Import String Ascii List Bool Arith NArith ZArith QArith Qcanon.
Import ListNotations.
From Verif Require Import Base Orders PatternModel ValueModel LayoutModel NumberModel JsonModel
  RegexpModel AbsModel.
Open Scope list_scope.
Open Scope nat_scope.

(** [json_syntax::Kind] (external). *)
Inductive json_kind : Type := KdNull | KdBoolean | KdNumber | KdString | KdArray | KdObject.

(** [json_syntax::Value::kind] (external). *)
Definition kind_of (j : json) : json_kind :=
  match j with
  | JNull => KdNull
  | JBool _ => KdBoolean
  | JNum _ => KdNumber
  | JStr _ => KdString
  | JArr _ => KdArray
  | JObj _ => KdObject
  end.

(** [Error] — layouts/src/abs/syntax/mod.rs 21-73; [ExpectedType] (199-203) is a list. *)
Inductive abs_error : Type :=
| Unexpected (expected : list json_kind) (found : json_kind)
| MissingRequiredEntry (key : string)
| DuplicateEntry (key : string)
| UnexpectedEntry (key : string)
| MissingType
| InvalidType (expected : list string) (found : string)
| InvalidRegex (e : parse_error)
| InvalidPattern (s : string)
| InvalidLangTag (s : string)
| InvalidCompactIri (s : string)
| MissingQuadPattern
| TooManyQuadPatterns
| ExpectedInteger (n : string)
| IntegerOverflow (n : string).

(** A JSON object: its entries. *)
Definition object : Type := list (string * json).

(** External: [BlankId::new] with [suffix]; [IriRef::new]; [LangTagBuf::new]; [str::chars]. *)
Class TextSyntax : Type := {
  blank_suffix : string -> option string;
  is_iri_ref : string -> bool;
  is_lang_tag : string -> bool;
  chars : string -> list N
}.

(** ** Entries of an object *)

(** The entries with a given key, with their positions. *)
Fixpoint entries_of (key : string) (o : object) (i : nat) : list (nat * json) :=
  match o with
  | [] => []
  | (k, j) :: o' => if String.eqb k key then (i, j) :: entries_of key o' (S i) else entries_of key o' (S i)
  end.

(** [json_syntax::Object::get_unique_mapped_entry_with_index] (external) with [Error::duplicate]
    (layouts/src/abs/syntax/mod.rs 78-90). *)
Definition get_unique (o : object) (key : string) : outcome abs_error (option (nat * json)) :=
  match entries_of key o 0 with
  | [] => Ok None
  | [e] => Ok (Some e)
  | _ => Err (DuplicateEntry key)
  end.

(** [ObjectUnusedEntries] — layouts/src/abs/syntax/mod.rs 244-247: a flag for each entry. *)
Definition unused_entries : Type := list bool.

(** [ObjectUnusedEntries::new] — layouts/src/abs/syntax/mod.rs 250-260. *)
Definition unused_new (o : object) : unused_entries := map (fun _ => true) o.

(** [ObjectUnusedEntries::remove] — layouts/src/abs/syntax/mod.rs 262-264 (the positions given are
    in the object: the case of an invalid one, a panic, is not represented). *)
Fixpoint unused_remove (i : nat) (u : unused_entries) : unused_entries :=
  match u, i with
  | [], _ => []
  | _ :: u', 0 => false :: u'
  | b :: u', S i' => b :: unused_remove i' u'
  end.

(** [ObjectUnusedEntries::check] — layouts/src/abs/syntax/mod.rs 266-277. *)
Fixpoint unused_check (o : object) (u : unused_entries) : outcome abs_error unit :=
  match o, u with
  | (k, _) :: o', b :: u' => if b then Err (UnexpectedEntry k) else unused_check o' u'
  | _, _ => Ok tt
  end.

(** Computations that use the entries of an object. *)
Definition entries (A : Type) : Type := unused_entries -> outcome abs_error (A * unused_entries).
Definition e_ret {A} (a : A) : entries A := fun u => Ok (a, u).
Definition e_bind {A B} (m : entries A) (k : A -> entries B) : entries B := fun u =>
  let* r := m u in k (fst r) (snd r).

(** [new], the reading of the entries, then [check]. *)
Definition with_entries {A} (o : object) (m : entries A) : outcome abs_error A :=
  let* r := m (unused_new o) in
  let* _ := unused_check o (snd r) in
  Ok (fst r).

(** [get_entry] — layouts/src/abs/syntax/mod.rs 280-304; [parse] is [T::try_from_json_at]. *)
Definition get_entry {T} (o : object) (key : string) (parse : json -> outcome abs_error T)
  : entries (option T) := fun u =>
  let* e := get_unique o key in
  match e with
  | Some (i, j) => let* t := parse j in Ok (Some t, unused_remove i u)
  | None => Ok (None, u)
  end.

(** [get_entry(..)?.unwrap_or_default()] and [.unwrap_or_else(..)]. *)
Definition get_entry_or {T} (o : object) (key : string) (parse : json -> outcome abs_error T)
    (default : T) : entries T :=
  e_bind (get_entry o key parse) (fun t => e_ret (match t with Some t => t | None => default end)).

(** [require_entry] — layouts/src/abs/syntax/mod.rs 306-331. *)
Definition require_entry {T} (o : object) (key : string) (parse : json -> outcome abs_error T)
  : entries T := fun u =>
  let* e := get_unique o key in
  match e with
  | Some (i, j) => let* t := parse j in Ok (t, unused_remove i u)
  | None => Err (MissingRequiredEntry key)
  end.

(** [expect_string] — layouts/src/abs/syntax/mod.rs 233-242; [String::try_from_json_at]
    (external). *)
Definition from_string (j : json) : outcome abs_error string :=
  match j with JStr s => Ok s | j => Err (Unexpected [KdString] (kind_of j)) end.

(** [bool::try_from_json_at] (external). *)
Definition from_bool (j : json) : outcome abs_error bool :=
  match j with JBool b => Ok b | j => Err (Unexpected [KdBoolean] (kind_of j)) end.

(** [Vec::try_from_json_at] (external). *)
Definition from_vec {T} (parse : json -> outcome abs_error T) (j : json)
  : outcome abs_error (list T) :=
  match j with JArr l => traverse parse l | j => Err (Unexpected [KdArray] (kind_of j)) end.

(** [BTreeMap::try_from_json_at] (external): the last of the entries with the same key remains.
    [K]: the keys, read with [from_str]. *)
Definition from_btreemap {K V} {CK : Cmp K} (from_str : string -> outcome abs_error K)
    (parse : json -> outcome abs_error V) (j : json) : outcome abs_error (list (K * V)) :=
  match j with
  | JObj o =>
      let* l := traverse (fun e : string * json =>
                  let* k := from_str (fst e) in let* v := parse (snd e) in Ok (k, v)) o in
      Ok (bt_collect l)
  | j => Err (Unexpected [KdObject] (kind_of j))
  end.

(** [Option::try_from_json_at] (external). *)
Definition from_option {T} (parse : json -> outcome abs_error T) (j : json)
  : outcome abs_error (option T) :=
  match j with JNull => Ok None | j => let* t := parse j in Ok (Some t) end.

(** [expect_object] — layouts/src/abs/syntax/mod.rs 205-217. *)
Definition expect_object (j : json) : outcome abs_error object :=
  match j with JObj o => Ok o | j => Err (Unexpected [KdObject] (kind_of j)) end.

(** [require_type] — layouts/src/abs/syntax/mod.rs 333-358: the position of the entry, and its
    value. *)
Definition require_type (o : object) : outcome abs_error (nat * string) :=
  let* e := get_unique o "type" in
  match e with
  | None => Err MissingType
  | Some (i, JStr s) => Ok (i, s)
  | Some (_, j) => Err (Unexpected [KdString] (kind_of j))
  end.

(** [check_type] — layouts/src/abs/syntax/mod.rs 360-378. *)
Definition check_type (o : object) (expected : string) : entries unit := fun u =>
  let* r := require_type o in
  if String.eqb (snd r) expected then Ok (tt, unused_remove (fst r) u)
  else Err (InvalidType [expected] (snd r)).

(** [OneOrMany::try_from_json_at] — layouts/src/abs/syntax/mod.rs 425-443. *)
Definition one_or_many {T} (parse : json -> outcome abs_error T) (j : json)
  : outcome abs_error (list T) :=
  match j with
  | JArr l => traverse parse l
  | j => let* t := parse j in Ok [t]
  end.

(** [i64::from_str] (external): digits with an optional sign, in range. *)
Definition parse_digits (s : string) : option Z :=
  match span_digits s with
  | ([], _) => None
  | (ds, EmptyString) => Some (number_of ds)
  | _ => None
  end.
Definition parse_i64 (s : string) : option Z :=
  let n :=
    match s with
    | String "-" s' => option_map Z.opp (parse_digits s')
    | String "+" s' => parse_digits s'
    | s => parse_digits s
    end in
  match n with
  | Some n => if ((- 2 ^ 63 <=? n) && (n <? 2 ^ 63))%Z then Some n else None
  | None => None
  end.

(** [str::contains('.')] (external). *)
Fixpoint has_dot (s : string) : bool :=
  match s with EmptyString => false | String c s' => Ascii.eqb c "." || has_dot s' end.

Section Read.
Context {TS : TextSyntax}.

(** [CompactIri::try_from_json_at] — layouts/src/abs/syntax/pattern/compact_iri.rs 62-75, and
    [CompactIri::from_str], 45-54. *)
Definition iri_from_str (s : string) : outcome abs_error compact_iri :=
  if is_iri_ref s then Ok s else Err (InvalidCompactIri s).
Definition iri_from_json (j : json) : outcome abs_error compact_iri :=
  let* s := from_string j in iri_from_str s.

(** [LiteralValue::try_from_json_object_at] — layouts/src/abs/syntax/pattern/literal.rs 20-45. *)
Definition literal_value_from (o : object) : outcome abs_error apattern :=
  with_entries o
    (e_bind (get_entry o "type" iri_from_json) (fun ty =>
     e_bind (match ty with
             | Some ty => e_ret (ATypeIri ty)
             | None =>
                 e_bind (require_entry o "language" from_string) (fun tag => fun u =>
                   if is_lang_tag tag then Ok (ATypeLang tag, u) else Err (InvalidLangTag tag))
             end) (fun ty =>
     e_bind (require_entry o "value" from_string) (fun v =>
     e_ret (ALiteral v ty))))).

(** [Pattern::try_from_json_at] — layouts/src/abs/syntax/pattern/mod.rs 74-98. *)
Definition pattern_from_json (j : json) : outcome abs_error apattern :=
  match j with
  | JStr s =>
      match blank_suffix s with
      | Some name => Ok (AVar name)
      | None => if is_iri_ref s then Ok (AIri s) else Err (InvalidPattern s)
      end
  | JObj o => literal_value_from o
  | j => Err (Unexpected [KdString; KdObject] (kind_of j))
  end.

(** [Quad::try_from_json_at] — layouts/src/abs/syntax/dataset.rs 58-90. *)
Definition quad_from_json (j : json) : outcome abs_error (quad apattern) :=
  match j with
  | JArr (s :: p :: o :: g) =>
      match g with
      | _ :: _ :: _ => Err TooManyQuadPatterns
      | _ =>
          let* s := pattern_from_json s in
          let* p := pattern_from_json p in
          let* o := pattern_from_json o in
          match g with
          | g :: _ => let* g := pattern_from_json g in Ok (Quad s p o (Some g))
          | [] => Ok (Quad s p o None)
          end
      end
  | JArr _ => Err MissingQuadPattern
  | j => Err (Unexpected [KdArray] (kind_of j))
  end.

(** [Dataset::try_from_json_at] — layouts/src/abs/syntax/dataset.rs 22-32. *)
Definition dataset_from_json (j : json) : outcome abs_error (list (quad apattern)) :=
  from_vec quad_from_json j.

(** [TypedString::try_from_json_object_at] — layouts/src/abs/syntax/resource.rs 102-116. *)
Definition typed_string_from (o : object) : outcome abs_error aresource :=
  with_entries o
    (e_bind (require_entry o "value" from_string) (fun v =>
     e_bind (require_entry o "type" iri_from_json) (fun ty =>
     e_ret (ATypedString v ty)))).

(** [Resource::try_from_json_at] — layouts/src/abs/syntax/resource.rs 27-60. *)
Definition resource_from_json (j : json) : outcome abs_error aresource :=
  match j with
  | JBool b => Ok (ABoolean b)
  | JNum n =>
      if has_dot n then Err (ExpectedInteger n)
      else match parse_i64 n with
           | Some z => Ok (ANumber z)
           | None => Err (IntegerOverflow n)
           end
  | JStr s => Ok (AString s)
  | JObj o => typed_string_from o
  | j => Err (Unexpected [KdBoolean; KdNumber; KdString; KdObject] (kind_of j))
  end.

(** [RegExp::try_from_json_at] — layouts/src/abs/regexp.rs 9-20. *)
Definition regexp_from_json (j : json) : outcome abs_error regexp :=
  let* s := from_string j in
  match re_parse (chars s) with
  | Ok e => Ok e
  | Err e => Err (InvalidRegex e)
  | Panic w => Panic w
  | OutOfFuel => OutOfFuel
  end.

(** [Value::try_from_json_at] — layouts/src/value/mod.rs 339-378 (its error type is empty). *)
Definition const_from_json (j : json) : outcome abs_error value := no_error (value_from_json j).

(** [LayoutHeader::try_from_json_object_at] — layouts/src/abs/syntax/layout/mod.rs 415-437, with the
    defaults of [LayoutInput] (365-369).  The map [extra] (468-489) is ordered here by the text of
    its keys. *)
Definition header_from (o : object) : entries aheader :=
  e_bind (get_entry o "base" iri_from_json) (fun base =>
  e_bind (get_entry_or o "prefixes" (from_btreemap (fun s => Ok s) iri_from_json) []) (fun prefixes =>
  e_bind (get_entry o "id" iri_from_json) (fun id =>
  e_bind (get_entry_or o "input" (one_or_many from_string) ["self"%string]) (fun input =>
  e_bind (get_entry_or o "intro" (one_or_many from_string) []) (fun intro =>
  e_bind (get_entry_or o "dataset" dataset_from_json []) (fun dataset =>
  e_bind (get_entry_or o "extra" (from_btreemap iri_from_str resource_from_json) []) (fun extra =>
  e_ret (AHeader base prefixes id input intro dataset extra)))))))).

(** ** Layouts

    [nested] reads a layout object. *)
Section Nested.
Context {L : Type} (nested : object -> outcome abs_error L).

(** [LayoutRef::try_from_json_at] — layouts/src/abs/syntax/layout/mod.rs 273-319. *)
Definition ref_from_json (j : json) : outcome abs_error (alayout_ref L) :=
  match j with
  | JStr s => let* i := iri_from_str s in Ok (RefIri i)
  | JObj o => let* l := nested o in Ok (RefLayout l)
  | j => Err (Unexpected [KdString; KdObject] (kind_of j))
  end.

(** [json_syntax::Object::contains_key] (external). *)
Definition contains_key (o : object) (key : string) : bool :=
  existsb (fun e : string * json => String.eqb (fst e) key) o.

(** [ValueFormat::try_from_json_object_at] — layouts/src/abs/syntax/mod.rs 510-531, and
    [VariantFormat::try_from_json_object_at] — syntax/layout/sum.rs 229-249; [default] is the
    variable of the default input (syntax/layout/mod.rs 534-538, syntax/layout/sum.rs 297-301).  The reader of
    [graph] is [Option<Option<Pattern>>::try_from_json_at]. *)
Definition format_from (default : string) (o : object) : outcome abs_error (aformat L) :=
  with_entries o
    (e_bind (require_entry o "layout" ref_from_json) (fun layout =>
     e_bind (get_entry_or o "input" (one_or_many pattern_from_json) [AVar default]) (fun input =>
     e_bind (get_entry_or o "graph" (from_option (from_option pattern_from_json)) None) (fun graph =>
     e_ret (AFormat layout input graph))))).

(** [ValueFormatOrLayout::try_from_json_at] — layouts/src/abs/syntax/mod.rs 452-478, and
    [VariantFormatOrLayout::try_from_json_at] — syntax/layout/sum.rs 158-184. *)
Definition format_from_json (default : string) (j : json) : outcome abs_error (aformat L) :=
  match j with
  | JStr s => let* i := iri_from_str s in Ok (AFormatLayout (RefIri i))
  | JObj o =>
      if contains_key o "type" then let* l := nested o in Ok (AFormatLayout (RefLayout l))
      else format_from default o
  | j => Err (Unexpected [KdString; KdObject] (kind_of j))
  end.

(** [ListItem::try_from_json_at] — layouts/src/abs/syntax/layout/list.rs 420-454; default of
    [ValueIntro]: syntax/mod.rs 555-559. *)
Definition item_from_json (j : json) : outcome abs_error (aitem L) :=
  let* o := expect_object j in
  with_entries o
    (e_bind (get_entry_or o "intro" (one_or_many from_string) ["value"%string]) (fun intro =>
     e_bind (require_entry o "value" (format_from_json "value")) (fun v =>
     e_bind (get_entry_or o "dataset" dataset_from_json []) (fun ds =>
     e_bind (get_entry o "property" pattern_from_json) (fun property =>
     e_ret (AItem intro v ds property)))))).

(** [Field::try_from_json_at] — layouts/src/abs/syntax/layout/product.rs 153-188. *)
Definition field_from_json (j : json) : outcome abs_error (afield L) :=
  let* o := expect_object j in
  with_entries o
    (e_bind (get_entry_or o "intro" (one_or_many from_string) ["value"%string]) (fun intro =>
     e_bind (require_entry o "value" (format_from_json "value")) (fun v =>
     e_bind (get_entry_or o "dataset" dataset_from_json []) (fun ds =>
     e_bind (get_entry o "property" pattern_from_json) (fun property =>
     e_bind (get_entry_or o "required" from_bool false) (fun required =>
     e_ret (AField (AItem intro v ds property) required))))))).

(** [Variant::try_from_json_at] — layouts/src/abs/syntax/layout/sum.rs 86-119. *)
Definition variant_from_json (j : json) : outcome abs_error (avariant L) :=
  let* o := expect_object j in
  with_entries o
    (e_bind (get_entry_or o "intro" (one_or_many from_string) []) (fun intro =>
     e_bind (require_entry o "value" (format_from_json "self")) (fun v =>
     e_bind (get_entry_or o "dataset" dataset_from_json []) (fun ds =>
     e_ret (AVariant intro v ds))))).

(** [ListNode::try_from_json_object_at] — layouts/src/abs/syntax/layout/list.rs 280-303, 263-273. *)
Definition node_from (o : object) : outcome abs_error (anode L) :=
  with_entries o
    (e_bind (get_entry_or o "head" from_string "head"%string) (fun head =>
     e_bind (get_entry_or o "rest" from_string "rest"%string) (fun rest =>
     e_bind (get_entry_or o "intro" (one_or_many from_string) ["value"%string]) (fun intro =>
     e_bind (require_entry o "value" (format_from_json "value")) (fun v =>
     e_bind (get_entry o "dataset" dataset_from_json) (fun ds =>
     e_ret (ANode head rest intro v ds))))))).

(** [ListNodeOrLayout::try_from_json_at] — layouts/src/abs/syntax/layout/list.rs 155-183. *)
Definition node_from_json (j : json) : outcome abs_error (anode L) :=
  match j with
  | JStr s => let* i := iri_from_str s in Ok (ANodeLayout (RefIri i))
  | JObj o =>
      if contains_key o "type" then let* l := nested o in Ok (ANodeLayout (RefLayout l))
      else node_from o
  | j => Err (Unexpected [KdString; KdObject] (kind_of j))
  end.
End Nested.

(** [type_markers!] — layouts/src/abs/syntax/layout/mod.rs 662-676. *)
Definition layout_types : list string :=
  ["id"; "unit"; "boolean"; "number"; "bytes"; "string"; "record"; "sum"; "list"; "set"; "tuple";
   "union"; "intersection"]%string.

(** The objects of the literal layouts — layouts/src/abs/syntax/layout/literal.rs 200-228
    ([UnitLayout]), 310-339 ([BooleanLayout]), 379-408 ([NumberLayout]), 448-477
    ([ByteStringLayout]), 496-527 ([TextStringLayout]), 574-603 ([IdLayout]). *)
Definition unit_from (o : object) : outcome abs_error alayout :=
  with_entries o
    (e_bind (check_type o "unit") (fun _ =>
     e_bind (header_from o) (fun h =>
     e_bind (get_entry_or o "const" const_from_json (VLit LUnit)) (fun c =>
     e_ret (AUnit h c))))).

Definition boolean_from (o : object) : outcome abs_error alayout :=
  with_entries o
    (e_bind (check_type o "boolean") (fun _ =>
     e_bind (header_from o) (fun h =>
     e_bind (get_entry o "resource" pattern_from_json) (fun res =>
     e_bind (get_entry o "datatype" iri_from_json) (fun dt =>
     e_ret (ALiteralL (AKBoolean dt) h res)))))).

Definition number_from (o : object) : outcome abs_error alayout :=
  with_entries o
    (e_bind (check_type o "number") (fun _ =>
     e_bind (header_from o) (fun h =>
     e_bind (get_entry o "resource" pattern_from_json) (fun res =>
     e_bind (require_entry o "datatype" iri_from_json) (fun dt =>
     e_ret (ALiteralL (AKNumber dt) h res)))))).

Definition bytes_from (o : object) : outcome abs_error alayout :=
  with_entries o
    (e_bind (check_type o "bytes") (fun _ =>
     e_bind (header_from o) (fun h =>
     e_bind (get_entry o "resource" pattern_from_json) (fun res =>
     e_bind (require_entry o "datatype" iri_from_json) (fun dt =>
     e_ret (ALiteralL (AKByteString dt) h res)))))).

Definition text_from (o : object) : outcome abs_error alayout :=
  with_entries o
    (e_bind (check_type o "string") (fun _ =>
     e_bind (header_from o) (fun h =>
     e_bind (get_entry o "pattern" regexp_from_json) (fun pat =>
     e_bind (get_entry o "resource" pattern_from_json) (fun res =>
     e_bind (get_entry o "datatype" iri_from_json) (fun dt =>
     e_ret (ALiteralL (AKTextString pat dt) h res))))))).

Definition id_from (o : object) : outcome abs_error alayout :=
  with_entries o
    (e_bind (check_type o "id") (fun _ =>
     e_bind (header_from o) (fun h =>
     e_bind (get_entry o "pattern" regexp_from_json) (fun pat =>
     e_bind (get_entry o "resource" pattern_from_json) (fun res =>
     e_ret (ALiteralL (AKId pat) h res)))))).

(** The objects of the other layouts; [nested] reads the nested layouts. *)
Section Compound.
Context (nested : object -> outcome abs_error alayout).

(** [ProductLayout::try_from_json_object_at] — layouts/src/abs/syntax/layout/product.rs 45-77: the
    entry [fields] is read first. *)
Definition product_from (o : object) : outcome abs_error alayout :=
  with_entries o
    (e_bind (check_type o "record") (fun _ =>
     e_bind (get_entry_or o "fields" (from_btreemap (fun s => Ok s) (field_from_json nested)) [])
       (fun fields =>
     e_bind (header_from o) (fun h =>
     e_ret (AProduct h
       (bt_collect (map (fun f : string * afield alayout => (VLit (LText (fst f)), snd f)) fields))))))).

(** [SumLayout::try_from_json_object_at] — layouts/src/abs/syntax/layout/sum.rs 42-71. *)
Definition sum_from (o : object) : outcome abs_error alayout :=
  with_entries o
    (e_bind (check_type o "sum") (fun _ =>
     e_bind (header_from o) (fun h =>
     e_bind (get_entry_or o "variants" (from_btreemap (fun s => Ok s) (variant_from_json nested)) [])
       (fun variants =>
     e_ret (ASum h variants))))).

(** [OrderedListLayout::try_from_json_object_at] — layouts/src/abs/syntax/layout/list.rs 113-145, with
    [Pattern::default_head] and [Pattern::default_tail] (syntax/pattern/mod.rs 32-45). *)
Definition ordered_from (o : object) : outcome abs_error alayout :=
  with_entries o
    (e_bind (check_type o "list") (fun _ =>
     e_bind (header_from o) (fun h =>
     e_bind (require_entry o "node" (node_from_json nested)) (fun node =>
     e_bind (get_entry_or o "head" pattern_from_json (AVar "self")) (fun head =>
     e_bind (get_entry_or o "tail" pattern_from_json (AIri (rdf "nil"))) (fun tail =>
     e_ret (AOrdered h node head tail))))))).

(** [UnorderedListLayout::try_from_json_object_at] — layouts/src/abs/syntax/layout/list.rs 374-402. *)
Definition unordered_from (o : object) : outcome abs_error alayout :=
  with_entries o
    (e_bind (check_type o "set") (fun _ =>
     e_bind (header_from o) (fun h =>
     e_bind (require_entry o "item" (item_from_json nested)) (fun item =>
     e_ret (AUnordered h item))))).

(** [SizedListLayout::try_from_json_object_at] — layouts/src/abs/syntax/layout/list.rs 538-567. *)
Definition sized_from (o : object) : outcome abs_error alayout :=
  with_entries o
    (e_bind (check_type o "tuple") (fun _ =>
     e_bind (header_from o) (fun h =>
     e_bind (get_entry_or o "items" (from_vec (item_from_json nested)) []) (fun items =>
     e_ret (ASized h items))))).

(** [UnionLayout::try_from_json_object_at] — layouts/src/abs/syntax/layout/union.rs 22-49, and
    [IntersectionLayout::try_from_json_object_at] — syntax/layout/intersection.rs 22-49. *)
Definition union_from (o : object) : outcome abs_error alayout :=
  with_entries o
    (e_bind (check_type o "union") (fun _ =>
     e_bind (header_from o) (fun h => e_ret (AUnion h)))).
Definition intersection_from (o : object) : outcome abs_error alayout :=
  with_entries o
    (e_bind (check_type o "intersection") (fun _ =>
     e_bind (header_from o) (fun h => e_ret (AIntersection h)))).

(** [Layout::try_from_json_object_at] — layouts/src/abs/syntax/layout/mod.rs 171-228, with
    [LiteralLayout], [DataLayout] and [ListLayout] (syntax/layout/literal.rs 37-70, 122-160, syntax/layout/list.rs 36-68), which
    read the type again. *)
Definition object_body (o : object) : outcome abs_error alayout :=
  let* r := require_type o in
  let ty := snd r in
  if String.eqb ty "id" then id_from o
  else if String.eqb ty "unit" then unit_from o
  else if String.eqb ty "boolean" then boolean_from o
  else if String.eqb ty "number" then number_from o
  else if String.eqb ty "bytes" then bytes_from o
  else if String.eqb ty "string" then text_from o
  else if String.eqb ty "record" then product_from o
  else if String.eqb ty "sum" then sum_from o
  else if String.eqb ty "list" then ordered_from o
  else if String.eqb ty "set" then unordered_from o
  else if String.eqb ty "tuple" then sized_from o
  else if String.eqb ty "union" then union_from o
  else if String.eqb ty "intersection" then intersection_from o
  else Err (InvalidType layout_types ty).
End Compound.

(** [Layout::try_from_json_object_at]: the recursion follows the nesting of the document, bounded by
    [fuel]. *)
Fixpoint object_from (fuel : nat) (o : object) : outcome abs_error alayout :=
  match fuel with
  | 0 => OutOfFuel
  | S fuel => object_body (object_from fuel) o
  end.

(** The size of a document. *)
Fixpoint json_size (j : json) : nat :=
  match j with
  | JArr l => S ((fix go (l : list json) := match l with [] => 0 | j :: l' => json_size j + go l' end) l)
  | JObj o =>
      S ((fix go (o : list (string * json)) :=
            match o with [] => 0 | (_, j) :: o' => json_size j + go o' end) o)
  | _ => 1
  end.

(** [Layout::try_from_json_at] — layouts/src/abs/syntax/layout/mod.rs 149-169. *)
Definition layout_from_json (j : json) : outcome abs_error alayout :=
  match j with
  | JBool b => Ok (ABool b)
  | JObj o => object_from (json_size j) o
  | j => Err (Unexpected [KdBoolean; KdObject] (kind_of j))
  end.
End Read.
