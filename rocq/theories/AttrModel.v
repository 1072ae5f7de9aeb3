(** * The attributes read by the derive macros
      ([generators/rust/treeldr-rs-macros/src/parse.rs])

    The tokens are those of [proc_macro2], the items those of [syn]; the spans are not modelled.  IRIs
    are compared as texts. *)

From Coq Require Import String Ascii List Bool Arith.
Import ListNotations.
From Verif Require Import Base Orders PatternModel ValueModel LayoutModel HydrateModel TermModel DehydrateModel
  RegexpModel AbsModel AbsJsonModel VariableModel.
Open Scope list_scope.
Open Scope nat_scope.

(** ** Rust syntax (external crates [proc_macro2] and [syn]) *)

(** [TokenTree]; [TkLit] is a literal that is not a string.  No code reads the delimiter of a group. *)
Inductive token : Type :=
| TkIdent (name : string)
| TkPunct (c : ascii)
| TkStr (s : string)
| TkLit (text : string)
| TkGroup (ts : list token).

(** [syn::Type]: the paths, with their generic arguments, and the other types (by their text). *)
Inductive rty : Type :=
| RPath (qself : bool) (colon : bool) (segments : list (string * rargs))
| ROther (text : string)
with rargs : Type :=
| NoArgs
| Angled (args : list garg)
| Parens
with garg : Type :=
| GTy (ty : rty)
| GOther.

(** [syn::Attribute]: its path, and its tokens when it is a [Meta::List]. *)
Record attribute : Type := Attr { at_path : string; at_tokens : option (list token) }.

(** [syn::Field], with the identifier of a named field. *)
Record rfield : Type := RField { rf_name : string; rf_attrs : list attribute; rf_type : rty }.

(** [syn::Fields], [syn::Variant], [syn::Data], [syn::DeriveInput]. *)
Inductive rfields : Type :=
| FNamed (l : list rfield)
| FUnnamed (l : list rfield)
| FUnit.
Record rvariant : Type := RVariant { rv_name : string; rv_attrs : list attribute; rv_fields : rfields }.
Inductive rdata : Type :=
| DStruct (fs : rfields)
| DEnum (vs : list rvariant)
| DUnion.
Record derive_input : Type := DeriveInput { di_ident : string; di_attrs : list attribute; di_data : rdata }.

(** ** Errors *)

(** [Error] — parse.rs 34-77. *)
Inductive attr_error : Type :=
| InvalidMeta
| UnexpectedToken (t : token)
| UnexpectedLiteral
| MissingToken
| InvalidCompactIri (s : string)
| InvalidAttrPattern (s : string)
| ConflictingValue
| UnionType
| MissingDatatype
| ExpectedStruct
| ExpectedNamedFields
| ExpectedUnnamedFields
| ExpectedOneField
| ExpectedVec.

Definition pres (A : Type) : Type := outcome attr_error A.

(** ** Equality of the values of the attributes ([PartialEq], derived) *)

Fixpoint list_eqb {A} (eq : A -> A -> bool) (l l' : list A) : bool :=
  match l, l' with
  | [], [] => true
  | a :: l, a' :: l' => eq a a' && list_eqb eq l l'
  | _, _ => false
  end.

Definition option_eqb {A} (eq : A -> A -> bool) (o o' : option A) : bool :=
  match o, o' with
  | None, None => true
  | Some a, Some a' => eq a a'
  | _, _ => false
  end.

(** [LiteralType] and [Pattern] — layouts/src/abs/syntax/pattern/literal.rs 57, pattern/mod.rs 17. *)
Definition alit_type_eqb (t t' : alit_type) : bool :=
  match t, t' with
  | ATypeIri i, ATypeIri i' => String.eqb i i'
  | ATypeLang l, ATypeLang l' => String.eqb l l'
  | _, _ => false
  end.
Definition apattern_eqb (p p' : apattern) : bool :=
  match p, p' with
  | AVar x, AVar x' => String.eqb x x'
  | AIri i, AIri i' => String.eqb i i'
  | ALiteral v t, ALiteral v' t' => String.eqb v v' && alit_type_eqb t t'
  | _, _ => false
  end.

(** [Quad] — layouts/src/abs/syntax/dataset.rs 48. *)
Definition aquad_eqb (q q' : quad apattern) : bool :=
  apattern_eqb (q_s q) (q_s q') && apattern_eqb (q_p q) (q_p q') && apattern_eqb (q_o q) (q_o q') &&
  option_eqb apattern_eqb (q_g q) (q_g q').

(** [GraphValue] — parse.rs 737-743, as an [Option<Option<Pattern>>] (745-753: [Keep] is [None]). *)
Definition agraph_eqb (g g' : option (option apattern)) : bool := option_eqb (option_eqb apattern_eqb) g g'.

(** [replace] — parse.rs 755-763: the target afterwards. *)
Definition replace {T} (eq : T -> T -> bool) (target : option T) (value : T) : pres (option T) :=
  match target with
  | Some old => if eq old value then Ok (Some value) else Err ConflictingValue
  | None => Ok (Some value)
  end.

Section Parse.
Context {TS : TextSyntax}.

(** ** Arguments *)

(** [string_token] — parse.rs 799-807. *)
Definition string_token (t : token) : pres string :=
  match t with
  | TkStr s => Ok s
  | TkLit _ => Err UnexpectedLiteral
  | t => Err (UnexpectedToken t)
  end.

(** [parse_string] — parse.rs 777-789. *)
Definition parse_string (ts : list token) : pres string :=
  match ts with
  | [] => Err MissingToken
  | [t] => string_token t
  | _ :: t :: _ => Err (UnexpectedToken t)
  end.

(** [parse_compact_iri] — parse.rs 791-797. *)
Definition parse_compact_iri (ts : list token) : pres compact_iri :=
  let* s := parse_string ts in
  if is_iri_ref s then Ok s else Err (InvalidCompactIri s).

(** [parse_pattern] — parse.rs 943-953. *)
Definition parse_pattern (s : string) : pres apattern :=
  match blank_suffix s with
  | Some name =>
      let* name := unwrap "parse.rs 946: VariableNameBuf::new" (variable_name_new name) in Ok (AVar name)
  | None => if is_iri_ref s then Ok (AIri s) else Err (InvalidAttrPattern s)
  end.

(** [pattern_token] — parse.rs 955-958. *)
Definition pattern_token (t : token) : pres apattern :=
  let* s := string_token t in parse_pattern s.

(** [quad_token] — parse.rs 809-854, with [parse_comma] and [parse_opt_comma] (856-870).  What follows
    the graph is not read. *)
Definition quad_token (t : token) : pres (quad apattern) :=
  match t with
  | TkGroup [] => Err MissingToken
  | TkGroup (ts :: rest) =>
      let* s := pattern_token ts in
      match rest with
      | [] => Err MissingToken
      | TkPunct "," :: rest =>
          match rest with
          | [] => Err MissingToken
          | tp :: rest =>
              let* p := pattern_token tp in
              match rest with
              | [] => Err MissingToken
              | TkPunct "," :: rest =>
                  match rest with
                  | [] => Err MissingToken
                  | to :: rest =>
                      let* o := pattern_token to in
                      match rest with
                      | [] => Ok (Quad s p o None)
                      | TkPunct "," :: [] => Ok (Quad s p o None)
                      | TkPunct "," :: tg :: _ => let* g := pattern_token tg in Ok (Quad s p o (Some g))
                      | t :: _ => Err (UnexpectedToken t)
                      end
                  end
              | t :: _ => Err (UnexpectedToken t)
              end
          end
      | t :: _ => Err (UnexpectedToken t)
      end
  | t => Err (UnexpectedToken t)
  end.

(** [parse_list] — parse.rs 872-886. *)
Fixpoint parse_list {T} (f : token -> pres T) (ts : list token) : pres (list T) :=
  match ts with
  | [] => Ok []
  | t :: ts1 =>
      let* v := f t in
      match ts1 with
      | [] => Ok [v]
      | TkPunct "," :: ts2 => let* vs := parse_list f ts2 in Ok (v :: vs)
      | t :: _ => Err (UnexpectedToken t)
      end
  end.

(** [parse_graph_value] — parse.rs 960-997.  What follows the pattern of [Some(..)] is not read. *)
Definition parse_graph_value (ts : list token) : pres (option (option apattern)) :=
  match ts with
  | [] => Err MissingToken
  | TkIdent id :: rest =>
      if String.eqb id "_" then
        match rest with [] => Ok None | t :: _ => Err (UnexpectedToken t) end
      else if String.eqb id "None" then
        match rest with [] => Ok (Some None) | t :: _ => Err (UnexpectedToken t) end
      else if String.eqb id "Some" then
        match rest with
        | TkGroup [] :: _ => Err MissingToken
        | TkGroup (t :: _) :: _ => let* p := pattern_token t in Ok (Some (Some p))
        | t :: _ => Err (UnexpectedToken t)
        | [] => Err MissingToken
        end
      else Err (UnexpectedToken (TkIdent id))
  | t :: _ => Err (UnexpectedToken t)
  end.

(** [parse_binding_list] — parse.rs 1006-1032. *)
Fixpoint parse_binding_list (ts : list token) : pres (list (string * compact_iri)) :=
  match ts with
  | [] => Ok []
  | t :: ts1 =>
      let* prefix := string_token t in
      match ts1 with
      | TkPunct "=" :: t2 :: ts2 =>
          let* s := string_token t2 in
          if is_iri_ref s then
            match ts2 with
            | [] => Ok [(prefix, s)]
            | TkPunct "," :: ts3 => let* l := parse_binding_list ts3 in Ok ((prefix, s) :: l)
            | t :: _ => Err (UnexpectedToken t)
            end
          else Err (InvalidCompactIri s)
      | TkPunct "=" :: [] => Err MissingToken
      | t :: _ => Err (UnexpectedToken t)
      | [] => Err MissingToken
      end
  end.

(** ** Attributes of the type *)

(** [Kind] — parse.rs 1034-1047. *)
Inductive kind : Type :=
| KdId | KdUnit | KdBoolean | KdNumber | KdString | KdBytes | KdRecord | KdSum | KdSet | KdList | KdTuple.

(** [Kind::from_ident] — parse.rs 1050-1076. *)
Definition kind_names : list (string * kind) :=
  [("id", KdId); ("unit", KdUnit); ("boolean", KdBoolean); ("number", KdNumber); ("string", KdString);
   ("bytes", KdBytes); ("record", KdRecord); ("sum", KdSum); ("set", KdSet); ("list", KdList);
   ("tuple", KdTuple)]%string.
Definition kind_from_ident (name : string) : option kind := hm_get name kind_names.

(** Derived [PartialEq] — parse.rs 1034. *)
Definition kind_eqb (k k' : kind) : bool :=
  match k, k' with
  | KdId, KdId | KdUnit, KdUnit | KdBoolean, KdBoolean | KdNumber, KdNumber | KdString, KdString
  | KdBytes, KdBytes | KdRecord, KdRecord | KdSum, KdSum | KdSet, KdSet | KdList, KdList
  | KdTuple, KdTuple => true
  | _, _ => false
  end.

(** [TypeAttributes] — parse.rs 429-443, without [id], which [Kind::from_ident] shadows (parse.rs 457,
    477), and [extra], which nothing sets. *)
Record type_attrs : Type := TypeAttrs {
  ta_base : option compact_iri;
  ta_prefixes : list (string * compact_iri);
  ta_kind : option kind;
  ta_input : option (list string);
  ta_intro : option (list string);
  ta_head : option apattern;
  ta_tail : option apattern;
  ta_dataset : option (list (quad apattern));
  ta_resource : option apattern;
  ta_datatype : option compact_iri
}.
Definition type_attrs_default : type_attrs := TypeAttrs None [] None None None None None None None None.

(** The names of the attributes with an argument — parse.rs 460-533. *)
Definition type_keywords : list string :=
  ["base"; "prefix"; "head"; "tail"; "resource"; "datatype"; "input"; "intro"; "dataset"]%string.

(** The bodies of [if ident == ".."] — parse.rs 460-533; [g] is the content of the group. *)
Definition set_type_attr (name : string) (g : list token) (r : type_attrs) : pres type_attrs :=
  let 'TypeAttrs base prefixes kind input intro head tail dataset resource datatype := r in
  if String.eqb name "base" then
    let* v := parse_compact_iri g in
    let* base := replace String.eqb base v in
    Ok (TypeAttrs base prefixes kind input intro head tail dataset resource datatype)
  else if String.eqb name "prefix" then
    let* l := parse_binding_list g in
    Ok (TypeAttrs base (fold_left (fun m b => bt_insert (fst b) (snd b) m) l prefixes)
          kind input intro head tail dataset resource datatype)
  else if String.eqb name "head" then
    let* s := parse_string g in
    let* v := parse_pattern s in
    let* head := replace apattern_eqb head v in
    Ok (TypeAttrs base prefixes kind input intro head tail dataset resource datatype)
  else if String.eqb name "tail" then
    let* s := parse_string g in
    let* v := parse_pattern s in
    let* tail := replace apattern_eqb tail v in
    Ok (TypeAttrs base prefixes kind input intro head tail dataset resource datatype)
  else if String.eqb name "resource" then
    let* s := parse_string g in
    let* v := parse_pattern s in
    let* resource := replace apattern_eqb resource v in
    Ok (TypeAttrs base prefixes kind input intro head tail dataset resource datatype)
  else if String.eqb name "datatype" then
    let* v := parse_compact_iri g in
    let* datatype := replace String.eqb datatype v in
    Ok (TypeAttrs base prefixes kind input intro head tail dataset resource datatype)
  else if String.eqb name "input" then
    let* v := parse_list string_token g in
    let* input := replace (list_eqb String.eqb) input v in
    Ok (TypeAttrs base prefixes kind input intro head tail dataset resource datatype)
  else if String.eqb name "intro" then
    let* v := parse_list string_token g in
    let* intro := replace (list_eqb String.eqb) intro v in
    Ok (TypeAttrs base prefixes kind input intro head tail dataset resource datatype)
  else if String.eqb name "dataset" then
    let* v := parse_list quad_token g in
    let* dataset := replace (list_eqb aquad_eqb) dataset v in
    Ok (TypeAttrs base prefixes kind input intro head tail dataset resource datatype)
  else Ok r.

(** [replace(&mut result.kind, k, ..)] — parse.rs 458. *)
Definition set_kind (k : kind) (r : type_attrs) : pres type_attrs :=
  let* kind := replace kind_eqb (ta_kind r) k in
  Ok (TypeAttrs (ta_base r) (ta_prefixes r) kind (ta_input r) (ta_intro r) (ta_head r) (ta_tail r)
        (ta_dataset r) (ta_resource r) (ta_datatype r)).

Definition is_keyword (name : string) (l : list string) : bool := existsb (String.eqb name) l.

(** The loop of [TypeAttributes::parse] on the tokens of an attribute — parse.rs 455-544, with
    [expect_argument] (765-775). *)
Fixpoint type_tokens (ts : list token) (r : type_attrs) : pres type_attrs :=
  match ts with
  | [] => Ok r
  | TkIdent name :: ts1 =>
      match kind_from_ident name with
      | Some k =>
          let* r := set_kind k r in
          match ts1 with
          | [] => Ok r
          | TkPunct "," :: ts2 => type_tokens ts2 r
          | t :: _ => Err (UnexpectedToken t)
          end
      | None =>
          if is_keyword name type_keywords then
            match ts1 with
            | [] => Err MissingToken
            | TkGroup g :: ts2 =>
                let* r := set_type_attr name g r in
                match ts2 with
                | [] => Ok r
                | TkPunct "," :: ts3 => type_tokens ts3 r
                | t :: _ => Err (UnexpectedToken t)
                end
            | t :: _ => Err (UnexpectedToken t)
            end
          else
            match ts1 with
            | [] => Ok r
            | TkPunct "," :: ts2 => type_tokens ts2 r
            | t :: _ => Err (UnexpectedToken t)
            end
      end
  | t :: _ => Err (UnexpectedToken t)
  end.

(** [TypeAttributes::parse] — parse.rs 445-553. *)
Fixpoint type_attributes (attrs : list attribute) (r : type_attrs) : pres type_attrs :=
  match attrs with
  | [] => Ok r
  | a :: attrs' =>
      if String.eqb (at_path a) "tldr" then
        match at_tokens a with
        | Some ts => let* r := type_tokens ts r in type_attributes attrs' r
        | None => Err InvalidMeta
        end
      else type_attributes attrs' r
  end.

(** ** Attributes of the fields, variants and items *)

(** [ComponentAttributes] — parse.rs 555-564. *)
Record comp_attrs : Type := CompAttrs {
  ca_head : option string;
  ca_rest : option string;
  ca_intro : option (list string);
  ca_property : option apattern;
  ca_dataset : option (list (quad apattern));
  ca_input : option (list apattern);
  ca_graph : option (option (option apattern))
}.
Definition comp_attrs_default : comp_attrs := CompAttrs None None None None None None None.

(** The names of the attributes with an argument — parse.rs 586-625. *)
Definition comp_keywords : list string := ["head"; "rest"; "intro"; "dataset"; "input"; "graph"]%string.

(** The bodies of [if ident == ".."] — parse.rs 586-625. *)
Definition set_comp_attr (name : string) (g : list token) (r : comp_attrs) : pres comp_attrs :=
  let 'CompAttrs head rest intro property dataset input graph := r in
  if String.eqb name "head" then
    let* v := parse_string g in
    let* head := replace String.eqb head v in
    Ok (CompAttrs head rest intro property dataset input graph)
  else if String.eqb name "rest" then
    let* v := parse_string g in
    let* rest := replace String.eqb rest v in
    Ok (CompAttrs head rest intro property dataset input graph)
  else if String.eqb name "intro" then
    let* v := parse_list string_token g in
    let* intro := replace (list_eqb String.eqb) intro v in
    Ok (CompAttrs head rest intro property dataset input graph)
  else if String.eqb name "dataset" then
    let* v := parse_list quad_token g in
    let* dataset := replace (list_eqb aquad_eqb) dataset v in
    Ok (CompAttrs head rest intro property dataset input graph)
  else if String.eqb name "input" then
    let* v := parse_list pattern_token g in
    let* input := replace (list_eqb apattern_eqb) input v in
    Ok (CompAttrs head rest intro property dataset input graph)
  else if String.eqb name "graph" then
    let* v := parse_graph_value g in
    let* graph := replace agraph_eqb graph v in
    Ok (CompAttrs head rest intro property dataset input graph)
  else Ok r.

(** [replace(&mut result.property, value, ..)] — parse.rs 578-584. *)
Definition set_property (s : string) (r : comp_attrs) : pres comp_attrs :=
  let* v := parse_pattern s in
  let* property := replace apattern_eqb (ca_property r) v in
  Ok (CompAttrs (ca_head r) (ca_rest r) (ca_intro r) property (ca_dataset r) (ca_input r) (ca_graph r)).

(** The loop of [ComponentAttributes::parse] on the tokens of an attribute — parse.rs 576-635. *)
Fixpoint comp_tokens (ts : list token) (r : comp_attrs) : pres comp_attrs :=
  match ts with
  | [] => Ok r
  | TkStr s :: ts1 =>
      let* r := set_property s r in
      match ts1 with
      | [] => Ok r
      | TkPunct "," :: ts2 => comp_tokens ts2 r
      | t :: _ => Err (UnexpectedToken t)
      end
  | TkLit _ :: _ => Err UnexpectedLiteral
  | TkIdent name :: ts1 =>
      if is_keyword name comp_keywords then
        match ts1 with
        | [] => Err MissingToken
        | TkGroup g :: ts2 =>
            let* r := set_comp_attr name g r in
            match ts2 with
            | [] => Ok r
            | TkPunct "," :: ts3 => comp_tokens ts3 r
            | t :: _ => Err (UnexpectedToken t)
            end
        | t :: _ => Err (UnexpectedToken t)
        end
      else
        match ts1 with
        | [] => Ok r
        | TkPunct "," :: ts2 => comp_tokens ts2 r
        | t :: _ => Err (UnexpectedToken t)
        end
  | t :: _ => Err (UnexpectedToken t)
  end.

(** [ComponentAttributes::parse] — parse.rs 566-643. *)
Fixpoint comp_attributes (attrs : list attribute) (r : comp_attrs) : pres comp_attrs :=
  match attrs with
  | [] => Ok r
  | a :: attrs' =>
      if String.eqb (at_path a) "tldr" then
        match at_tokens a with
        | Some ts => let* r := comp_tokens ts r in comp_attributes attrs' r
        | None => Err InvalidMeta
        end
      else comp_attributes attrs' r
  end.

(** ** Types *)

(** [FieldType::new], [is_required], [into_type] — parse.rs 646-700: whether the field is required, and
    its type. *)
Definition field_type (ty : rty) : bool * rty :=
  match ty with
  | RPath false _ [("Option"%string, Angled [GTy item])] => (false, item)
  | _ => (true, ty)
  end.

(** [extract_vec_item] — parse.rs 702-735. *)
Definition vec_item (ty : rty) : pres rty :=
  match ty with
  | RPath false _ [("Vec"%string, Angled [GTy item])] => Ok item
  | _ => Err ExpectedVec
  end.

(** [TypeMap::insert] — parse.rs 26-31: the IRI of the type, and the types in the order of their
    insertion. *)
Definition type_iri (i : nat) : string := ("rust:/#Type" ++ nat_string i)%string.
Definition type_insert (ty : rty) (types : list rty) : string * list rty :=
  (type_iri (length types), types ++ [ty]).

(** ** Layouts *)

(** [Option::unwrap_or], [unwrap_or_default]. *)
Definition or_default {A} (o : option A) (a : A) : A := match o with Some a => a | None => a end.

(** The [LayoutHeader] — parse.rs 117-125 and alike; the default input is [self]
    (layouts/src/abs/syntax/layout/mod.rs 365-369). *)
Definition attrs_header (r : type_attrs) : aheader :=
  AHeader (ta_base r) (ta_prefixes r) None (or_default (ta_input r) ["self"%string])
    (or_default (ta_intro r) []) (or_default (ta_dataset r) []) [].

(** [ValueFormatOrLayout::Format], [VariantFormatOrLayout::Format] — parse.rs 225-229 and alike; the
    default input is [value] (layouts/src/abs/syntax/layout/mod.rs 534-538) or [self] for the variants
    (syntax/layout/sum.rs 297-301). *)
Definition attrs_format (default : string) (a : comp_attrs) (iri : string) : aformat alayout :=
  AFormat (RefIri iri) (or_default (ca_input a) [AVar default]) (or_default (ca_graph a) None).

(** [Field] and [ListItem] — parse.rs 221-231, 322-331, 389-398; the default intro is [value]
    (layouts/src/abs/syntax/mod.rs 555-559). *)
Definition attrs_item (a : comp_attrs) (iri : string) : aitem alayout :=
  AItem (or_default (ca_intro a) ["value"%string]) (attrs_format "value" a iri)
    (or_default (ca_dataset a) []) (ca_property a).

(** The fields of a record — parse.rs 213-235. *)
Fixpoint record_fields (fs : list rfield) (types : list rty)
  : pres (list (value * afield alayout) * list rty) :=
  match fs with
  | [] => Ok ([], types)
  | f :: fs' =>
      let* a := comp_attributes (rf_attrs f) comp_attrs_default in
      let (required, ty) := field_type (rf_type f) in
      let (iri, types) := type_insert ty types in
      let* r := record_fields fs' types in
      Ok ((VLit (LText (rf_name f)), AField (attrs_item a iri) required) :: fst r, snd r)
  end.

(** The variants of a sum — parse.rs 257-286; their default intro is empty. *)
Fixpoint sum_variants (vs : list rvariant) (types : list rty)
  : pres (list (string * avariant alayout) * list rty) :=
  match vs with
  | [] => Ok ([], types)
  | v :: vs' =>
      let* a := comp_attributes (rv_attrs v) comp_attrs_default in
      match rv_fields v with
      | FUnnamed [f] =>
          let (iri, types) := type_insert (rf_type f) types in
          let* r := sum_variants vs' types in
          Ok ((rv_name v, AVariant (or_default (ca_intro a) []) (attrs_format "self" a iri)
                            (or_default (ca_dataset a) [])) :: fst r, snd r)
      | FUnnamed _ => Err ExpectedOneField
      | _ => Err ExpectedUnnamedFields
      end
  end.

(** The items of a tuple — parse.rs 384-400. *)
Fixpoint tuple_items (fs : list rfield) (types : list rty) : pres (list (aitem alayout) * list rty) :=
  match fs with
  | [] => Ok ([], types)
  | f :: fs' =>
      let* a := comp_attributes (rf_attrs f) comp_attrs_default in
      let (iri, types) := type_insert (rf_type f) types in
      let* r := tuple_items fs' types in
      Ok (attrs_item a iri :: fst r, snd r)
  end.

(** [Kind::from_data] — parse.rs 1078-1088. *)
Definition kind_from_data (d : rdata) : pres kind :=
  match d with
  | DStruct (FNamed _) => Ok KdRecord
  | DStruct (FUnnamed _) => Ok KdTuple
  | DStruct FUnit => Ok KdUnit
  | DEnum _ => Ok KdSum
  | DUnion => Err UnionType
  end.

(** [parse] — parse.rs 106-427: the layout, and the types it refers to. *)
Definition parse_input (input : derive_input) : pres (alayout * list rty) :=
  let* r := type_attributes (di_attrs input) type_attrs_default in
  let* k := match ta_kind r with Some k => Ok k | None => kind_from_data (di_data input) end in
  let h := attrs_header r in
  match k with
  | KdId => Ok (ALiteralL (AKId None) h (ta_resource r), [])
  | KdUnit => Ok (AUnit h (VLit LUnit), [])
  | KdBoolean => Ok (ALiteralL (AKBoolean (ta_datatype r)) h (ta_resource r), [])
  | KdNumber =>
      let* dt := ok_or MissingDatatype (ta_datatype r) in
      Ok (ALiteralL (AKNumber dt) h (ta_resource r), [])
  | KdString => Ok (ALiteralL (AKTextString None (ta_datatype r)) h (ta_resource r), [])
  | KdBytes =>
      let* dt := ok_or MissingDatatype (ta_datatype r) in
      Ok (ALiteralL (AKByteString dt) h (ta_resource r), [])
  | KdRecord =>
      match di_data input with
      | DStruct (FNamed fs) =>
          let* r := record_fields fs [] in Ok (AProduct h (bt_collect (fst r)), snd r)
      | DStruct _ => Err ExpectedNamedFields
      | _ => Err ExpectedStruct
      end
  | KdSum =>
      match di_data input with
      | DEnum vs => let* r := sum_variants vs [] in Ok (ASum h (bt_collect (fst r)), snd r)
      | _ => Err ExpectedStruct
      end
  | KdSet =>
      match di_data input with
      | DStruct (FUnnamed [f]) =>
          let* a := comp_attributes (rf_attrs f) comp_attrs_default in
          let* ty := vec_item (rf_type f) in
          let (iri, types) := type_insert ty [] in
          Ok (AUnordered h (attrs_item a iri), types)
      | DStruct (FUnnamed _) => Err ExpectedOneField
      | DStruct _ => Err ExpectedUnnamedFields
      | _ => Err ExpectedStruct
      end
  | KdList =>
      match di_data input with
      | DStruct (FUnnamed [f]) =>
          let* a := comp_attributes (rf_attrs f) comp_attrs_default in
          let* ty := vec_item (rf_type f) in
          let (iri, types) := type_insert ty [] in
          Ok (AOrdered h
                (ANode (or_default (ca_head a) "head"%string) (or_default (ca_rest a) "rest"%string)
                   (or_default (ca_intro a) ["value"%string]) (attrs_format "value" a iri) (ca_dataset a))
                (or_default (ta_head r) (AVar "self")) (or_default (ta_tail r) (AIri (rdf "nil"))),
              types)
      | DStruct (FUnnamed _) => Err ExpectedOneField
      | DStruct _ => Err ExpectedUnnamedFields
      | _ => Err ExpectedStruct
      end
  | KdTuple =>
      match di_data input with
      | DStruct (FUnnamed fs) => let* r := tuple_items fs [] in Ok (ASized h (fst r), snd r)
      | DStruct _ => Err ExpectedUnnamedFields
      | _ => Err ExpectedStruct
      end
  end.

(** ** The first lines of the macros *)

(** [Error] — generate/de.rs 12-25 and ser.rs (without the errors of the generation). *)
Inductive macro_error : Type :=
| MacroParse (e : attr_error)
| MacroBuild (e : build_error).

Context {IS : IriSyntax} {AE : AbsExternal}.

Definition of_parse {A} (o : pres A) : outcome macro_error A :=
  match o with Ok a => Ok a | Err e => Err (MacroParse e) | Panic w => Panic w | OutOfFuel => OutOfFuel end.
Definition of_build {A} (o : outcome build_error A) : outcome macro_error A :=
  match o with Ok a => Ok a | Err e => Err (MacroBuild e) | Panic w => Panic w | OutOfFuel => OutOfFuel end.

(** The layout of a derived type, and the types it refers to — generate/de.rs 38-48, generate/ser.rs
    39-47.  [fuel]: see [RegexpModel.re_build]. *)
Definition derive_layout (fuel : nat) (input : derive_input)
  : outcome macro_error (layout term * list rty) :=
  let* p := of_parse (parse_input input) in
  let (o, b) := build_document (fst p) [] in
  let* r := of_build o in
  let* ls := of_build (builder_build fuel b) in
  let* l := unwrap "layouts.get" (layouts_get ls r) in
  Ok (l, snd p).

End Parse.
