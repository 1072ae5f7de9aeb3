(** * The generator of Rust types ([generators/rust/generator/src/lib.rs], [utils.rs],
      [layouts/src/preset.rs])

    The generated items are the [derive_input]s read by [AttrModel.v] (with the types' attributes
    [derive] left out).  The additions on [u32] do not overflow.  [Id::to_string] gives the text of an
    IRI or blank node identifier, without brackets (external crate [rdf_types]).  The identifier of a
    layout chosen by the options ([Options::idents]) is not modelled: nothing sets it. *)

From Coq Require Import String Ascii List Bool Arith NArith.
Import ListNotations.
From Verif Require Import Base Orders PatternModel ValueModel LayoutModel HydrateModel TermModel DehydrateModel
  RegexpModel AbsModel AbsJsonModel AttrModel.
Open Scope list_scope.
Open Scope nat_scope.

(** External: [syn::parse_str::<syn::Ident>] succeeds; [Iri::fragment]; [Iri::path().segments().last()];
    [char::is_whitespace] or [char::is_control]; [char::to_uppercase]; a character as a text. *)
Class RustSyntax : Type := {
  is_rust_ident : string -> bool;
  iri_fragment : string -> option string;
  iri_last_segment : string -> option string;
  is_blank_char : N -> bool;
  upper_char : N -> string;
  char_text : N -> string
}.

(** [Error] — generator/src/lib.rs 24-37. *)
Inductive gen_error (R : Type) : Type :=
| MissingTypeIdentifier (r : R)
| InvalidFieldIdent (key : value)
| InvalidVariantIdent (name : string)
| NoIriRepresentation.
Arguments MissingTypeIdentifier {R} r.
Arguments InvalidFieldIdent {R} key.
Arguments InvalidVariantIdent {R} name.
Arguments NoIriRepresentation {R}.

(** ** Identifiers *)

Section Ident.
Context {TS : TextSyntax} {RS : RustSyntax}.

(** [PascalCase::fmt] — generator/src/utils.rs 17-34; the code of ['_'] is 95. *)
Fixpoint pascal (upcase : bool) (cs : list N) : string :=
  match cs with
  | [] => EmptyString
  | c :: cs' =>
      if (is_blank_char c || N.eqb c 95)%bool then pascal true cs'
      else if upcase then (upper_char c ++ pascal false cs')%string
      else (char_text c ++ pascal false cs')%string
  end.
Definition pascal_case (s : string) : string := pascal true (chars s).

Definition parse_ident (s : string) : option string := if is_rust_ident s then Some s else None.

(** [ident_from_iri] — generator/src/utils.rs 4-13. *)
Definition ident_from_iri (iri : string) : option string :=
  match iri_fragment iri with
  | Some f => parse_ident (pascal_case f)
  | None => match iri_last_segment iri with
            | Some s => parse_ident (pascal_case s)
            | None => None
            end
  end.
End Ident.

(** ** Preset layouts *)

(** [PresetLayout] — layouts/src/preset.rs 17-30. *)
Inductive preset : Type :=
| PsId | PsUnit | PsBoolean | PsU8 | PsU16 | PsU32 | PsU64 | PsI8 | PsI16 | PsI32 | PsI64 | PsString.

Definition prelude_iri (name : string) : string := ("https://treeldr.org/prelude#" ++ name)%string.

(** [PresetLayout::from_iri] — layouts/src/preset.rs 33-62, with its constants (4-15). *)
Definition preset_iris : list (string * preset) :=
  [(prelude_iri "id", PsId); (prelude_iri "unit", PsUnit); (prelude_iri "boolean", PsBoolean);
   (prelude_iri "u8", PsU8); (prelude_iri "u16", PsU16); (prelude_iri "u32", PsU32);
   (prelude_iri "u64", PsU64); (prelude_iri "i8", PsI8); (prelude_iri "i16", PsI16);
   (prelude_iri "i32", PsI32); (prelude_iri "i64", PsI64); (prelude_iri "string", PsString)]%string.
Definition preset_from_iri (iri : string) : option preset := hm_get iri preset_iris.

(** A type that is a single identifier. *)
Definition ident_type (name : string) : rty := RPath false false [(name, NoArgs)].

(** The types of the preset layouts — generator/src/lib.rs 107-120. *)
Definition preset_type (p : preset) : rty :=
  match p with
  | PsId => RPath false true [("treeldr", NoArgs); ("rdf_types", NoArgs); ("Id", NoArgs)]%string
  | PsUnit => ROther "()"
  | PsBoolean => ident_type "bool"
  | PsU8 => ident_type "u8"
  | PsU16 => ident_type "u16"
  | PsU32 => ident_type "u32"
  | PsU64 => ident_type "u64"
  | PsI8 => ident_type "i8"
  | PsI16 => ident_type "i16"
  | PsI32 => ident_type "i32"
  | PsI64 => ident_type "i64"
  | PsString => ident_type "String"
  end.

(** [syn::Path]: whether it starts with a colon, and its segments. *)
Record rpath : Type := RsPath { rp_colon : bool; rp_segments : list (string * rargs) }.

(** [Options] — generator/src/lib.rs 49-52: [extern_modules]. *)
Definition gen_options : Type := list (string * rpath).

(** [Options::use_module] — generator/src/lib.rs 62-72: [None] is [InvalidModulePath]. *)
Definition use_module (prefix : string) (path : rpath) (o : gen_options) : option gen_options :=
  if forallb (fun seg => match snd seg with NoArgs => true | _ => false end) (rp_segments path)
  then Some (bt_insert prefix path o)
  else None.

(** [str::starts_with]. *)
Definition starts_with (s prefix : string) : bool := String.prefix prefix s.

(** The generated items: [pub type ident = target;] (generator/src/lib.rs 287-289, 504-506) or a type with derived
    implementations. *)
Inductive gen_item : Type :=
| GenAlias (ident target : string)
| GenType (d : derive_input).

(** ** Tokens *)

(** The repetitions of [quote!] separated by commas. *)
Fixpoint commas (l : list (list token)) : list token :=
  match l with
  | [] => []
  | [ts] => ts
  | ts :: l' => ts ++ TkPunct "," :: commas l'
  end.

(** [quote!] of an attribute whose arguments are texts, separated by commas. *)
Definition strings_attribute (name : string) (texts : list string) : list token :=
  [TkIdent name; TkGroup (commas (map (fun s => [TkStr s]) texts))].

(** [generate_intro_attribute], [generate_input_attribute] — generator/src/lib.rs 195-205. *)
Definition intro_attribute (count offset : nat) : list token :=
  strings_attribute "intro" (map nat_string (seq offset count)).
Definition input_attribute (count : nat) : list token :=
  strings_attribute "input" (map nat_string (seq 0 count)).

Section Generate.
Context {TS : TextSyntax} {RS : RustSyntax} {R : Type} {CR : Cmp R} {IN : Interp R}.
Definition gres (A : Type) : Type := outcome (gen_error R) A.

(** [default_layout_ident] — generator/src/lib.rs 154-174: the least of the identifiers. *)
Definition default_layout_ident (r : R) : option string :=
  fold_left (fun selected iri =>
    match ident_from_iri iri with
    | Some id =>
        match selected with
        | Some s => match cmp s id with Lt => Some s | _ => Some id end
        | None => Some id
        end
    | None => selected
    end) (iris_of r) None.

(** [Options::layout_ident] — generator/src/lib.rs 74-89. *)
Definition layout_ident (r : R) : gres string := ok_or (MissingTypeIdentifier r) (default_layout_ident r).

(** The loop of [Options::layout_ref] — generator/src/lib.rs 104-130: the type of a preset layout, or the path of a
    module. *)
Fixpoint layout_ref_loop (o : gen_options) (iris : list string) (path : option rpath) : rty + option rpath :=
  match iris with
  | [] => inr path
  | iri :: iris' =>
      match preset_from_iri iri with
      | Some p => inl (preset_type p)
      | None =>
          layout_ref_loop o iris'
            (fold_left (fun path m => if starts_with iri (fst m) then Some (snd m) else path) o path)
      end
  end.

(** [Options::layout_ref] — generator/src/lib.rs 91-145. *)
Definition layout_type (o : gen_options) (r : R) : gres rty :=
  match layout_ref_loop o (iris_of r) None with
  | inl ty => Ok ty
  | inr path =>
      let* id := layout_ident r in
      let path := or_default path (RsPath false []) in
      Ok (RPath false (rp_colon path) (rp_segments path ++ [(id, NoArgs)]))
  end.

(** [pattern_to_id] — generator/src/lib.rs 176-193, with [Id::to_string]. *)
Definition pattern_to_id (p : pattern R) : gres string :=
  match p with
  | PVar x => Ok ("_:" ++ nat_string x)%string
  | PRes r => match iris_of r with iri :: _ => Ok iri | [] => Err NoIriRepresentation end
  end.

(** [quote!((#s, #p, #o, #g))] — generator/src/lib.rs 217-225: nothing is written for a graph that is [None]. *)
Definition quad_tokens (q : qpat R) : gres (list token) :=
  let* s := pattern_to_id (q_s q) in
  let* p := pattern_to_id (q_p q) in
  let* o := pattern_to_id (q_o q) in
  let* g := match q_g q with
            | Some g => let* g := pattern_to_id g in Ok [TkStr g]
            | None => Ok []
            end in
  Ok [TkGroup (TkStr s :: TkPunct "," :: TkStr p :: TkPunct "," :: TkStr o :: TkPunct "," :: g)].

(** [generate_dataset_attribute] — generator/src/lib.rs 207-230. *)
Definition dataset_attribute (ds : list (qpat R)) : gres (list token) :=
  let* quads := mapM quad_tokens ds in
  Ok [TkIdent "dataset"; TkGroup (commas quads)].

(** [generate_value_input_attribute] — generator/src/lib.rs 232-246. *)
Definition value_input_attribute (input : list (pattern R)) : gres (list token) :=
  let* input := mapM pattern_to_id input in
  Ok (strings_attribute "input" input).

(** [generate_value_graph_attribute] — generator/src/lib.rs 248-270. *)
Definition value_graph_attribute (graph : option (option (pattern R))) : gres (list token) :=
  let* expr := match graph with
               | Some (Some p) => let* g := pattern_to_id p in Ok [TkIdent "Some"; TkGroup [TkStr g]]
               | Some None => Ok [TkIdent "None"]
               | None => Ok [TkIdent "_"]
               end in
  Ok [TkIdent "graph"; TkGroup expr].

Definition tldr (items : list (list token)) : list attribute := [Attr "tldr" (Some (commas items))].

(** The attribute and the type of a field, variant or item — generator/src/lib.rs 372-376, 406-410, 433-438, 483-488.
    [offset] is [layout.input + layout.intro]. *)
Definition component (o : gen_options) (offset : nat) (it : item_layout R) : gres (list attribute * rty) :=
  let intro := intro_attribute (it_intro it) offset in
  let* dataset := dataset_attribute (it_dataset it) in
  let* input := value_input_attribute (vf_input (it_value it)) in
  let* graph := value_graph_attribute (vf_graph (it_value it)) in
  let* ty := layout_type o (vf_layout (it_value it)) in
  Ok (tldr [intro; dataset; input; graph], ty).

(** The fields of a record — generator/src/lib.rs 367-384: required or not. *)
Definition gen_field (o : gen_options) (offset : nat) (kf : value * field R) : gres rfield :=
  match fst kf with
  | VLit (LText name) =>
      if is_rust_ident name then
        let* c := component o offset (f_item (snd kf)) in
        Ok (RField name (fst c) (snd c))
      else Err (InvalidFieldIdent (fst kf))
  | other => Err (InvalidFieldIdent other)
  end.

(** The variants of a sum — generator/src/lib.rs 402-416. *)
Definition gen_variant (o : gen_options) (offset : nat) (v : variant R) : gres rvariant :=
  if is_rust_ident (va_name v) then
    let* c := component o offset (va_item v) in
    Ok (RVariant (va_name v) (fst c) (FUnnamed [RField EmptyString [] (snd c)]))
  else Err (InvalidVariantIdent (va_name v)).

(** The items of a tuple — generator/src/lib.rs 482-494. *)
Definition gen_item_field (o : gen_options) (offset : nat) (it : item_layout R) : gres rfield :=
  let* c := component o offset it in
  Ok (RField EmptyString (fst c) (snd c)).

(** [Vec<#ty>], [::std::collection::BTreeSet<#ty>] — generator/src/lib.rs 470, 445. *)
Definition vec_of (ty : rty) : rty := RPath false false [("Vec"%string, Angled [GTy ty])].
Definition set_of (ty : rty) : rty :=
  RPath false true [("std", NoArgs); ("collection", NoArgs); ("BTreeSet", Angled [GTy ty])]%string.

(** The attributes [input], [intro] and [dataset] of a type — generator/src/lib.rs 293-295 and alike. *)
Definition gen_header (h : header R) : gres (list token * list token * list token) :=
  let* dataset := dataset_attribute (h_dataset h) in
  Ok (input_attribute (h_input h), intro_attribute (h_intro h) (h_input h), dataset).

(** A struct with one field, without attributes — generator/src/lib.rs 308-345, 353-357. *)
Definition newtype (ty : rty) : rdata := DStruct (FUnnamed [RField EmptyString [] ty]).
Definition data_type (k : data_kind) : rty :=
  match k with
  | KBoolean => ident_type "bool"
  | KNumber => ident_type "Number"
  | KTextString _ => ident_type "String"
  | KByteString => vec_of (ident_type "u8")
  end.

(** The items generated for a layout — the [match] of [generate], generator/src/lib.rs 286-507. *)
Definition generate_layout (o : gen_options) (ident : string) (l : layout R) : gres gen_item :=
  match l with
  | Always => Ok (GenAlias ident "treeldr::Always")
  | Never => Ok (GenAlias ident "treeldr::Never")
  | UnitL h _ =>
      let* a := gen_header h in let '(input, intro, dataset) := a in
      Ok (GenType (DeriveInput ident (tldr [input; intro; dataset]) (DStruct FUnit)))
  | DataL k h _ _ =>
      let* a := gen_header h in let '(input, intro, dataset) := a in
      Ok (GenType (DeriveInput ident (tldr [input; intro; dataset]) (newtype (data_type k))))
  | IdL h _ _ =>
      let* a := gen_header h in let '(input, intro, dataset) := a in
      Ok (GenType (DeriveInput ident (tldr [[TkIdent "id"]; input; intro; dataset]) (newtype (ident_type "Id"))))
  | ProductL h fields =>
      let* a := gen_header h in let '(input, intro, dataset) := a in
      let* fields := mapM (gen_field o (h_input h + h_intro h)) fields in
      Ok (GenType (DeriveInput ident (tldr [input; intro; dataset]) (DStruct (FNamed fields))))
  | SumL h variants =>
      let* a := gen_header h in let '(input, intro, dataset) := a in
      let* variants := mapM (gen_variant o (h_input h + h_intro h)) variants in
      Ok (GenType (DeriveInput ident (tldr [input; intro; dataset]) (DEnum variants)))
  | UnorderedL h it =>
      let* a := gen_header h in let '(input, intro, dataset) := a in
      let* c := component o (h_input h + h_intro h) it in
      Ok (GenType (DeriveInput ident (tldr [[TkIdent "set"]; intro; dataset; input])
                     (DStruct (FUnnamed [RField EmptyString (fst c) (set_of (snd c))]))))
  | OrderedL h node head tail =>
      let* a := gen_header h in let '(input, intro, dataset) := a in
      let* head := pattern_to_id head in
      let* tail := pattern_to_id tail in
      let offset := h_input h + h_intro h in
      let node_intro := intro_attribute (it_intro node) (offset + 2) in
      let* node_dataset := dataset_attribute (it_dataset node) in
      let* node_input := value_input_attribute (vf_input (it_value node)) in
      let* node_graph := value_graph_attribute (vf_graph (it_value node)) in
      let* ty := layout_type o (vf_layout (it_value node)) in
      Ok (GenType (DeriveInput ident
            (tldr [[TkIdent "list"]; intro; strings_attribute "head" [head]; strings_attribute "tail" [tail];
                   dataset; input])
            (DStruct (FUnnamed [RField EmptyString
               (tldr [strings_attribute "head" [nat_string offset];
                      strings_attribute "rest" [nat_string (offset + 1)];
                      node_intro; node_dataset; node_input; node_graph])
               (vec_of ty)]))))
  | SizedL h items =>
      let* a := gen_header h in let '(input, intro, dataset) := a in
      let* items := mapM (gen_item_field o (h_input h + h_intro h)) items in
      Ok (GenType (DeriveInput ident (tldr [[TkIdent "tuple"]; intro; dataset; input])
                     (DStruct (FUnnamed items))))
  end.

(** [generate] — generator/src/lib.rs 272-508. *)
Definition generate (ls : registry R) (r : R) (o : gen_options) : gres gen_item :=
  let* l := unwrap "layouts.get" (ls r) in
  let* ident := layout_ident r in
  generate_layout o ident l.

(** [generate_layouts] — generators/rust/treeldr-rs-macros/src/lib.rs 67-90: an error aborts the
    macro. *)
Definition generate_layouts (ls : layouts R) (o : gen_options) : gres (list gen_item) :=
  mapM (fun rl => generate (layouts_get ls) (fst rl) o) ls.

End Generate.
