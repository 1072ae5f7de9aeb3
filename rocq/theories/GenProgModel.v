(** * The macros [tldr] and [tldr_include], and the program [tldr-rs]
      ([generators/rust/treeldr-rs-macros/src/lib.rs], [generators/rust/generator/src/bin/main.rs])

    The parsing of the arguments ([clap]) and of the tokens of the module ([syn]), the log and the rendering of
    the errors are not modelled; what is generated is the list of the items (CodeGenModel.v), not their tokens.
    Reading a text with [serde_json::from_str] is [json_parse] (the grammar of JSON, as for the command line),
    followed by [json_serde] and the deserialization of layouts (AbsSerdeModel.v). *)

From Coq Require Import String Ascii List Bool Arith NArith ZArith QArith Qcanon.
Import ListNotations.
From Verif Require Import Base Orders PatternModel ValueModel LayoutModel HydrateModel TermModel NumberModel DehydrateModel
  JsonModel RegexpModel AbsModel AbsJsonModel AbsSerdeModel AttrModel CodeGenModel CliModel.
Open Scope list_scope.
Open Scope nat_scope.
Open Scope string_scope.

(** [Error] — treeldr-rs-macros/src/lib.rs 25-32, and the other reasons to abort: [generate_layouts] (82-84), the
    items of the module (118-160). *)
Inductive macro_error : Type :=
| MacroJson
| MacroLayout (e : build_error)
| MacroGenerate (e : gen_error term)
| MacroItem.

(** [syn::UseTree] (external). *)
Inductive use_tree : Type :=
| UsePath (ident : string) (tree : use_tree)
| UseName (ident : string)
| UseRename (ident rename : string)
| UseGlob
| UseGroup (trees : list use_tree).

(** [use_tree_ident] — treeldr-rs-macros/src/lib.rs 91-98. *)
Fixpoint use_tree_ident (t : use_tree) : option string :=
  match t with
  | UseName i => Some i
  | UseRename _ i => Some i
  | UsePath _ t => use_tree_ident t
  | _ => None
  end.

(** [syn::Item] (external): a [use] declaration, or something else. *)
Inductive mod_item : Type :=
| ItemUse (attrs : list attribute) (tree : use_tree)
| ItemOther.

(** The loop on the attributes of a declaration — treeldr-rs-macros/src/lib.rs 113-133: the prefix. *)
Fixpoint use_prefix (attrs : list attribute) (prefix : option string) : outcome macro_error (option string) :=
  match attrs with
  | [] => Ok prefix
  | Attr name meta :: attrs' =>
      if String.eqb name "tldr" then
        match meta with
        | Some [TkStr s] => use_prefix attrs' (Some s)
        | _ => Err MacroItem
        end
      else Err MacroItem
  end.

(** The loop on the items of the module — treeldr-rs-macros/src/lib.rs 108-161: the options, and the declarations
    without their attributes. *)
Fixpoint module_options (items : list mod_item) (o : gen_options) : outcome macro_error (gen_options * list use_tree) :=
  match items with
  | [] => Ok (o, [])
  | ItemUse attrs tree :: items' =>
      let* prefix := use_prefix attrs None in
      let* o :=
        match prefix with
        | Some p =>
            match use_tree_ident tree with
            | Some i => ok_or MacroItem (use_module p (RsPath false [(i, NoArgs)]) o)
            | None => Err MacroItem
            end
        | None => Ok o
        end in
      let* x := module_options items' o in
      Ok (fst x, tree :: snd x)
  | ItemOther :: _ => Err MacroItem
  end.

(** The errors of the program — generator/src/bin/main.rs 57-58, 75-77, 82-84, 98-100: it exits with a failure. *)
Inductive program_error : Type :=
| ProgCompile (e : build_error)
| ProgUnknownLayout
| ProgMissingLayout
| ProgGenerate (e : gen_error term).

Section Program.
Context {TS : TextSyntax} {IS : IriSyntax} {AE : AbsExternal} {RS : RustSyntax} {F : Type} {FM : Formats F}.
Variables (arbitrary_precision : bool) (json_float : string -> option F) (from_f64 : F -> option Qc).
Variable file : string -> option string.

(** [serde_json::from_str::<abs::syntax::Layout>] — treeldr-rs-macros/src/lib.rs 44, generator/src/bin/main.rs
    53. *)
Definition read_layout (source : string) : outcome unit alayout :=
  match json_parse source with
  | None => Err tt
  | Some j =>
      let* s := json_serde arbitrary_precision json_float j in
      layout_deserialize from_f64 s
  end.

(** The loop of [Attribute::build] — treeldr-rs-macros/src/lib.rs 40-53. *)
Fixpoint attribute_builder (names : list string) (b : @builder term) : outcome macro_error (@builder term) :=
  match names with
  | [] => Ok b
  | name :: names' =>
      let* source := unwrap "lib.rs 42: unwrap" (file name) in
      let* l := map_err (fun _ => MacroJson) (read_layout source) in
      let (o, b) := build_document l b in
      let* _ := map_err MacroLayout o in
      attribute_builder names' b
  end.
(** [Attribute::build] — treeldr-rs-macros/src/lib.rs 37-56. *)
Definition attribute_build (fuel : nat) (names : list string) : outcome macro_error (layouts term) :=
  let* b := attribute_builder names [] in builder_build fuel b.

(** [tldr_include] — treeldr-rs-macros/src/lib.rs 191-210. *)
Definition tldr_include (fuel : nat) (names : list string) : outcome macro_error (list gen_item) :=
  let* m := attribute_build fuel names in
  map_err MacroGenerate (generate_layouts m []).

(** [tldr] — treeldr-rs-macros/src/lib.rs 100-189: the declarations and the items of the module. *)
Definition tldr_module (fuel : nat) (names : list string) (content : option (list mod_item))
  : outcome macro_error (list use_tree * list gen_item) :=
  let* m := attribute_build fuel names in
  match content with
  | Some items =>
      let* x := module_options items [] in
      let* ts := map_err MacroGenerate (generate_layouts m (fst x)) in
      Ok (snd x, ts)
  | None => Ok ([], [])
  end.

(** The loop of [main] — generator/src/bin/main.rs 50-66; [DefaultLayoutRef] (20-34) has the three cases of the one
    of the command line: [Unknown] is [DefaultNone], [None] is [DefaultAmbiguous].  A file that cannot be read as a
    layout is logged. *)
Fixpoint program_builder (names : list string) (d : default_layout) (b : @builder term)
  : outcome program_error (default_layout * @builder term) :=
  match names with
  | [] => Ok (d, b)
  | name :: names' =>
      let* source := unwrap "main.rs 51: unwrap" (file name) in
      match read_layout source with
      | Ok l =>
          let (o, b) := build_document l b in
          let* r := map_err ProgCompile o in
          program_builder names' (default_set r d) b
      | Err _ => program_builder names' d b
      | Panic w => Panic w
      | OutOfFuel => OutOfFuel
      end
  end.

(** The layout to generate — generator/src/bin/main.rs 70-86. *)
Definition program_layout (m : layouts term) (d : default_layout) (layout : option string) : outcome program_error term :=
  match layout with
  | Some i =>
      match layouts_get m (TmIri i) with
      | Some _ => Ok (TmIri i)
      | None => Err ProgUnknownLayout
      end
  | None =>
      match d with
      | DefaultSome r => Ok r
      | _ => Err ProgMissingLayout
      end
  end.

(** [main] — generator/src/bin/main.rs 36-104: the item written, or a failure. *)
Definition program (fuel : nat) (layout : option string) (names : list string) : outcome program_error gen_item :=
  let* x := program_builder names DefaultNone [] in
  let* m := builder_build fuel (snd x) in
  let* r := program_layout m (fst x) layout in
  map_err ProgGenerate (generate (layouts_get m) r []).
End Program.
