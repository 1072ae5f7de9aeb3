(** * The command line ([src/main.rs], [src/rdf.rs], [src/format/**])

    The parsing of the arguments ([clap]), the log and the rendering of the errors are not modelled.  The
    world is what the program reads: the files, and the standard input; the result of a run is what it
    writes on the standard output, once it is finished: an error while writing is not modelled. *)

From Coq Require Import String Ascii List Bool Arith NArith ZArith QArith Qcanon.
Import ListNotations.
From Verif Require Import Base Orders PatternModel MatchingModel ValueModel LayoutModel HydrateModel TermModel
  NumberModel DehydrateModel JsonModel CborModel RegexpModel AbsModel AbsJsonModel AbsSerdeModel PreludeModel.
Open Scope list_scope.
Open Scope nat_scope.
Open Scope string_scope.

(** [TreeFormat] — src/format/tree.rs 33-36; [RDFFormat] (src/format/rdf.rs 17-20) has one case. *)
Inductive tree_format : Type := Json | Cbor.

(** [TreeFormat::new] and [RDFFormat::new] — src/format/tree.rs 48-54, src/format/rdf.rs 32-37. *)
Definition tree_format_new (name : string) : option tree_format :=
  if (String.eqb name "application/json" || String.eqb name "json")%bool then Some Json
  else if (String.eqb name "application/cbor" || String.eqb name "cbor")%bool then Some Cbor
  else None.
Definition is_rdf_format (name : string) : bool :=
  existsb (String.eqb name) ["nq"; "nquads"; "n-quads"; "application/n-quads"].

(** [Command], [Convert] and [Args] — src/main.rs 22-137. *)
Inductive command : Type :=
| Hydrate (output : tree_format) (layout : option term) (subjects : list term) (pretty : bool)
| Dehydrate (input : tree_format) (layout : option term)
| ConvertTree (input output : tree_format) (pretty : bool)
| ConvertRdf.
Record args : Type := Args {
  a_layouts : list string;
  a_include : list string;
  a_no_prelude : bool;
  a_command : option command
}.

(** [Error] — src/main.rs 281-297, with [WriteError] (src/format/tree.rs 18-31); the errors of the
    readers are not distinguished. *)
Inductive cli_error : Type :=
| CliIO
| CliJsonSyntax
| CliLayoutSyntax (e : abs_error)
| CliLayoutBuild (e : build_error)
| CliNoDefaultLayout
| CliAmbiguousDefaultLayout
| CliLoadRdf
| CliLoadTree
| CliHydrate (e : hy_error term)
| CliDehydrate (e : de_error term)
| CliNonJson (e : non_json)
| CliCborTag (e : invalid_tag).

(** The readers and the writers of the crates [json_syntax], [serde_cbor], [nquads_syntax] (external). *)
Class Formats (F : Type) : Type := {
  json_parse : string -> option json;
  json_print : bool -> json -> string;
  cbor_parse : string -> option (serde_value F);
  cbor_print : serde_value F -> string;
  cbor_value_print : cbor -> string;
  nquads_parse : string -> option (list (quad term));
  quad_print : quad term -> string
}.

(** The result of a call, with its error as one of [cli_error]. *)
Definition map_err {E E' A} (f : E -> E') (o : outcome E A) : outcome E' A :=
  match o with
  | Ok a => Ok a
  | Err e => Err (f e)
  | Panic w => Panic w
  | OutOfFuel => OutOfFuel
  end.

(** [DefaultLayoutRef] — src/main.rs 163-188. *)
Inductive default_layout : Type :=
| DefaultNone
| DefaultSome (r : term)
| DefaultAmbiguous.
Definition default_set (r : term) (d : default_layout) : default_layout :=
  match d with
  | DefaultNone => DefaultSome r
  | DefaultSome _ => DefaultAmbiguous
  | DefaultAmbiguous => DefaultAmbiguous
  end.
Definition default_get (d : default_layout) (preferred : option term) : outcome cli_error term :=
  match preferred with
  | Some t => Ok t
  | None =>
      match d with
      | DefaultNone => Err CliNoDefaultLayout
      | DefaultSome r => Ok r
      | DefaultAmbiguous => Err CliAmbiguousDefaultLayout
      end
  end.

Section Cli.
Context {TS : TextSyntax} {IS : IriSyntax} {AE : AbsExternal} {X : Xsd} {CC : Cmp cbor} {F : Type} {FM : Formats F}.
Variables (arbitrary_precision : bool) (json_float : string -> option F)
  (from_f64 : F -> option Qc) (to_f64 : Qc -> F).
(** [into_indexed] ([rdf_types], external), and the order of the quads of a [BTreeDataset]: in [dehydrate]
    ([order]), and when it is written ([lines]). *)
Variable index : list (quad term) -> dataset term.
Variable order : list (quad res) -> list (quad res).
Variable lines : list (quad term) -> list (quad term).
(** The extra properties of the layouts, and the type of the tags: see [CborModel.v]. *)
Variable extra_properties : term -> option (list (term * term)).
Variable is_unsigned_long : string -> bool.

(** ** Layouts *)

(** The loop on the new layouts — src/main.rs 374-382. *)
Fixpoint insert_layouts (new : list (term * layout term)) (m : layouts term) : outcome cli_error (layouts term) :=
  match new with
  | [] => Ok m
  | (id, l) :: new' =>
      let (m, old) := layouts_insert id l m in
      match old with
      | Some _ => Err (CliLayoutBuild LayoutRedefinition)
      | None => insert_layouts new' m
      end
  end.

(** [load_layout] — src/main.rs 357-394: a new builder, the generator shared by the files ([n]).  The
    reference of the layout, the layouts and the generator. *)
Definition load_layout (fuel : nat) (source : string) (m : layouts term) (n : nat)
  : outcome cli_error (term * layouts term * nat) :=
  match json_parse source with
  | None => Err CliJsonSyntax
  | Some j =>
      let* l := map_err CliLayoutSyntax (layout_from_json j) in
      let (o, s) := build_with_context term_context l (n, []) in
      let* r := map_err CliLayoutBuild o in
      let* new := builder_build fuel (snd s) in
      let* m := insert_layouts new m in
      Ok (r, m, fst s)
  end.

(** What the program reads. *)
Variable file : string -> option string.
Variable stdin : string.

(** The two loops of [run] — src/main.rs 195-206. *)
Fixpoint load_files (fuel : nat) (names : list string) (d : default_layout) (m : layouts term) (n : nat)
  : outcome cli_error (default_layout * layouts term * nat) :=
  match names with
  | [] => Ok (d, m, n)
  | name :: names' =>
      let* source := ok_or CliIO (file name) in
      let* x := load_layout fuel source m n in
      let '(r, m, n) := x in
      load_files fuel names' (default_set r d) m n
  end.
Fixpoint include_files (fuel : nat) (names : list string) (m : layouts term) (n : nat)
  : outcome cli_error (layouts term * nat) :=
  match names with
  | [] => Ok (m, n)
  | name :: names' =>
      let* source := ok_or CliIO (file name) in
      let* x := load_layout fuel source m n in
      let '(_, m, n) := x in
      include_files fuel names' m n
  end.

(** ** Formats *)

(** [TreeFormat::load] — src/format/tree.rs 63-74. *)
Definition tree_load (f : tree_format) (input : string) : outcome cli_error value :=
  match f with
  | Json =>
      let* j := ok_or CliLoadTree (json_parse input) in no_error (value_from_json j)
  | Cbor =>
      let* s := ok_or CliLoadTree (cbor_parse input) in map_err (fun _ => CliLoadTree) (value_deserialize from_f64 s)
  end.

(** [TreeFormat::write_typed] — src/format/tree.rs 76-102; [CBOR_TAG_IRI] (layouts/src/value/cbor/mod.rs
    15). *)
Definition write_typed (f : tree_format) (v : typed_value term) (pretty : bool) : outcome cli_error string :=
  match f with
  | Json => let* j := map_err CliNonJson (value_to_json (into_untyped v)) in Ok (json_print pretty j)
  | Cbor =>
      let* c := map_err CliCborTag
                  (tagged_cbor (Some (TmIri "https://schema.treeldr.org/cbor#tag")) extra_properties is_unsigned_long v) in
      Ok (cbor_value_print c)
  end.

(** [TreeFormat::write_untyped] — src/format/tree.rs 104-122. *)
Definition write_untyped (f : tree_format) (v : value) (pretty : bool) : outcome cli_error string :=
  match f with
  | Json => let* j := map_err CliNonJson (value_to_json v) in Ok (json_print pretty j)
  | Cbor => let* s := no_error (value_serialize to_f64 v) in Ok (cbor_print s)
  end.

(** [RDFFormat::load] — src/format/rdf.rs 45-58: the quads collected in a [BTreeDataset]. *)
Definition rdf_load (input : string) : outcome cli_error (list (quad term)) :=
  let* qs := ok_or CliLoadRdf (nquads_parse input) in Ok (fold_left (fun d q => DehydrateModel.ds_insert q d) qs []).

(** [RDFFormat::write] — src/format/rdf.rs 60-74. *)
Fixpoint rdf_write (ds : list (quad term)) : string :=
  match ds with
  | [] => ""
  | q :: ds' => quad_print q ++ " ." ++ String "010" (rdf_write ds')
  end.

(** ** Commands — [Command::run], [Convert::run], src/main.rs 216-279. *)
Definition run_command (fuel : nat) (c : command) (reg : registry term) (d : default_layout) : outcome cli_error string :=
  match c with
  | Hydrate output layout subjects pretty =>
      let* r := default_get d layout in
      let* ds := rdf_load stdin in
      let* v := map_err CliHydrate (hydrate (index ds) reg fuel r subjects) in
      write_typed output v pretty
  | Dehydrate input layout =>
      let* r := default_get d layout in
      let* v := tree_load input stdin in
      let* x := map_err CliDehydrate (dehydrate order reg fuel v r default_options) in
      Ok (rdf_write (lines (fst x)))
  | ConvertTree input output pretty =>
      let* v := tree_load input stdin in
      write_untyped output v pretty
  | ConvertRdf =>
      let* ds := rdf_load stdin in Ok (rdf_write (lines ds))
  end.

(** [LayoutRegistry::get] of [Prelude]: see [PreludeModel.v]; building the prelude does not fail (C82). *)
Definition prelude_registry (fuel : nat) : registry term := fun r =>
  match prelude_get arbitrary_precision json_float from_f64 fuel r with Ok o => o | _ => None end.

(** [run] — src/main.rs 190-214, with [Args::prelude] (46-53). *)
Definition run (fuel : nat) (a : args) : outcome cli_error string :=
  let* x := load_files fuel (a_layouts a) DefaultNone [] 0 in
  let '(d, m, n) := x in
  let* y := include_files fuel (a_include a) m n in
  let prelude := if a_no_prelude a then None else Some (prelude_registry fuel) in
  let reg := union_get (reg_with (layouts_get (fst y)) (option_get prelude)) in
  match a_command a with
  | None => Ok ""
  | Some c => run_command fuel c reg d
  end.
End Cli.

(** [parse_term] — src/rdf.rs (command line), 8-16. *)
Definition parse_term {TS : TextSyntax} {IS : IriSyntax} (input : string) : option term :=
  match blank_suffix input with
  | Some b => Some (TmBlank b)
  | None => if is_iri input then Some (TmIri input) else None
  end.
