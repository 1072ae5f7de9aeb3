(** * The command line, with the extra properties of the layouts that it loads ([src/main.rs])

    [CliModel.v] has the extra properties of the layouts as a parameter.  Here they are those of the files: see [ExtraModel.v].  Only the
    output in CBOR depends on them ([C112_other_commands]). *)

From Coq Require Import String Ascii List Bool Arith NArith ZArith QArith Qcanon.
Import ListNotations.
From Verif Require Import Base Orders PatternModel MatchingModel ValueModel LayoutModel HydrateModel TermModel
  NumberModel DehydrateModel JsonModel CborModel RegexpModel AbsModel AbsJsonModel AbsSerdeModel PreludeModel CliModel ExtraModel.
Open Scope list_scope.
Open Scope nat_scope.

Section Cli.
Context {TS : TextSyntax} {IS : IriSyntax} {AE : AbsExternal} {X : Xsd} {CC : Cmp cbor} {F : Type} {FM : Formats F}.
Variables (arbitrary_precision : bool) (json_float : string -> option F)
  (from_f64 : F -> option Qc) (to_f64 : Qc -> F).
Variable index : list (quad term) -> dataset term.
Variable order : list (quad res) -> list (quad res).
Variable lines : list (quad term) -> list (quad term).
Variable is_unsigned_long : string -> bool.

(** The properties of the layouts of a file, beside those there are: in the code they are inside the layouts, put in the registry by the loop of
    src/main.rs 374-382. *)
Definition add_extras (new ex : @extras term) : @extras term :=
  fold_left (fun ex (e : term * list (term * term)) => bt_insert (fst e) (snd e) ex) new ex.

(** [load_layout] — src/main.rs 357-394: see [CliModel.load_layout]. *)
Definition load_layout_extra (fuel : nat) (source : string) (m : layouts term) (ex : @extras term) (n : nat)
  : outcome cli_error (term * layouts term * @extras term * nat) :=
  match json_parse source with
  | None => Err CliJsonSyntax
  | Some j =>
      let* l := map_err CliLayoutSyntax (layout_from_json j) in
      let (o, s) := build_with_extra term_context l ((n, []), []) in
      let* r := map_err CliLayoutBuild o in
      let* new := builder_build fuel (snd s) in
      let* m := insert_layouts new m in
      Ok (r, m, add_extras (snd (fst s)) ex, fst (fst s))
  end.

Variable file : string -> option string.
Variable stdin : string.

(** The two loops of [run] — src/main.rs 195-206. *)
Fixpoint load_files_extra (fuel : nat) (names : list string) (d : default_layout) (m : layouts term) (ex : @extras term) (n : nat)
  : outcome cli_error (default_layout * layouts term * @extras term * nat) :=
  match names with
  | [] => Ok (d, m, ex, n)
  | name :: names' =>
      let* source := ok_or CliIO (file name) in
      let* x := load_layout_extra fuel source m ex n in
      let '(r, m, ex, n) := x in
      load_files_extra fuel names' (default_set r d) m ex n
  end.
Fixpoint include_files_extra (fuel : nat) (names : list string) (m : layouts term) (ex : @extras term) (n : nat)
  : outcome cli_error (layouts term * @extras term * nat) :=
  match names with
  | [] => Ok (m, ex, n)
  | name :: names' =>
      let* source := ok_or CliIO (file name) in
      let* x := load_layout_extra fuel source m ex n in
      let '(_, m, ex, n) := x in
      include_files_extra fuel names' m ex n
  end.

(** [layouts.get(ref)] then [extra_properties()] (layouts/src/layout/mod.rs 175-184), in the registry of [run] (src/main.rs 208): the layouts of
    the files, then those of the prelude, which have no extra properties (no document of layouts/prelude has a key [extra]). *)
Definition run_properties (prelude : option (registry term)) (m : layouts term) (ex : @extras term) (ref : term)
  : option (list (term * term)) :=
  match registry_properties m ex ref with
  | Some p => Some p
  | None => match option_get prelude ref with Some _ => Some [] | None => None end
  end.

(** [run] — src/main.rs 190-214. *)
Definition run_extra (fuel : nat) (a : args) : outcome cli_error string :=
  let* x := load_files_extra fuel (a_layouts a) DefaultNone [] [] 0 in
  let '(d, m, ex, n) := x in
  let* y := include_files_extra fuel (a_include a) m ex n in
  let '(m, ex, n) := y in
  let prelude := if a_no_prelude a then None else Some (prelude_registry arbitrary_precision json_float from_f64 fuel) in
  let reg := union_get (reg_with (layouts_get m) (option_get prelude)) in
  match a_command a with
  | None => Ok ""%string
  | Some c => run_command from_f64 to_f64 index order lines (run_properties prelude m ex) is_unsigned_long stdin fuel c reg d
  end.
End Cli.
