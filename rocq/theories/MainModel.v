(** * The program [tldr]: exit status, standard output and diagnostics ([src/main.rs])

    [CliModel.v] gives what a command writes, or its error.  Here the program around it: the files kept
    for the diagnostics, the position of the errors, the diagnostic itself, the exit status, and the
    standard output of Rust, which is buffered and may refuse what is written.  The parsing of the arguments
    ([clap]), the log and the rendering of the diagnostic on the standard error are not modelled.  A panic
    while a value is being written in CBOR is modelled as a panic before anything is written. *)

From Coq Require Import String Ascii List Bool Arith NArith ZArith Qcanon.
Import ListNotations.
From Verif Require Import Base Orders PatternModel MatchingModel ValueModel LayoutModel HydrateModel TermModel
  DehydrateModel JsonModel CborModel AbsModel AbsJsonModel PositionModel PreludeModel CliModel.
Open Scope list_scope.
Open Scope nat_scope.

(** [codespan_reporting::files::SimpleFiles] (external): the name and the source of each file; the
    identifier of a file is its index. *)
Definition files : Type := list (string * string).

(** [Error] — src/main.rs 281-297: the errors of the layout files with the file, and the others. *)
Inductive main_error : Type :=
| MainIO
| MainJsonSyntax (id : nat)
| MainLayoutSyntax (id : nat) (cm : code_map) (e : pos_error)
| MainLayoutBuild (id : nat) (e : build_error)
| MainCommand (e : cli_error)
(** the standard output refuses what is written ([Error::IO], [WriteError::IO], [WriteError::Cbor]). *)
| MainWrite.

(** ** Diagnostics *)

(** The message of a diagnostic: a constant, or the text of an error ([to_string]). *)
Inductive message : Type :=
| MsgJson
| MsgLayoutSyntax
| MsgNoDefaultLayout
| MsgAmbiguousLayout
| MsgIO
| MsgBuild (e : build_error)
| MsgCommand (e : cli_error)
| MsgWrite.

(** A label: the place of a JSON error (given by [json_syntax], not modelled), or a label on a fragment (see
    [PositionModel.v]). *)
Inductive main_label : Type :=
| LabelJson
| LabelFragment (l : label).
Inductive note : Type :=
| NoteHint (h : error_hint)
| NoteUseLayout.
Record main_diagnostic : Type := MainDiagnostic {
  md_message : message;
  md_labels : list (nat * main_label);
  md_notes : list note
}.

(** [Error::into_diagnostic] — src/main.rs 299-354. *)
Definition into_diagnostic (e : main_error) : outcome Empty_set main_diagnostic :=
  match e with
  | MainIO => Ok (MainDiagnostic MsgIO [] [])
  | MainJsonSyntax id => Ok (MainDiagnostic MsgJson [(id, LabelJson)] [])
  | MainLayoutSyntax id cm e =>
      let* d := syntax_diagnostic cm e in
      Ok (MainDiagnostic MsgLayoutSyntax (map (fun l => (id, LabelFragment l)) (labels d)) (map NoteHint (notes d)))
  | MainLayoutBuild _ e => Ok (MainDiagnostic (MsgBuild e) [] [])
  | MainCommand CliNoDefaultLayout => Ok (MainDiagnostic MsgNoDefaultLayout [] [NoteUseLayout])
  | MainCommand CliAmbiguousDefaultLayout => Ok (MainDiagnostic MsgAmbiguousLayout [] [NoteUseLayout])
  | MainCommand e => Ok (MainDiagnostic (MsgCommand e) [] [])
  | MainWrite => Ok (MainDiagnostic MsgWrite [] [])
  end.

(** [term::emit(..).unwrap()] — src/main.rs 158: it fails if a label is in an unknown file. *)
Definition emit (fs : files) (d : main_diagnostic) : outcome Empty_set unit :=
  if forallb (fun l => fst l <? length fs) (md_labels d) then Ok tt else Panic "emit".

(** ** The standard output *)

Definition newline : ascii := "010"%char.
(** The text sent, and the text that waits in the buffer. *)
Record stdout : Type := Stdout { sent : list ascii; pending : list ascii }.
(** The part up to the last end of line, with it, and the part after it ([memchr::memrchr], external). *)
Fixpoint last_line (s : list ascii) : option (list ascii * list ascii) :=
  match s with
  | [] => None
  | c :: s' =>
      match last_line s' with
      | Some (lines, tail) => Some (c :: lines, tail)
      | None => if Ascii.eqb c newline then Some ([c], s') else None
      end
  end.

Section Output.
(** The number of characters that the output accepts before it fails (a full disk, a closed pipe);
    [None]: it never does. *)
Variable room : option nat.
(** The capacity of the buffer (1024 in [std::io::LineWriter]). *)
Variable capacity : nat.

(** [write_all] on the file itself ([std], external): what is sent and what is not. *)
Definition send (o s : list ascii) : list ascii * list ascii :=
  match room with
  | None => (o ++ s, [])
  | Some r => (o ++ firstn (r - length o) s, skipn (r - length o) s)
  end.
Definition is_nil {A} (l : list A) : bool := match l with [] => true | _ => false end.
(** [BufWriter::flush_buf] ([std], external): what is not sent stays. *)
Definition flush (o : stdout) : stdout * bool :=
  let (s, p) := send (sent o) (pending o) in (Stdout s p, is_nil p).
(** [BufWriter::write_all] ([std], external). *)
Definition buf_write (o : stdout) (s : list ascii) : stdout * bool :=
  if length (pending o) + length s <? capacity then (Stdout (sent o) (pending o ++ s), true)
  else
    let (o, ok) := if capacity <? length (pending o) + length s then flush o else (o, true) in
    if ok then
      if capacity <=? length s
      then let (t, p) := send (sent o) s in (Stdout t (pending o), is_nil p)
      else (Stdout (sent o) (pending o ++ s), true)
    else (o, false).
(** [LineWriter::write_all] ([std], external). *)
Definition line_write (o : stdout) (s : list ascii) : stdout * bool :=
  match last_line s with
  | None =>
      let (o, ok) := match rev (pending o) with
                     | c :: _ => if Ascii.eqb c newline then flush o else (o, true)
                     | [] => (o, true)
                     end in
      if ok then buf_write o s else (o, false)
  | Some (lines, tail) =>
      let (o, ok) :=
        if is_nil (pending o)
        then let (t, p) := send (sent o) lines in (Stdout t [], is_nil p)
        else let (o, ok) := buf_write o lines in if ok then flush o else (o, false) in
      if ok then buf_write o tail else (o, false)
  end.
(** A text is written piece by piece, until an error ([write!], [writeln!], [serde_cbor::to_writer]). *)
Fixpoint write_pieces (o : stdout) (ps : list (list ascii)) : stdout * bool :=
  match ps with
  | [] => (o, true)
  | p :: ps' => let (o, ok) := line_write o p in if ok then write_pieces o ps' else (o, false)
  end.
(** At the exit of the program the buffer is flushed, an error is ignored ([std::io::cleanup], external). *)
Definition close (o : stdout) : list ascii := sent (fst (flush o)).
End Output.

Section Main.
Context {TS : TextSyntax} {IS : IriSyntax} {AE : AbsExternal} {X : Xsd} {CC : Cmp cbor} {F : Type} {FM : Formats F}.
Variables (arbitrary_precision : bool) (json_float : string -> option F)
  (from_f64 : F -> option Qc) (to_f64 : Qc -> F).
Variable index : list (quad term) -> dataset term.
Variable order : list (quad res) -> list (quad res).
Variable lines : list (quad term) -> list (quad term).
Variable extra_properties : term -> option (list (term * term)).
Variable is_unsigned_long : string -> bool.
Variable file : string -> option string.
Variable stdin : string.

(** [load_layout] — src/main.rs 357-394 ([builder.build()] returns no error). *)
Definition load_layout_at (fuel : nat) (fs : files) (id : nat) (m : layouts term) (n : nat)
  : outcome main_error (term * layouts term * nat) :=
  let* f := unwrap "files.get" (nth_error fs id) in
  match json_parse (snd f) with
  | None => Err (MainJsonSyntax id)
  | Some j =>
      let* l := map_err (MainLayoutSyntax id (code_map_of j)) (read_layout j) in
      let (o, s) := build_with_context term_context l (n, []) in
      let* r := map_err (MainLayoutBuild id) o in
      let* new := map_err MainCommand (builder_build fuel (snd s)) in
      let* m := map_err (fun _ => MainLayoutBuild id LayoutRedefinition) (insert_layouts new m) in
      Ok (r, m, fst s)
  end.

(** One of the two loops of [run] — src/main.rs 195-206: the files read so far, and the references of the
    layouts, which the first loop gives to [DefaultLayoutRef::set]. *)
Fixpoint load_each (fuel : nat) (names : list string) (fs : files) (m : layouts term) (n : nat)
  : files * outcome main_error (list term * layouts term * nat) :=
  match names with
  | [] => (fs, Ok ([], m, n))
  | name :: names' =>
      match file name with
      | None => (fs, Err MainIO)
      | Some source =>
          let id := length fs in
          let fs := fs ++ [(name, source)] in
          match load_layout_at fuel fs id m n with
          | Ok (r, m, n) =>
              let (fs, o) := load_each fuel names' fs m n in
              (fs, let* x := o in let '(rs, m, n) := x in Ok (r :: rs, m, n))
          | Err e => (fs, Err e)
          | Panic w => (fs, Panic w)
          | OutOfFuel => (fs, OutOfFuel)
          end
      end
  end.

(** [run] — src/main.rs 190-214: the files, and the text to write. *)
Definition run_main (fuel : nat) (a : args) : files * outcome main_error string :=
  match load_each fuel (a_layouts a) [] [] 0 with
  | (fs, Ok (rs, m, n)) =>
      match load_each fuel (a_include a) fs m n with
      | (fs, Ok (_, m, _)) =>
          let d := fold_left (fun d r => default_set r d) rs DefaultNone in
          let prelude := if a_no_prelude a then None
                         else Some (prelude_registry arbitrary_precision json_float from_f64 fuel) in
          let reg := union_get (reg_with (layouts_get m) (option_get prelude)) in
          (fs, match a_command a with
               | None => Ok ""%string
               | Some c =>
                   map_err MainCommand
                     (run_command from_f64 to_f64 index order lines extra_properties is_unsigned_long stdin fuel c reg d)
               end)
      | (fs, Err e) => (fs, Err e)
      | (fs, Panic w) => (fs, Panic w)
      | (fs, OutOfFuel) => (fs, OutOfFuel)
      end
  | (fs, Err e) => (fs, Err e)
  | (fs, Panic w) => (fs, Panic w)
  | (fs, OutOfFuel) => (fs, OutOfFuel)
  end.

(** What the shell sees: the status, the diagnostic on the standard error, and the standard output. *)
Inductive status : Type :=
| ExitSuccess
| ExitFailure (d : main_diagnostic).
Variables (room : option nat) (capacity : nat).
(** The pieces in which a text is written (by the crates that print it, external). *)
Variable pieces : string -> list (list ascii).

(** [main] — src/main.rs 140-162. *)
Definition main (fuel : nat) (a : args) : outcome Empty_set (status * list ascii) :=
  let (fs, o) := run_main fuel a in
  let (out, o) :=
    match o with
    | Ok text =>
        let (out, ok) := write_pieces room capacity (Stdout [] []) (pieces text) in
        (out, if ok then Ok tt else Err MainWrite)
    | Err e => (Stdout [] [], Err e)
    | Panic w => (Stdout [] [], Panic w)
    | OutOfFuel => (Stdout [] [], OutOfFuel)
    end in
  match o with
  | Ok _ => Ok (ExitSuccess, close room out)
  | Err e =>
      let* d := into_diagnostic e in
      let* _ := emit fs d in
      Ok (ExitFailure d, close room out)
  | Panic w => Panic w
  | OutOfFuel => OutOfFuel
  end.
End Main.
