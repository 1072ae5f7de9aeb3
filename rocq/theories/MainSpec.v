(** * Specification of the program [tldr]: its output, its status and its diagnostics *)

From Coq Require Import String Ascii List Bool Arith NArith ZArith Qcanon.
Import ListNotations.
From Verif Require Import Base DehydrateModel TermModel JsonModel AbsModel AbsJsonModel AbsJsonSpec PositionModel PositionSpec CliModel CliSpec MainModel.
Open Scope list_scope.
Open Scope nat_scope.

(** ** The output *)

(** What an output that accepts [room] characters keeps of a text. *)
Definition accepted (room : option nat) (text : list ascii) : list ascii :=
  match room with None => text | Some r => firstn r text end.
(** It keeps all of it. *)
Definition enough (room : option nat) (text : list ascii) : Prop :=
  match room with None => True | Some r => length text <= r end.
(** The commands that write quads. *)
Definition writes_quads (a : args) : Prop :=
  a_command a = None \/ a_command a = Some ConvertRdf \/ exists input layout, a_command a = Some (Dehydrate input layout).

(** The error of a command, without the file and the position. *)
Definition cli_error_of (e : main_error) : cli_error :=
  match e with
  | MainIO => CliIO
  | MainJsonSyntax _ => CliJsonSyntax
  | MainLayoutSyntax _ _ e => CliLayoutSyntax (pe_error e)
  | MainLayoutBuild _ e => CliLayoutBuild e
  | MainCommand e => e
  | MainWrite => CliIO
  end.

(** ** The diagnostics *)

Section Blame.
Context {TS : TextSyntax} {IS : IriSyntax} {AE : AbsExternal} {F : Type} {FM : Formats F}.
Variable file : string -> option string.

(** Among the files [names], [name] is number [id] and contains [source]; those before it are acceptable. *)
Definition first_bad (names : list string) (id : nat) (name source : string) : Prop :=
  exists before after, names = before ++ name :: after /\ length before = id /\ file name = Some source /\
    acceptable file before.

(** What the diagnostic says of a document that is not a layout: where the error is, with the other entry when an
    entry is duplicated, and the types expected and found when the type is not one. *)
Definition describes (doc : json) (id : nat) (d : main_diagnostic) : Prop :=
  exists e i other, points_at doc e i other /\
    md_labels d =
      (id, LabelFragment (LabelPrimary i e)) ::
      match other with Some i' => [(id, LabelFragment (LabelSecondary i' (HintDuplicateEntry i')))] | None => [] end /\
    md_notes d =
      match e with InvalidType expected found => [NoteHint (HintExpectedType expected); NoteHint (HintFoundType found)] | _ => [] end.
End Blame.
