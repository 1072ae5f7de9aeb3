(** * The program [tldr]: cases, refutations and assumptions *)

From Coq Require Import String Ascii List Bool Arith NArith ZArith QArith Qcanon Lia.
Import ListNotations.
From Verif Require Import Base BaseProofs Orders PatternModel MatchingModel MatchingSpec ValueModel LayoutModel HydrateModel
  TermModel DehydrateModel JsonModel JsonProperties CborModel AbsModel AbsJsonModel AbsJsonSpec AbsJsonProofs AbsJsonProperties
  PositionModel PositionSpec PreludeModel CliModel CliSpec CliProofs CliProperties CliCodec CliExamples
  MainModel MainSpec MainProofs MainProperties.
Open Scope list_scope.
Open Scope nat_scope.
Open Scope string_scope.
Local Existing Instances cli_text cli_iris cli_external cli_xsd cli_cbor.

(** Other files: one that is not a JSON document, one in which an entry is given twice, one that uses a variable that is not declared. *)
Definition twice_doc : json := JObj [("type", JStr "boolean"); ("dataset", JArr []); ("dataset", JArr [])].
Definition undeclared_doc : json :=
  JObj [("type", JStr "record"); ("id", JStr "http://e.org/Other");
    ("fields", JObj [("name", JObj [("value", JObj [("layout", JObj [("type", JStr "string")]); ("input", JStr "_:nobody")]); ("property", JStr "http://e.org/name")])])].
Definition main_file (name : string) : option string :=
  if String.eqb name "twice.json" then Some (json_print false twice_doc)
  else if String.eqb name "undeclared.json" then Some (json_print false undeclared_doc)
  else cli_file name.
Definition one_piece (text : string) : list (list ascii) := [list_ascii_of_string text].
Definition each_char (text : string) : list (list ascii) := map (fun c => [c]) (list_ascii_of_string text).
Definition buffer_size : nat := 1024.

Notation run_at file stdin := (run (F := Qc) false (fun _ => None) Some (fun q => q) list_dataset keep keep (fun _ => None) (fun _ => false) file stdin).
Notation main_at file stdin room pieces :=
  (main (F := Qc) false (fun _ => None) Some (fun q => q) list_dataset keep keep (fun _ => None) (fun _ => false) file stdin room buffer_size pieces).

Lemma one_piece_text text : concat (one_piece text) = list_ascii_of_string text.
Proof. unfold one_piece. cbn [concat]. apply app_nil_r. Qed.
Lemma each_char_text text : concat (each_char text) = list_ascii_of_string text.
Proof. unfold each_char. induction (list_ascii_of_string text) as [|c l IH]; [reflexivity|]. cbn [map concat app]. now rewrite IH. Qed.

Definition dehydrate_args : args := Args ["person.json"] ["address.json"] false (Some (Dehydrate Json None)).
Definition convert_args : args := Args [] [] true (Some (ConvertTree Json Json false)).

(** ** C103 *)
Definition sample_lines : string := match run_at main_file sample_input 20 dehydrate_args with Ok t => t | _ => "" end.
Example dehydrated : run_at main_file sample_input 20 dehydrate_args = Ok sample_lines /\ sample_lines <> "".
Proof. split; vm_compute; [reflexivity|discriminate]. Qed.
(** Written in one piece or character by character, when the output accepts everything. *)
Example all_written pieces : (forall text, concat (pieces text) = list_ascii_of_string text) ->
  main_at main_file sample_input None pieces 20 dehydrate_args = Ok (ExitSuccess, list_ascii_of_string sample_lines).
Proof.
  intros H. apply (C103_success false (fun _ => None) Some (fun q => q) list_dataset keep keep (fun _ => None) (fun _ => false) main_file sample_input
    None buffer_size pieces H 20 dehydrate_args).
  - intros text _. exact I.
  - exists sample_lines. split; [apply dehydrated|reflexivity].
Qed.
(** An output that accepts five characters only: it is reported for quads. *)
Example quads_refused :
  main_at main_file sample_input (Some 5) each_char 20 dehydrate_args =
    Ok (ExitFailure write_error, firstn 5 (list_ascii_of_string sample_lines)) /\
  main_at main_file sample_input (Some 5) one_piece 20 dehydrate_args =
    Ok (ExitFailure write_error, firstn 5 (list_ascii_of_string sample_lines)).
Proof. split; vm_compute; reflexivity. Qed.
(** The errors of the commands. *)
Example failures :
  main_at main_file "?" None each_char 20 dehydrate_args = Ok (ExitFailure (MainDiagnostic (MsgCommand CliLoadTree) [] []), []) /\
  main_at main_file sample_input None each_char 20 (Args ["person.json"; "address.json"] [] false (Some (Dehydrate Json None))) =
    Ok (ExitFailure (MainDiagnostic MsgAmbiguousLayout [] [NoteUseLayout]), []).
Proof. split; vm_compute; reflexivity. Qed.

(** A success does not mean that the output has been written: a JSON document that fits in the buffer is lost without a word
    when the output refuses it. *)
Theorem C103_silent_refuted : exists file stdin a text,
  run_at file stdin 20 a = Ok text /\ text <> "" /\
  main_at file stdin (Some 0) one_piece 20 a = Ok (ExitSuccess, []) /\
  main_at file stdin (Some 0) each_char 20 a = Ok (ExitSuccess, []).
Proof.
  exists main_file, (json_print false (JStr "Ada")), convert_args. eexists. split; [vm_compute; reflexivity|]. split; [discriminate|].
  split; vm_compute; reflexivity.
Qed.

(** ** C104 *)
Example two_acceptable : acceptable main_file ["person.json"; "address.json"].
Proof.
  apply (C86_rejects false (fun _ => None) Some (fun q => q) list_dataset keep keep (fun _ => None) (fun _ => false) main_file "" 20
    (Args ["person.json"; "address.json"] [] true None) ""). vm_compute. reflexivity.
Qed.
Definition bad_args : args := Args ["person.json"] ["address.json"; "not-json"; "twice.json"] true None.
Example not_json_bad : first_bad main_file (a_layouts bad_args ++ a_include bad_args) 2 "not-json" "?".
Proof. exists ["person.json"; "address.json"], ["twice.json"]. repeat split; try reflexivity. exact two_acceptable. Qed.
Example not_json_reported : exists N, forall fuel, N <= fuel ->
  main_at main_file "" None one_piece fuel bad_args = Ok (ExitFailure (MainDiagnostic MsgJson [(2, LabelJson)] []), []).
Proof. apply (C104_json _ _ _ _ _ _ _ _ _ _ _ _ _ _ _ _ _ _ sample_values not_json_bad). reflexivity. Qed.

Definition twice_args : args := Args ["person.json"] ["address.json"; "twice.json"; "not-json"] true None.
Example twice_bad : first_bad main_file (a_layouts twice_args ++ a_include twice_args) 2 "twice.json" (json_print false twice_doc).
Proof. exists ["person.json"; "address.json"], ["not-json"]. repeat split; try reflexivity. exact two_acceptable. Qed.
Example twice_not_layout l : ~ layout_doc twice_doc l.
Proof. intros H. apply C56_reads in H. vm_compute in H. discriminate. Qed.
Example twice_reported : exists N d, md_message d = MsgLayoutSyntax /\ describes twice_doc 2 d /\
  forall fuel, N <= fuel -> main_at main_file "" None one_piece fuel twice_args = Ok (ExitFailure d, []).
Proof.
  apply (C104_syntax _ _ _ _ _ _ _ _ _ _ _ _ _ _ _ _ _ _ _ sample_values twice_bad).
  - vm_compute. reflexivity.
  - repeat (constructor; cbn; intros); repeat match goal with H : _ \/ _ |- _ => destruct H | H : False |- _ => destruct H | H : (_, _) = (_, _) |- _ => injection H as <- <- end; repeat (constructor; cbn; intros); try contradiction.
  - intros c (o & I & H). inversion I as [|? ? HI I'|? k j HI I']; subst.
    + destruct H as [E|[E|[E|[]]]]; discriminate E.
    + destruct HI as [E|[E|[E|[]]]]; injection E as <- <-; inversion I' as [|? ? HI' ?|]; subst; destruct HI'.
  - exact twice_not_layout.
Qed.
Example twice_labels : exists fuel, main_at main_file "" None one_piece fuel twice_args =
  Ok (ExitFailure (MainDiagnostic MsgLayoutSyntax [(2, LabelFragment (LabelPrimary 5 (DuplicateEntry "dataset")));
        (2, LabelFragment (LabelSecondary 8 (HintDuplicateEntry 8)))] []), []).
Proof. exists 20. vm_compute. reflexivity. Qed.

(** The diagnostic of an error found when a layout is built does not say in which file: the same for two sets of files where the
    file at fault is not the same. *)
Definition swapped_file (name : string) : option string :=
  if String.eqb name "person.json" then main_file "undeclared.json" else if String.eqb name "undeclared.json" then main_file "person.json" else None.
Theorem C104_build_refuted : exists file file' name name' d,
  acceptable file [name] /\ ~ acceptable file [name'] /\ acceptable file' [name'] /\ ~ acceptable file' [name] /\
  main_at file "" None one_piece 20 (Args [name; name'] [] true None) = Ok (ExitFailure d, []) /\
  main_at file' "" None one_piece 20 (Args [name; name'] [] true None) = Ok (ExitFailure d, []).
Proof.
  assert (A : forall file name, run_at file "" 20 (Args [name] [] true None) = Ok "" -> acceptable file [name]).
  { intros file name H. exact (C86_rejects false (fun _ => None) Some (fun q => q) list_dataset keep keep (fun _ => None) (fun _ => false) file "" 20
      (Args [name] [] true None) "" H). }
  assert (B : forall file name, (forall fuel, run_at file "" fuel (Args [name] [] true None) <> Ok "") -> ~ acceptable file [name]).
  { intros file name H AC. apply (C86_accepts false (fun _ => None) Some (fun q => q) list_dataset keep keep (fun _ => None) (fun _ => false) file
      "" [name] [] true sample_values) in AC as (N & HN). exact (H N (HN N (le_n N))). }
  exists main_file, swapped_file, "person.json", "undeclared.json". eexists.
  split; [apply A; vm_compute; reflexivity|]. split; [apply B; intro fuel; vm_compute; discriminate|].
  split; [apply A; vm_compute; reflexivity|]. split; [apply B; intro fuel; vm_compute; discriminate|].
  split; vm_compute; reflexivity.
Qed.

Print Assumptions C103_error.
Print Assumptions C103_success.
Print Assumptions C103_panic.
Print Assumptions C103_refused_partial.
Print Assumptions C103_quads.
Print Assumptions C103_silent_refuted.
Print Assumptions C104_blames.
Print Assumptions C104_json.
Print Assumptions C104_syntax.
Print Assumptions C104_build_refuted.
