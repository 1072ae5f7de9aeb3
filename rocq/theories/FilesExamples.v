(** * The order of the layout files: cases, refutations and assumptions (C111) *)

From Coq Require Import String Ascii List Bool Arith NArith ZArith QArith Qcanon Permutation Sorted Lia.
Import ListNotations.
From Verif Require Import Base BaseProofs Orders PatternModel MatchingModel MatchingSpec MatchingProofs ValueModel LayoutModel LayoutSpec HydrateModel HydrateSpec HydrateComplete
  TermModel DehydrateModel DehydrateFinish JsonModel AbsModel AbsJsonModel 
  CborModel GenSpec CodeGenModel PreludeModel PreludeSpec PreludeProperties
  CliModel CliSpec CliProofs CliMono CliProperties CliData CliDataProperties CliCodec CliExamples RelabelSpec FilesSpec FilesProperties.
Open Scope list_scope.
Open Scope nat_scope.
Open Scope string_scope.
Local Existing Instances cli_text cli_iris cli_external cli_xsd cli_cbor.

Definition words_doc : json := JObj [("type", JStr "string")].
Definition flags_doc : json := JObj [("type", JStr "boolean")].
Definition kinds_doc : json :=
  let kind name := JObj [("value", JObj [("type", JStr "record"); ("id", JStr (String.append "http://e.org/" name));
    ("fields", JObj [
      ("name", JObj [("required", JBool true); ("value", JObj [("type", JStr "string")]); ("property", JStr (String.append "http://e.org/" name))]);
      ("size", JObj [("required", JBool true); ("value", JStr "https://treeldr.org/prelude#u8"); ("property", JStr "http://e.org/size")])])])] in
  JObj [("type", JStr "set"); ("id", JStr "http://e.org/Kinds");
    ("item", JObj [("property", JStr "http://e.org/item"); ("value", JObj [("type", JStr "sum"); ("id", JStr "http://e.org/Kind");
      ("variants", JObj [("red", kind "red"); ("blue", kind "blue")])])])].
Definition nine_doc : json :=
  JObj [("type", JStr "tuple"); ("id", JStr "http://e.org/Nine");
    ("items", JArr (repeat (JObj [("value", JObj [("type", JStr "string")]); ("property", JStr "http://e.org/item")]) 9))].
Definition more_file (name : string) : option string :=
  if String.eqb name "words.json" then Some (json_print false words_doc)
  else if String.eqb name "flags.json" then Some (json_print false flags_doc)
  else if String.eqb name "kinds.json" then Some (json_print false kinds_doc)
  else if String.eqb name "nine.json" then Some (json_print false nine_doc)
  else cli_file name.
Notation run_more := (run (F := Qc) false (fun _ => None) Some (fun q => q) list_dataset keep keep (fun _ => None) (fun _ => false) more_file).
Definition e_org (s : string) : term := TmIri (String.append "http://e.org/" s).
Definition kinds_data : string := 
  let typed v n := TmLit (RdfLiteral v (TypeAny (xsd_name n))) in
  rdf_write (F := Qc) [
  Quad (e_org "s") (e_org "item") (e_org "x") None; Quad (e_org "s") (e_org "item") (e_org "y") None;
  Quad (e_org "x") (e_org "red") (typed "n" "string") None; Quad (e_org "x") (e_org "size") (typed "1" "unsignedByte") None;
  Quad (e_org "y") (e_org "blue") (typed "n" "string") None; Quad (e_org "y") (e_org "size") (typed "2" "unsignedByte") None].

(** ** The files of a person, in any order, with an anonymous layout before or after *)
Definition person_args (is : list string) (c : command) : args := Args ["person.json"] is false (Some c).
Example person_writes : run_more sample_input 9 (person_args ["words.json"; "address.json"; "flags.json"] (Dehydrate Json None)) = Ok sample_text.
Proof. vm_compute. reflexivity. Qed.
Example person_writes_too : run_more sample_input 9 (person_args ["flags.json"; "words.json"; "address.json"] (Dehydrate Json None)) = Ok sample_text.
Proof.
  refine (C111_dehydrate_partial _ _ _ _ _ _ _ _ _ _ _ _ _ _ _ _ _ _ _ sample_presets _ _ _ _ person_writes).
  - apply Permutation_refl.
  - apply Permutation_sym. apply (Permutation_middle ["words.json"; "address.json"] [] "flags.json").
  - constructor. constructor.
  - discriminate.
Qed.
Example person_checks : run_more "" 9 (Args ["flags.json"; "person.json"] ["words.json"; "address.json"] true None) = Ok "".
Proof.
  refine (C111_check _ _ _ _ _ _ _ _ _ _ _ _ ["person.json"; "flags.json"] _ ["address.json"; "words.json"] _ _ _ sample_presets _ _ _).
  - apply perm_swap.
  - apply perm_swap.
  - vm_compute. reflexivity.
Qed.

Lemma sets_of_files names m fuel rs n : load_all more_file fuel names [] 0 = Ok (rs, m, n) ->
  Forall (fun e => match snd e with SumL _ _ => False | _ => True end) m -> no_variant_in_sets more_file fuel false names.
Proof.
  intros L A d m' n' L' reg LK r q h it q' _ _ _ h' vs E. rewrite load_files_all, L in L'. injection L' as _ <- _.
  apply LK in E as [E|(_ & _ & p & _ & E)]; [|destruct p; discriminate E].
  apply bt_get_In in E. rewrite Forall_forall in A. apply A in E. exact E.
Qed.
Definition person_read : string :=
  match run_more sample_text 9 (person_args ["words.json"; "address.json"] (Hydrate Json None [TmBlank "input0"] true)) with Ok t => t | _ => "" end.
Example person_reads : run_more sample_text 9 (person_args ["words.json"; "address.json"] (Hydrate Json None [TmBlank "input0"] true)) = Ok person_read /\
  holds (Some : Qc -> option Qc) Json person_read sample_value.
Proof. split; [vm_compute; reflexivity|]. eexists. split; vm_compute; reflexivity. Qed.
Example person_reads_too : run_more sample_text 9 (person_args ["address.json"; "words.json"] (Hydrate Json None [TmBlank "input0"] true)) = Ok person_read.
Proof.
  refine (C111_hydrate_partial _ _ _ _ _ _ _ _ _ _ _ _ _ _ _ _ _ _ _ _ _ sample_presets keep_laws _ _ _ _ (proj1 person_reads)).
  - apply Permutation_refl.
  - apply perm_swap.
  - constructor.
  - eapply sets_of_files; [vm_compute; reflexivity|]. repeat constructor.
Qed.

(** ** Blank names are not stable

    The anonymous layouts of the files are numbered in the order of the files: [--layout _:0] is the layout of the first one. *)
Theorem C111_blank_refuted : exists stdin layout out e,
  forall fuel, 9 <= fuel ->
  run_more stdin fuel (Args [] ["words.json"; "flags.json"] true (Some (Dehydrate Json (Some layout)))) = Ok out /\
  run_more stdin fuel (Args [] ["flags.json"; "words.json"] true (Some (Dehydrate Json (Some layout)))) = Err e.
Proof.
  exists (json_print false (JStr "a")), (TmBlank "0"), "", (CliDehydrate DIncompatibleLayout). intros fuel LE.
  do 9 (destruct fuel as [|fuel]; [lia|]). clear LE. split; vm_compute; reflexivity.
Qed.

(** ** The items of the sets

    The typed values of a set are sorted with the names of their layouts; blank names are compared as text: [_:0] comes before [_:1], but
    [_:10] before [_:9] (layouts/src/distill/hy/mod.rs 434, src/main.rs 195-206). *)
Definition kinds_command : command := Hydrate Json (Some (e_org "Kinds")) [e_org "s"] false.
Definition kind_json (n : string) : json := JObj [("name", JStr "n"); ("size", JNum n)].
Theorem C111_sets_refuted : exists stdin x y,
  (forall fuel, 9 <= fuel ->
   run_more stdin fuel (Args [] ["kinds.json"; "nine.json"] false (Some kinds_command)) = Ok (json_print false (JArr [x; y])) /\
   run_more stdin fuel (Args [] ["nine.json"; "kinds.json"] false (Some kinds_command)) = Ok (json_print false (JArr [y; x]))) /\
  x <> y /\ json_print false (JArr [x; y]) <> json_print false (JArr [y; x]).
Proof.
  exists kinds_data, (kind_json "2"), (kind_json "1").
  split; [|split; [discriminate|vm_compute; discriminate]]. intros fuel LE.
  split; (eapply run_more_fuel; [exact sample_presets|exact LE|reflexivity|vm_compute; reflexivity]).
Qed.

Print Assumptions C111_dehydrate_partial.
Print Assumptions C111_hydrate_partial.
Print Assumptions C111_hydrate_reordered.
Print Assumptions C111_check.
Print Assumptions C111_blank_refuted.
Print Assumptions C111_sets_refuted.
