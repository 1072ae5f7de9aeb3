(** * The tags of the layouts of the files: cases and assumptions (C112, C111) *)

From Coq Require Import String Ascii List Bool Arith NArith ZArith QArith Qcanon Permutation Lia.
Import ListNotations.
From Verif Require Import Base BaseProofs Orders PatternModel MatchingModel MatchingSpec MatchingProofs ValueModel LayoutModel LayoutSpec HydrateModel HydrateSpec HydrateComplete
  TermModel NumberModel DehydrateModel DehydrateFinish JsonModel AbsModel AbsSpec AbsMeaning AbsRegistry AbsJsonModel CborModel CborSpec GenSpec CodeGenModel PreludeModel PreludeSpec
  CliModel CliSpec CliProofs CliMono CliProperties CliData CliDataProperties CliCodec CliExamples RelabelSpec FilesSpec FilesProperties
  ExtraModel ExtraSpec CliExtraModel CliExtraSpec CliExtraProofs CliExtraProperties FilesCborProperties.
Open Scope list_scope.
Open Scope nat_scope.
Open Scope string_scope.
Local Existing Instances cli_text cli_iris cli_xsd.
(** The keys of the examples are texts. *)
Local Instance tags_cbor : Cmp cbor := fun a b => match a, b with CText s, CText t => cmp s t | _, _ => Eq end.
(** The narrowest types are approximated: [unsignedByte] and [byte]. *)
Local Instance tags_external : AbsExternal := {|
  iri_resolved := fun b r => String.append b r;
  decimal_type_of := fun z => if (z <? 0)%Z then xsd_name "byte" else xsd_name "unsignedByte";
  decimal_lexical_of := fun z => match decimal_string (Q2Qc (QArith_base.inject_Z z)) with Ok (Some s) => s | _ => "" end
|}.
Definition unsigned_type (ty : string) : bool := existsb (fun n => String.eqb ty (xsd_name n)) ["unsignedLong"; "unsignedByte"].

Definition tag_doc (id prop : string) (tag : json) : json :=
  JObj [("prefixes", JObj [("cbor", JStr "https://schema.treeldr.org/cbor#")]); ("type", JStr "record"); ("id", JStr id);
    ("extra", JObj [("cbor:tag", tag)]);
    ("fields", JObj [
      ("word", JObj [("value", JObj [("type", JStr "string"); ("extra", JObj [("cbor:tag", JNum "42"); ("http://e.org/other", JNum "1")])]);
        ("property", JStr prop)])])].
Definition two_doc : json :=
  JObj [("type", JStr "record"); ("id", JStr "http://e.org/Two");
    ("fields", JObj [
      ("a", JObj [("required", JBool true); ("value", JStr "http://e.org/A"); ("property", JStr "http://e.org/a")]);
      ("b", JObj [("required", JBool true); ("value", JStr "http://e.org/B"); ("property", JStr "http://e.org/b")]);
      ("c", JObj [("required", JBool true); ("value", JStr "https://treeldr.org/prelude#string"); ("property", JStr "http://e.org/c")])])].
Definition tag_file (name : string) : option string :=
  if String.eqb name "two.json" then Some (json_print false two_doc)
  else if String.eqb name "a.json" then Some (json_print false (tag_doc "http://e.org/A" "http://e.org/wa" (JNum "1")))
  else if String.eqb name "b.json" then Some (json_print false (tag_doc "http://e.org/B" "http://e.org/wb" (JNum "2")))
  else if String.eqb name "bad.json" then Some (json_print false (tag_doc "http://e.org/B" "http://e.org/wb" (JNum "-2")))
  else None.
Notation run_tags := (run_extra (F := Qc) false (fun _ => None) Some (fun q => q) list_dataset keep keep unsigned_type tag_file).
Notation run_plain extra := (run (F := Qc) false (fun _ => None) Some (fun q => q) list_dataset keep keep extra unsigned_type tag_file).
Definition at_e (s : string) : term := TmIri (String.append "http://e.org/" s).
Definition tag_text (s : string) : term := TmLit (RdfLiteral s (TypeAny (xsd_name "string"))).
Definition tag_data : string := rdf_write (F := Qc) [
  Quad (at_e "s") (at_e "a") (at_e "x") None; Quad (at_e "s") (at_e "b") (at_e "y") None; Quad (at_e "s") (at_e "c") (tag_text "three") None;
  Quad (at_e "x") (at_e "wa") (tag_text "one") None; Quad (at_e "y") (at_e "wb") (tag_text "two") None].
Definition tag_command : command := Hydrate Cbor None [at_e "s"] false.
Definition tag_args (is : list string) : args := Args ["two.json"] is false (Some tag_command).
Definition tag_result : cbor :=
  CMap [(CText "a", CTag 1 (CMap [(CText "word", CTag 42 (CText "one"))]));
        (CText "b", CTag 2 (CMap [(CText "word", CTag 42 (CText "two"))]));
        (CText "c", CText "three")].

(** The tags of the files are those of the output; the layouts of the prelude have none. *)
Example tags_written : run_tags tag_data 9 (tag_args ["a.json"; "b.json"]) = Ok (cbor_value_print (F := Qc) tag_result).
Proof. vm_compute. reflexivity. Qed.
Example tags_explained : exists docs rs m props reg r ds v tag c,
  Forall2 (document tag_file) ["two.json"; "a.json"; "b.json"] docs /\ Forall2 (defines_with m props no_env) docs rs /\ lookup m false reg /\
  layout_used None ["two.json"] rs r /\ holds_quads tag_data (fun q => In q ds) /\ hydrate (list_dataset ds) reg 9 r [at_e "s"] = Ok v /\
  cbor_value_print (F := Qc) tag_result = cbor_value_print (F := Qc) c /\ Tagged tag v c /\
  forall ty, Uses v ty -> forall t, tag_of unsigned_type m props docs false ty t <-> t = tag ty.
Proof. exact (C112_tags _ _ _ _ _ _ _ _ _ _ _ ["two.json"] ["a.json"; "b.json"] _ _ _ _ _ sample_presets keep_laws tags_written). Qed.

(** In the other order, the anonymous layouts have other names and the same tags. *)
Lemma sets_of_tags names m fuel rs n : load_all tag_file fuel names [] 0 = Ok (rs, m, n) ->
  Forall (fun e => match snd e with SumL _ _ => False | _ => True end) m -> no_variant_in_sets tag_file fuel false names.
Proof.
  intros L A d m' n' L' reg LK r q h it q' _ _ _ h' vs E. rewrite load_files_all, L in L'. injection L' as _ <- _.
  apply LK in E as [E|(_ & _ & p & _ & E)]; [|destruct p; discriminate E].
  apply bt_get_In in E. rewrite Forall_forall in A. apply A in E. exact E.
Qed.
Example tags_written_too : run_tags tag_data 9 (tag_args ["b.json"; "a.json"]) = Ok (cbor_value_print (F := Qc) tag_result).
Proof.
  refine (C111_cbor_partial _ _ _ _ _ _ _ _ _ _ _ _ _ _ _ _ _ _ _ _ sample_presets keep_laws _ _ _ _ tags_written).
  - apply Permutation_refl.
  - apply perm_swap.
  - constructor.
  - eapply sets_of_tags; [vm_compute; reflexivity|]. repeat constructor.
Qed.

(** A tag which is not an [unsignedLong]: nothing is written, but in JSON, where the tags play no role. *)
Example tags_bad : run_tags tag_data 9 (tag_args ["a.json"; "bad.json"]) = Err (CliCborTag (TagType (xsd_name "byte"))).
Proof. vm_compute. reflexivity. Qed.
Example tags_refused : exists docs rs m props reg r ds v ty,
  Forall2 (document tag_file) ["two.json"; "a.json"; "bad.json"] docs /\ Forall2 (defines_with m props no_env) docs rs /\ lookup m false reg /\
  layout_used None ["two.json"] rs r /\ holds_quads tag_data (fun q => In q ds) /\ hydrate (list_dataset ds) reg 9 r [at_e "s"] = Ok v /\
  Uses v ty /\ forall t, ~ tag_of unsigned_type m props docs false ty t.
Proof. exact (C112_refused _ _ _ _ _ _ _ _ _ _ _ ["two.json"] ["a.json"; "bad.json"] _ _ _ _ _ sample_presets keep_laws tags_bad). Qed.
Example tags_json extra : exists text, run_plain extra tag_data 9 (Args ["two.json"] ["a.json"; "bad.json"] false (Some (Hydrate Json None [at_e "s"] false))) = Ok text /\
  run_tags tag_data 9 (Args ["two.json"] ["a.json"; "bad.json"] false (Some (Hydrate Json None [at_e "s"] false))) = Ok text.
Proof.
  eexists. assert (NT : no_tags (Some (Hydrate Json None [at_e "s"] false))) by (intros ? ? ? H; discriminate H).
  rewrite <- (C112_other_commands false (fun _ => None) Some (fun q => q) list_dataset keep keep unsigned_type tag_file tag_data 9
    (Args ["two.json"] ["a.json"; "bad.json"] false (Some (Hydrate Json None [at_e "s"] false))) extra NT).
  split; vm_compute; reflexivity.
Qed.

Print Assumptions C110_cbor.
Print Assumptions C111_cbor_partial.
Print Assumptions C112_refines.
Print Assumptions C112_other_commands.
Print Assumptions C112_tags.
Print Assumptions C112_refused.
