(** * C115: a case and assumptions *)

From Coq Require Import String Ascii List Bool Arith NArith ZArith QArith Qcanon Lia.
Import ListNotations.
From Verif Require Import Base BaseProofs Orders PatternModel ValueModel LayoutModel NumberModel HydrateModel
  JsonModel RegexpModel AbsModel AbsJsonModel AbsJsonExamples AbsSerdeModel AbsSerdeProofs AbsSerdeExamples SerdeDocSpec SerdeDocProofs SerdeDocProperties.
Open Scope list_scope.
Open Scope nat_scope.
Open Scope string_scope.
#[local] Existing Instance serde_syntax.

(** A record: its only field is given as a sequence, with the layout of its value inside, and [null] for its identifier. *)
Definition person : list (string * serde_value unit) :=
  [("type", SStr "record"); ("id", SUnit);
   ("fields", SMap [(SStr "name", SSeq [SStr "x"; text_map [("type", SStr "string"); ("resource", text_map [("value", SStr "chat"); ("language", SStr "fr")])]])])].
Definition person_layout : alayout :=
  AProduct header0
    [(VLit (LText "name"),
      AField (AItem ["x"] (AFormatLayout (RefLayout (ALiteralL (AKTextString None None) header0 (Some (ALiteral "chat" (ATypeIri xsd_string)))))) [] None) false)].
Example person_read : layout_deserialize no_number (text_map person) = Ok person_layout.
Proof. vm_compute. reflexivity. Qed.
Example person_doc : layout_sdoc no_number (text_map person) person_layout.
Proof. apply C115_reads. exact person_read. Qed.
Example person_entries : NoDup (map fst person).
Proof. repeat constructor; cbn; intuition discriminate. Qed.

(** Documents that are refused: a repeated entry, an entry of another type, [null] for the inputs, a sequence. *)
Example repeated : layout_deserialize no_number (text_map [("type", SStr "union"); ("id", SStr "e:a"); ("id", SStr "e:b")]) = Err tt.
Proof. vm_compute. reflexivity. Qed.
Example other_type : forall l, ~ layout_sdoc no_number (text_map [("type", SStr "union"); ("fields", SMap [])]) l.
Proof. apply C115_refuses. vm_compute. reflexivity. Qed.
Example null_input : forall l, layout_deserialize no_number (text_map [("type", SStr "union"); ("input", SUnit)]) <> Ok l.
Proof. intros l. apply C115_null with (k := "input"); cbn; tauto. Qed.
Example untyped : @de_pattern _ unit (text_map [("value", SStr "chat"); ("language", SStr "fr")]) = Ok (ALiteral "chat" (ATypeIri xsd_string)).
Proof. apply C115_untyped; [cbv; lia|exists (SStr "chat"); split; [now left|reflexivity]|cbn; intuition discriminate]. Qed.
(** A language is read beside a wrong type. *)
Example wrong_type : @de_pattern _ unit (text_map [("value", SStr "chat"); ("type", SStr "x"); ("language", SStr "fr")]) = Ok (ALiteral "chat" (ATypeLang "fr")).
Proof. vm_compute. reflexivity. Qed.

Print Assumptions C115_reads.
Print Assumptions C115_refuses.
Print Assumptions C115_entries.
Print Assumptions C115_null.
Print Assumptions C115_untyped.
Print Assumptions C115_language.
Print Assumptions C115_sequence.
