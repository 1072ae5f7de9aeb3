(** * C99: cases and assumptions *)

From Coq Require Import String List Bool Arith.
Import ListNotations.
From Verif Require Import Base JsonModel RegexpModel AbsModel AbsJsonModel AbsJsonExamples
  PositionModel PositionSpec PositionProofs PositionProperties.
Open Scope list_scope.
Open Scope string_scope.
#[local] Existing Instance simple_syntax.

(** The record of [AbsJsonExamples] is read in the same way with its positions. *)
Example person_positions : exists l, read_layout person = Ok l /\ layout_from_json person = Ok l.
Proof. eexists. split; vm_compute; reflexivity. Qed.

(** A duplicate entry inside a field: the labels are on the two keys. *)
Definition twice : json :=
  JObj [("type", JStr "record");
        ("fields", JObj [("name",
           JObj [("value", JStr "e:text"); ("intro", JStr "x"); ("value", JStr "e:other")])])].
Example twice_read :
  read_layout twice = Err (PosError (DuplicateEntry "value") 11 (Some 17)).
Proof. vm_compute. reflexivity. Qed.
Example twice_keys : fragment_at twice 11 (FrKey "value") /\ fragment_at twice 17 (FrKey "value").
Proof. split; reflexivity. Qed.
Example twice_shown :
  syntax_diagnostic (code_map_of twice) (PosError (DuplicateEntry "value") 11 (Some 17)) =
  Ok (Diagnostic [LabelPrimary 11 (DuplicateEntry "value"); LabelSecondary 17 (HintDuplicateEntry 17)] []).
Proof. exact (C99_diagnostic twice _ twice_read). Qed.

(** A quad with two patterns, after another one: the position is that of the second quad. *)
Definition short_quad : json :=
  JObj [("dataset", JArr [JArr [JStr "_:self"; JStr "e:p"; JStr "_:x"]; JArr [JStr "_:self"; JStr "e:p"]]);
        ("type", JStr "id")].
Example short_read : read_layout short_quad = Err (PosError MissingQuadPattern 8 None).
Proof. vm_compute. reflexivity. Qed.
Example short_found : fragment_at short_quad 8 (FrValue (JArr [JStr "_:self"; JStr "e:p"])).
Proof. reflexivity. Qed.

(** An unknown type, with the hints as notes. *)
Definition unknown_type : json := JObj [("value", JNum "1"); ("type", JStr "text")].
Example unknown_read :
  read_layout unknown_type = Err (PosError (InvalidType layout_types "text") 6 None).
Proof. vm_compute. reflexivity. Qed.
Example unknown_found : fragment_at unknown_type 6 (FrValue (JStr "text")).
Proof. reflexivity. Qed.

(** A key of [extra] which is not an IRI: the position is that of the key. *)
Definition bad_key : json :=
  JObj [("type", JStr "unit"); ("extra", JObj [("e:a", JNum "1"); ("age", JNum "42")])].
Example bad_key_read : read_layout bad_key = Err (PosError (InvalidCompactIri "age") 11 None).
Proof. vm_compute. reflexivity. Qed.
Example bad_key_found : fragment_at bad_key 11 (FrKey "age").
Proof. reflexivity. Qed.

(** A language tag: the position is that of the whole literal, not of the tag. *)
Definition bad_tag : json :=
  JObj [("type", JStr "id"); ("resource", JObj [("value", JStr "chat"); ("language", JStr "f:r")])].
Example bad_tag_read : read_layout bad_tag = Err (PosError (InvalidLangTag "f:r") 6 None).
Proof. vm_compute. reflexivity. Qed.

(** The statement without the exception for language tags: an error that quotes a text of the document
    is placed on this text. *)
Definition quotes (e : abs_error) : option string :=
  match e with
  | InvalidPattern s | InvalidLangTag s | InvalidCompactIri s | InvalidType _ s => Some s
  | _ => None
  end.
Theorem C99_quoted_refuted : exists doc e s,
  read_layout doc = Err e /\ quotes (pe_error e) = Some s /\
  ~ fragment_at doc (position e) (FrValue (JStr s)) /\ ~ fragment_at doc (position e) (FrKey s).
Proof.
  exists bad_tag, (PosError (InvalidLangTag "f:r") 6 None), "f:r".
  split; [exact bad_tag_read|]. split; [reflexivity|]. split; intros H; discriminate H.
Qed.

Print Assumptions C99_same_result.
Print Assumptions C99_points_at.
Print Assumptions C99_in_document.
Print Assumptions C99_diagnostic.
Print Assumptions C99_other.
Print Assumptions C99_quoted_refuted.
