(** * C117: cases and assumptions *)

From Coq Require Import String Ascii List Bool Arith.
Import ListNotations.
From Verif Require Import Base JsonModel RegexpModel AbsModel AbsJsonModel AbsJsonExamples
  PositionModel PositionSpec PositionExamples HintModel HintSpec HintProofs HintProperties.
Open Scope list_scope.
Open Scope string_scope.
#[local] Existing Instance simple_syntax.

(** The texts of the kinds, with commas between the elements of a set. *)
Definition kind_name (k : json_kind) : string :=
  match k with
  | KdNull => "null" | KdBoolean => "boolean" | KdNumber => "number" | KdString => "string" | KdArray => "array" | KdObject => "object"
  end.
#[local] Instance kind_names : KindTexts := {
  kinds_text := fun ks => String.concat ", " (map kind_name ks);
  kind_text := kind_name
}.
Lemma kinds_no_i : forall ks s, kinds_text ks <> String "i" s.
Proof. intros [|[] [|k ks]] s; discriminate. Qed.

(** A type that layouts do not have, inside a record. *)
Definition nested_type : json :=
  JObj [("type", JStr "record"); ("fields", JObj [("name", JObj [("value", JObj [("type", JStr "text")])])])].
Example nested_read : exists p, read_layout nested_type = Err (PosError (InvalidType layout_types "text") p None).
Proof. eexists. vm_compute. reflexivity. Qed.
Example nested_types t : In t layout_types <-> layout_type t.
Proof.
  destruct nested_read as (p & E).
  refine (proj1 (C117_types nested_type _ _ _ _ E eq_refl) t). exists "e:a". reflexivity.
Qed.
Example nested_hints p : map hint_text (hints (PosError (InvalidType layout_types "text") p None)) =
  ["possible values are `id`, `unit`, `boolean`, `number`, `bytes`, `string`, `record`, `sum`, `list`, `set`, `tuple`, `union` and `intersection`";
   "found type `text`"].
Proof. reflexivity. Qed.
Example nested_names : names_in
  "possible values are `id`, `unit`, `boolean`, `number`, `bytes`, `string`, `record`, `sum`, `list`, `set`, `tuple`, `union` and `intersection`" = layout_types.
Proof. reflexivity. Qed.

(** Two types: the same message, only the hints are different. *)
Definition other_type : json := JObj [("type", JStr "texts")].
Example same_message : exists e e', read_layout unknown_type = Err e /\ read_layout other_type = Err e' /\
  error_text (pe_error e) = error_text (pe_error e') /\ map hint_text (hints e) <> map hint_text (hints e').
Proof. eexists _, _. split; [vm_compute; reflexivity|]. split; [vm_compute; reflexivity|]. split; [reflexivity|discriminate]. Qed.
(** The two documents with the type "text" are reported in the same way. *)
Example same_error e e' : read_layout unknown_type = Err e -> read_layout nested_type = Err e' -> same_report (pe_error e) (pe_error e').
Proof.
  intros E E'. apply (C117_unambiguous unknown_type e nested_type e' kinds_no_i E E');
    destruct nested_read as (p & N); rewrite unknown_read in E; rewrite N in E'; injection E as <-; injection E' as <-; reflexivity.
Qed.

Print Assumptions C117_types.
Print Assumptions C117_enumerates.
Print Assumptions C117_readable.
Print Assumptions C117_unambiguous.
