(** * C56: cases and assumptions *)

From Coq Require Import String Ascii List Bool Arith NArith ZArith.
Import ListNotations.
From Verif Require Import Base Orders PatternModel ValueModel LayoutModel JsonModel
  RegexpModel AbsModel AbsJsonModel VariableModel AbsJsonSpec AbsJsonProperties.
Open Scope list_scope.
Open Scope string_scope.

(** A simplified syntax of blank node identifiers ([_:x], where [x] is the name of a variable), IRIs (with a colon) and
    language tags; the texts are in ASCII. *)
Fixpoint has_colon (s : string) : bool :=
  match s with EmptyString => false | String c s' => Ascii.eqb c ":" || has_colon s' end.
#[local] Instance simple_syntax : TextSyntax := {|
  blank_suffix s :=
    match s with
    | String "_" (String ":" s') =>
        if check_variable_name (map N_of_ascii (list_ascii_of_string s')) then Some s' else None
    | _ => None
    end;
  is_iri_ref := has_colon;
  is_lang_tag s := negb (has_colon s);
  chars s := map N_of_ascii (list_ascii_of_string s)
|}.

Definition header0 : aheader := AHeader None [] None ["self"] [] [] [].

(** A record with a required field and a list of texts. *)
Definition name_field : json :=
  JObj [("required", JBool true); ("value", JObj [("type", JStr "string"); ("pattern", JStr "a|b")]);
        ("property", JStr "http://e.org/name")].
Definition friends_field : json :=
  JObj [("intro", JArr [JStr "x"]);
        ("value", JObj [("layout", JObj [("node", JObj [("value", JStr "e:friend")]); ("type", JStr "list")]);
                        ("input", JStr "_:x"); ("graph", JNull)]);
        ("dataset", JArr [JArr [JStr "_:self"; JStr "e:friends"; JStr "_:x"]])].
Definition person : json :=
  JObj [("fields", JObj [("name", name_field); ("friends", friends_field)]);
        ("id", JStr "e:person"); ("type", JStr "record"); ("input", JStr "self");
        ("prefixes", JObj [("e", JStr "http://e.org/")]); ("extra", JObj [("e:age", JNum "42")])].

Example person_read :
  layout_from_json person =
  Ok (AProduct
       (AHeader None [("e", "http://e.org/")] (Some "e:person") ["self"] [] [] [("e:age", ANumber 42)])
       [(VLit (LText "friends"),
         AField (AItem ["x"]
           (AFormat
             (RefLayout (AOrdered header0
                (ANode "head" "rest" ["value"] (AFormatLayout (RefIri "e:friend")) None)
                (AVar "self") (AIri (rdf "nil"))))
             [AVar "x"] None)
           [Quad (AVar "self") (AIri "e:friends") (AVar "x") None] None) false);
        (VLit (LText "name"),
         AField (AItem ["value"]
           (AFormatLayout (RefLayout
             (ALiteralL (AKTextString (Some (RUnion [RSet [(97, 97)%N]; RSet [(98, 98)%N]])) None) header0 None)))
           [] (Some (AIri "http://e.org/name"))) true)]).
Proof. reflexivity. Qed.

(** It is described by the grammar. *)
Example person_doc : exists l, layout_doc person l.
Proof. eexists. apply C56_reads. vm_compute. reflexivity. Qed.

(** An unknown entry, a duplicate one, and a missing one. *)
Example unknown_rejected :
  layout_from_json (JObj [("type", JStr "unit"); ("resource", JStr "_:self")]) = Err (UnexpectedEntry "resource").
Proof. reflexivity. Qed.
Example duplicate_rejected :
  layout_from_json (JObj [("type", JStr "unit"); ("input", JStr "a"); ("input", JStr "a")]) =
  Err (DuplicateEntry "input").
Proof. reflexivity. Qed.
Example missing_rejected :
  layout_from_json (JObj [("type", JStr "number")]) = Err (MissingRequiredEntry "datatype").
Proof. reflexivity. Qed.
Example nested_rejected :
  layout_from_json (JObj [("type", JStr "set");
     ("item", JObj [("value", JObj [("type", JStr "boolean"); ("fields", JObj [])])])]) =
  Err (UnexpectedEntry "fields").
Proof. reflexivity. Qed.
Example rejects_applies : forall l,
  layout_from_json (JObj [("type", JStr "unit"); ("resource", JStr "_:self")]) <> Ok l.
Proof.
  apply C56_rejects with (ty := "unit"); [now left|]. left. exists "resource". cbn.
  repeat split; try (right; now left); intuition discriminate.
Qed.

(** The names of the fields are not entries: of two fields with the same name the last remains. *)
Example fields_overwritten :
  layout_from_json (JObj [("type", JStr "sum");
    ("variants", JObj [("a", JObj [("value", JStr "e:x")]); ("a", JObj [("value", JStr "e:y")])])]) =
  Ok (ASum header0 [("a", AVariant [] (AFormatLayout (RefIri "e:y")) [])]).
Proof. reflexivity. Qed.

(** A nested layout cannot be a boolean, although a document can. *)
Example nested_boolean :
  layout_from_json (JBool true) = Ok (ABool true) /\
  layout_from_json (JObj [("type", JStr "set"); ("item", JObj [("value", JBool true)])]) =
  Err (Unexpected [KdString; KdObject] KdBoolean).
Proof. split; reflexivity. Qed.

(** The constants without exponents are needed in [C56_outcome]: see C67. *)
Example constant_panics :
  exists w, layout_from_json (JObj [("type", JStr "unit"); ("const", JNum "1e2")]) = Panic w.
Proof. eexists. reflexivity. Qed.

Print Assumptions C56_reads.
Print Assumptions C56_entries.
Print Assumptions C56_rejects.
Print Assumptions C56_outcome.
