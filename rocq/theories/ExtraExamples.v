(** * The extra properties of layouts: examples *)

From Coq Require Import String Ascii List Bool Arith NArith ZArith Qcanon.
Import ListNotations.
From Verif Require Import Base BaseProofs Orders PatternModel ValueModel NumberModel JsonModel LayoutModel LayoutSpec MatchingSpec MatchingProofs
  HydrateModel HydrateSpec HydrateProperties TermModel DehydrateModel AbsModel AbsSpec AbsJsonModel CborModel CborSpec
  AbsSerdeModel DistillTests ExtraModel ExtraSpec ExtraProofs ExtraProperties.
Open Scope list_scope.
Open Scope nat_scope.
Open Scope string_scope.

Local Instance extra_text : TextSyntax := test_text.
Local Instance extra_iris : IriSyntax := test_iris.
Local Instance extra_xsd : Xsd := test_xsd.
Local Instance extra_cbor : Cmp cbor := fun a b => match a, b with CText s, CText t => cmp s t | _, _ => Eq end.
(** The narrowest types are approximated: [unsignedByte] and [byte]. *)
Local Instance extra_external : AbsExternal := {|
  iri_resolved := fun b r => String.append b r;
  decimal_type_of := fun z => if (z <? 0)%Z then xsd "byte" else xsd "unsignedByte";
  decimal_lexical_of := fun z => match decimal_string (Q2Qc (QArith_base.inject_Z z)) with Ok (Some s) => s | _ => "" end
|}.
Definition unsigned (ty : string) : bool := existsb (fun n => String.eqb ty (xsd n)) ["unsignedLong"; "unsignedByte"].

(** The layout of the test [into_tagged_cbor] — layouts/src/value/cbor/serde_cbor.rs 193-213 — with the entries [extra]. *)
Definition tagged_doc (extra : list (string * json)) : json :=
  JObj [("prefixes", JObj [("cbor", JStr "https://schema.treeldr.org/cbor#")]);
           ("type", JStr "record");
           ("fields", JObj [("name", JObj [
              ("value", JObj [("type", JStr "string"); ("extra", JObj extra)]);
              ("property", JStr "https://schema.org/name")])])].
Definition tagged_name (name : string) : quad term :=
  Quad (TmBlank "subject") (TmIri "https://schema.org/name") (TmLit (RdfLiteral name (TypeAny (xsd "string")))) None.

(** The test, on the model. *)
Definition tagged_test (extra : list (string * json)) : option (outcome invalid_tag cbor) :=
  match layout_from_json (tagged_doc extra) with
  | Ok l =>
      match document_with_extra l [] [] with
      | (Ok r, (b, ex)) =>
          match builder_build (E := unit) 1000 b with
          | Ok m =>
              match hydrate (list_dataset [tagged_name "Bob L'eponge"]) (layouts_get m) 100 r [TmBlank "subject"] with
              | Ok v => Some (document_cbor unsigned m ex v)
              | _ => None
              end
          | _ => None
          end
      | _ => None
      end
  | _ => None
  end.

(** The result expected by the test. *)
Example into_tagged_cbor :
  tagged_test [("cbor:tag", JNum "42")] = Some (Ok (CMap [(CText "name", CTag 42 (CText "Bob L'eponge"))])).
Proof. vm_compute. reflexivity. Qed.

(** No tag; the full IRI; another property; a text; a negative number. *)
Example no_tag : tagged_test [] = Some (Ok (CMap [(CText "name", CText "Bob L'eponge")])).
Proof. vm_compute. reflexivity. Qed.
Example full_iri :
  tagged_test [("https://schema.treeldr.org/cbor#tag", JNum "42")] = Some (Ok (CMap [(CText "name", CTag 42 (CText "Bob L'eponge"))])).
Proof. vm_compute. reflexivity. Qed.
Example other_property : tagged_test [("cbor:label", JNum "42")] = Some (Ok (CMap [(CText "name", CText "Bob L'eponge")])).
Proof. vm_compute. reflexivity. Qed.
Example text_tag : tagged_test [("cbor:tag", JStr "42")] = Some (Err (TagType (xsd "string"))).
Proof. vm_compute. reflexivity. Qed.
Example negative_tag : tagged_test [("cbor:tag", JNum "-1")] = Some (Err (TagType (xsd "byte"))).
Proof. vm_compute. reflexivity. Qed.

(** Two entries for the same property, written differently: the last one counts, in the order of the keys. *)
Example two_entries :
  let two := Some (Ok (CMap [(CText "name", CTag 7 (CText "Bob L'eponge"))])) in
  tagged_test [("cbor:tag", JNum "42"); ("https://schema.treeldr.org/cbor#tag", JNum "7")] = two /\
  tagged_test [("https://schema.treeldr.org/cbor#tag", JNum "7"); ("cbor:tag", JNum "42")] = two.
Proof. vm_compute. split; reflexivity. Qed.

(** The hypotheses of [C105_conversion] and what it says of this test: the items made from the inner layout have the tag 42, the map has none. *)
Definition tagged_layout : alayout :=
  match layout_from_json (tagged_doc [("cbor:tag", JNum "42")]) with Ok l => l | _ => ABool true end.
Definition tagged_built := Eval vm_compute in document_with_extra tagged_layout [] [].
Definition tagged_registry : layouts term := Eval vm_compute in
  match builder_build (E := unit) 1000 (fst (snd tagged_built)) with Ok m => m | _ => [] end.
Definition tagged_value : typed_value term := Eval vm_compute in
  match hydrate (list_dataset [tagged_name "Bob L'eponge"]) (layouts_get tagged_registry) 100 (TmBlank "0") [TmBlank "subject"] with
  | Ok v => v | _ => TAlways (VLit LUnit) end.

Example C105_witness :
  document_with_extra tagged_layout [] [] = (Ok (TmBlank "0"), snd tagged_built) /\
  builder_build (E := unit) 1000 (fst (snd tagged_built)) = Ok tagged_registry /\
  Conforms (layouts_get tagged_registry) (TmBlank "0") tagged_value /\
  exists tag, Tagged tag tagged_value (CMap [(CText "name", CTag 42 (CText "Bob L'eponge"))]) /\
      forall ty, Uses tagged_value ty -> exists l' env, inside tagged_layout l' /\
      described term_iri term_lit (fun r => bt_get r (fst (snd tagged_built))) (fun r => bt_get r (snd (snd tagged_built))) env l' ty /\
      has_tag unsigned env l' (tag ty).
Proof.
  assert (A : document_with_extra tagged_layout [] [] = (Ok (TmBlank "0"), snd tagged_built)) by (vm_compute; reflexivity).
  assert (B : builder_build (E := unit) 1000 (fst (snd tagged_built)) = Ok tagged_registry) by (vm_compute; reflexivity).
  assert (C : Conforms (layouts_get tagged_registry) (TmBlank "0") tagged_value).
  { unfold tagged_value. eapply C_record.
    - vm_compute. reflexivity.
    - repeat constructor. intros [].
    - intros k v [[= <- <-]|[]]. eexists. split; [left; reflexivity|]. eapply C_text. vm_compute. reflexivity.
    - intros k f [[= <- <-]|[]]. discriminate. }
  split; [exact A|]. split; [exact B|]. split; [exact C|].
  destruct (snd tagged_built) as [b ex] eqn:E. cbn [fst snd] in *.
  apply (C105_conversion unsigned tagged_layout _ b ex 1000 tagged_registry _ tagged_value _ A B C).
  injection E as <- <-. vm_compute. reflexivity.
Qed.

Print Assumptions C105_same_layouts.
Print Assumptions C105_described.
Print Assumptions C105_tag.
Print Assumptions C105_conversion.
Print Assumptions C105_defined.
