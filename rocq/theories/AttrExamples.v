(** * C77 to C79: cases and assumptions *)

From Coq Require Import String Ascii List Bool Arith NArith ZArith.
Import ListNotations.
From Verif Require Import Base BaseProofs Orders PatternModel ValueModel LayoutModel HydrateModel TermModel RegexpModel
  DehydrateModel AbsModel AbsJsonModel AbsSpec AbsMeaning AbsRegistry AbsAcceptSpec AbsAccept AbsExamples AbsJsonExamples
  VariableModel VariableSpec VariableProofs AttrModel AttrSpec AttrProofs AttrProperties AttrDerive.
Open Scope list_scope.
Open Scope string_scope.

#[local] Existing Instance simple_syntax.
#[local] Existing Instance abs_iris.
#[local] Existing Instance abs_external.

Definition comma : token := TkPunct ",".
Definition plain_type (name : string) : rty := RPath false false [(name, NoArgs)].
Definition of (name : string) (ty : rty) : rty := RPath false false [(name, Angled [GTy ty])].

(** [#[tldr(prefix("ex" = "https://example.org/"), intro("x"))] #[doc] #[tldr(record, input("self"))]] *)
Definition person_attrs : list attribute := [
  Attr "tldr" (Some [TkIdent "prefix"; TkGroup [TkStr "ex"; TkPunct "="; TkStr "https://example.org/"]; comma;
                     TkIdent "intro"; TkGroup [TkStr "x"]]);
  Attr "doc" None;
  Attr "tldr" (Some [TkIdent "record"; comma; TkIdent "input"; TkGroup [TkStr "self"]; comma])].

Example person_attrs_read : type_attributes person_attrs type_attrs_default = Ok
  (TypeAttrs None [("ex", "https://example.org/")] (Some KdRecord) (Some ["self"]) (Some ["x"]) None None None None None).
Proof. vm_compute. reflexivity. Qed.

Example person_attrs_settings : settings type_item person_attrs
  [SetPrefixes [("ex", "https://example.org/")]; SetIntro ["x"]; SetKind KdRecord; SetInput ["self"]].
Proof.
  apply (Se_tldr _ _ _ [SetPrefixes [("ex", "https://example.org/")]; SetIntro ["x"]] [SetKind KdRecord; SetInput ["self"]]).
  - apply (Sep_next _ [TkIdent "prefix"; TkGroup [TkStr "ex"; TkPunct "="; TkStr "https://example.org/"]]).
    + constructor. constructor. constructor. reflexivity.
    + constructor. constructor. repeat constructor.
  - apply Se_other; [discriminate|]. apply (Se_tldr _ _ _ [SetKind KdRecord; SetInput ["self"]] []); [|constructor].
    apply (Sep_next _ [TkIdent "record"]); [constructor; reflexivity|].
    apply (Sep_next _ [TkIdent "input"; TkGroup [TkStr "self"]]); [|constructor]. constructor. repeat constructor.
Qed.

(** The same value may be repeated, another one is a conflict. *)
Example repeated_kind :
  type_attributes [Attr "tldr" (Some [TkIdent "list"; comma; TkIdent "list"])] type_attrs_default =
  Ok (TypeAttrs None [] (Some KdList) None None None None None None None).
Proof. reflexivity. Qed.
Definition two_kinds : list attribute := [Attr "tldr" (Some [TkIdent "list"]); Attr "tldr" (Some [TkIdent "set"])].
Example two_kinds_conflict : type_attributes two_kinds type_attrs_default = Err ConflictingValue.
Proof.
  apply (C77_type_conflict _ ([SetKind KdList] ++ [SetKind KdSet] ++ [])).
  - repeat (apply Se_tldr || apply Se_none); repeat constructor.
  - intros r (K & _). destruct (ta_kind r) as [k|]; cbn in K.
    + destruct K as [_ K]. pose proof (K KdList ltac:(auto)). pose proof (K KdSet ltac:(auto)). congruence.
    + apply (K KdList). auto.
Qed.

(** The order of the attributes does not matter. *)
Example exchanged : exists r,
  type_attributes [Attr "tldr" (Some [TkIdent "number"; comma; TkIdent "datatype"; TkGroup [TkStr "xsd:int"]])] type_attrs_default = Ok r /\
  type_attributes [Attr "tldr" (Some [TkIdent "datatype"; TkGroup [TkStr "xsd:int"]]); Attr "tldr" (Some [TkIdent "number"])] type_attrs_default = Ok r.
Proof. eexists. split; reflexivity. Qed.

(** ** C78 *)

(** [#[tldr(nubmer)] struct A;] is a unit layout; [#[tldr(id("ex:A"))]] is rejected. *)
Example misspelt : parse_input (DeriveInput "A" [Attr "tldr" (Some [TkIdent "nubmer"])] (DStruct FUnit)) =
  parse_input (DeriveInput "A" [] (DStruct FUnit)).
Proof. reflexivity. Qed.
Example misspelt_unknown : ~ In "nubmer" type_words.
Proof. cbn. intuition discriminate. Qed.
Example id_rejected :
  parse_input (DeriveInput "A" [Attr "tldr" (Some [TkIdent "id"; TkGroup [TkStr "ex:A"]])] (DStruct FUnit)) =
  Err (UnexpectedToken (TkGroup [TkStr "ex:A"])).
Proof. reflexivity. Qed.

(** ** C79 *)

(** A record with a required and an optional field. *)
Definition person : derive_input := DeriveInput "Person" person_attrs (DStruct (FNamed [
  RField "name" [Attr "tldr" (Some [TkStr "ex:name"])] (plain_type "String");
  RField "email" [Attr "tldr" (Some [TkStr "ex:email"])] (of "Option" (plain_type "String"))])).

(** The names of the blank nodes of the cases are names of variables. *)
Example simple_names : blank_names.
Proof.
  intros s n. cbn [blank_suffix simple_syntax]. destruct s as [|c [|c' s]]; [discriminate| |];
    destruct c as [[] [] [] [] [] [] [] []]; try discriminate. destruct c' as [[] [] [] [] [] [] [] []]; try discriminate.
  destruct (check_variable_name _) eqn:E; [|discriminate]. intros H. injection H as <-. now apply check_spec.
Qed.

Example person_layout : derive_layout 0 person = Ok (ProductL (Header 1 1 [])
  [(VLit (LText "email"), Field (Item 1 (VFormat (TmIri "rust:/#Type1") [PVar 2] None)
     [Quad (PVar 0) (PRes (TmIri "https://example.org/email")) (PVar 2) None]) false);
   (VLit (LText "name"), Field (Item 1 (VFormat (TmIri "rust:/#Type0") [PVar 2] None)
     [Quad (PVar 0) (PRes (TmIri "https://example.org/name")) (PVar 2) None]) true)],
  [plain_type "String"; plain_type "String"]).
Proof. vm_compute. reflexivity. Qed.
Example person_declares : declares_layout person.
Proof. apply C79_accepted. eexists. vm_compute. reflexivity. Qed.

Example person_well_formed : exists al types ids,
  parse_input person = Ok (al, types) /\ well_formed no_env al ids /\ NoDup ids.
Proof.
  assert (exists p, parse_input person = Ok p) as [[al types] P] by (eexists; vm_compute; reflexivity).
  destruct (proj1 (C79_computed 0 person al types P)) as (ids & W & ND); [|now exists al, types, ids].
  destruct (C79_total 0 person simple_names) as [[[l types'] D]|[e D]]; [|rewrite person_layout in D; discriminate].
  assert (types = types') as <-; [|now exists l]. pose proof (derive_cases 0 person) as C. rewrite P in C.
  destruct (build_document al []) as [[r|e|w|] b]; try contradiction; [|congruence]. destruct C as (p & l' & _ & _ & C). congruence.
Qed.

(** An enumeration, and a list. *)
Definition id_or_text : derive_input := DeriveInput "E" [] (DEnum [
  RVariant "Id" [] (FUnnamed [RField "" [] (plain_type "Id")]);
  RVariant "Text" [] (FUnnamed [RField "" [] (plain_type "String")])]).
Example sum_layout : derive_layout 0 id_or_text = Ok (SumL (Header 1 0 [])
  [Variant "Id" (Item 0 (VFormat (TmIri "rust:/#Type0") [PVar 0] None) []);
   Variant "Text" (Item 0 (VFormat (TmIri "rust:/#Type1") [PVar 0] None) [])], [plain_type "Id"; plain_type "String"]).
Proof. vm_compute. reflexivity. Qed.

Definition texts : derive_input := DeriveInput "L" [Attr "tldr" (Some [TkIdent "list"])]
  (DStruct (FUnnamed [RField "" [] (of "Vec" (plain_type "String"))])).
Example list_layout : exists it, derive_layout 0 texts = Ok (OrderedL (Header 1 0 []) it (PVar 0)
    (PRes (TmIri (rdf_ns "nil"))), [plain_type "String"]) /\
  it_intro it = 1 /\ it_value it = VFormat (TmIri "rust:/#Type0") [PVar 3] None /\ length (it_dataset it) = 2.
Proof. eexists. split; [vm_compute; reflexivity|]. repeat split. Qed.

(** Errors: a number needs a datatype, a field of a variant no name, a name must be declared. *)
Example no_datatype : derive_layout 0 (DeriveInput "N" [Attr "tldr" (Some [TkIdent "number"])] (DStruct FUnit)) =
  Err (MacroParse MissingDatatype).
Proof. vm_compute. reflexivity. Qed.
Example no_name : exists e, derive_layout 0 (DeriveInput "T" [] (DStruct (FUnnamed
    [RField "" [Attr "tldr" (Some [TkIdent "input"; TkGroup [TkStr "_:other"]])] (plain_type "String")]))) = Err (MacroBuild e).
Proof. eexists. vm_compute. reflexivity. Qed.

(** Fields of the same name cannot be told apart: without them, every field is kept. *)
Example person_names : NoDup ["name"; "email"].
Proof. repeat constructor; cbn; intuition discriminate. Qed.

(** ** Assumptions *)
Print Assumptions C77_type.
Print Assumptions C77_component.
Print Assumptions C77_type_conflict.
Print Assumptions C77_component_conflict.
Print Assumptions C77_type_order.
Print Assumptions C77_component_order.
Print Assumptions C78_unknown_argument_partial.
Print Assumptions C78_unknown_component_partial.
Print Assumptions C78_id_refuted.
Print Assumptions C78_unknown_refuted.
Print Assumptions C79_reading_settles.
Print Assumptions C79_layout.
Print Assumptions C79_accepted.
Print Assumptions C79_derived.
Print Assumptions C79_total.
Print Assumptions C79_parse_error.
Print Assumptions C79_computed.
Print Assumptions C79_well_formed.
