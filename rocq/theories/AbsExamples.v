(** * Compilation of layouts: witnesses, counter-examples and non-vacuity for C52 to C55, C70, C71 *)

From Coq Require Import String Ascii List Bool Arith NArith ZArith Lia.
Import ListNotations.
From Verif Require Import Base BaseProofs Orders PatternModel ValueModel LayoutModel LayoutSpec
  MatchingSpec HydrateModel TermModel DehydrateModel AbsModel AbsSpec AbsProofs AbsProperties
  AbsMeaning AbsRedefine AbsScoping.
Open Scope list_scope.
Open Scope nat_scope.
Open Scope string_scope.

(** Any string without space is taken as an IRI in the examples; references are appended to the base. *)
Fixpoint spaceless (s : string) : bool :=
  match s with
  | EmptyString => true
  | String c s' => negb (Ascii.eqb c " ") && spaceless s'
  end.
Local Instance abs_iris : IriSyntax := spaceless.
Local Instance abs_external : AbsExternal := {|
  iri_resolved := fun base r => base ++ r;
  decimal_type_of := fun _ => xsd_ns "integer";
  decimal_lexical_of := fun _ => "0"
|}.

Definition header0 : aheader := {|
  ah_base := None; ah_prefixes := []; ah_id := None; ah_input := ["self"]; ah_intro := [];
  ah_dataset := []; ah_extra := []
|}.
Definition with_id (i : string) : aheader := {|
  ah_base := None; ah_prefixes := []; ah_id := Some i; ah_input := ["self"]; ah_intro := [];
  ah_dataset := []; ah_extra := []
|}.

Definition id_layout : alayout := ALiteralL (AKId None) header0 None.

(** A record with two fields: the variable [value] of the first one hides the one of the header; the
    nested layout of the second one has its own variables, and uses the prefix of its parent. *)
Definition person : alayout :=
  AProduct {| ah_base := Some "http://base/"; ah_prefixes := [("ex", "http://example.org/")];
              ah_id := Some "http://example.org/Person"; ah_input := ["self"]; ah_intro := ["value"];
              ah_dataset := [Quad (AVar "self") (AIri "ex:same") (AVar "value") None]; ah_extra := [] |}
    [(VLit (LText "id"),
      AField {| ai_intro := ["value"]; ai_value := AFormat (RefLayout id_layout) [AVar "self"] None;
                ai_dataset := [Quad (AVar "value") (AIri "knows") (AVar "self") None];
                ai_property := None |} true);
     (VLit (LText "name"),
      AField {| ai_intro := ["value"];
                ai_value := AFormatLayout (RefLayout (ALiteralL (AKTextString None None)
                              {| ah_base := None; ah_prefixes := []; ah_id := None; ah_input := ["x"];
                                 ah_intro := ["value"];
                                 ah_dataset := [Quad (AVar "x") (AIri "ex:tag") (AVar "value") None];
                                 ah_extra := [] |} None));
                ai_dataset := []; ai_property := Some (AIri "ex:name") |} false)].

Definition person_builder : @builder term := snd (build_document person []).

Example person_builds : fst (build_document person []) = Ok (TmIri "http://example.org/Person").
Proof. reflexivity. Qed.

Example person_defines :
  bt_get (TmIri "http://example.org/Person") person_builder =
  Some (PreOf (ProductL
    (Header 1 1 [Quad (PVar 0) (PRes (TmIri "http://example.org/same")) (PVar 1) None])
    [(VLit (LText "id"),
      Field (Item 1 (VFormat (TmBlank "0") [PVar 0] None)
               [Quad (PVar 2) (PRes (TmIri "http://base/knows")) (PVar 0) None]) true);
     (VLit (LText "name"),
      Field (Item 1 (VFormat (TmBlank "1") [PVar 2] None)
               [Quad (PVar 0) (PRes (TmIri "http://example.org/name")) (PVar 2) None]) false)])) /\
  bt_get (TmBlank "1") person_builder =
  Some (PreText None (Header 1 1 [Quad (PVar 0) (PRes (TmIri "http://example.org/tag")) (PVar 1) None])
          (PVar 0) (TmIri (xsd_ns "string"))).
Proof. split; reflexivity. Qed.

(** ** C52 *)
Definition parent_variable : alayout :=
  AUnordered header0
    {| ai_intro := ["item"];
       ai_value := AFormat (RefLayout (ALiteralL (AKId None) header0 (Some (AVar "item")))) [AVar "item"] None;
       ai_dataset := []; ai_property := Some (AIri "http://e/p") |}.

Example C52_undeclared_example : exists l',
  inside parent_variable l' /\ uses_undeclared l' "item" /\
  fst (build_document parent_variable []) = Err (UndeclaredVariable "item").
Proof.
  exists (ALiteralL (AKId None) header0 (Some (AVar "item"))). split; [|split].
  - eapply inside_nested; [|constructor]. now apply N_item.
  - apply UU_resource. cbn. now intros [|[]].
  - reflexivity.
Qed.

Example C52_variable_example :
  sees (with_intro ["a"; "b"; "a"] scope_default) ["a"; "b"; "a"] /\
  scope_variable (with_intro ["a"; "b"; "a"] scope_default) "a" = Ok 2 /\ innermost ["a"; "b"; "a"] "a" 2.
Proof.
  split; [apply (sees_intro ["a"; "b"; "a"] scope_default []), sees_default|]. split; [reflexivity|].
  split; [reflexivity|]. intros [|[|[|[|y]]]] H; cbn; try lia; discriminate.
Qed.

(** ** C53 *)

(** A literal layout with two inputs, the second one being its resource. *)
Definition two_inputs : alayout :=
  ALiteralL (AKId None)
    {| ah_base := None; ah_prefixes := []; ah_id := None; ah_input := ["a"; "b"]; ah_intro := [];
       ah_dataset := []; ah_extra := [] |} (Some (AVar "b")).

(** The compiled layout uses the variable 1, but literal layouts only declare the variable 0. *)
Theorem C53_scoped_refuted : exists l r b lay x,
  build_document l [] = (Ok r, b) /\
  (exists p, bt_get r b = Some p /\ prelayout_of p lay) /\ undeclared_in lay x.
Proof.
  exists two_inputs, (TmBlank "0"), (snd (build_document two_inputs [])), (IdL (Header 2 0 []) (PVar 1) None), 1.
  split; [reflexivity|]. split.
  - eexists. split; [reflexivity|]. now exists None.
  - right. cbn. split; [reflexivity|lia].
Qed.

Lemma person_literal_inputs : literal_inputs person.
Proof.
  intros l' I. inversion I as [|? l1 ? N I1]; subst; [exact Logic.I|].
  inversion N as [? ? k f ? J F| | | | |]; subst.
  destruct J as [J|[J|[]]]; injection J as <- <-; cbn in F; unfold nested_ref in F; injection F as <-;
    (inversion I1 as [|? l2 ? N2 I2]; subst; [cbn; lia|]); inversion N2.
Qed.

Example C53_example : built person_builder /\ literal_inputs person /\
  exists m, builder_build (E := unit) 10 person_builder = Ok m /\ length m = 3.
Proof.
  assert (B : built person_builder).
  { apply (built_document person [] (Ok (TmIri "http://example.org/Person"))); [constructor| |reflexivity].
    apply person_literal_inputs. }
  split; [exact B|]. split; [apply person_literal_inputs|]. eexists. split; reflexivity.
Qed.

(** ** C54 *)
Example C54_example :
  let sc := Scope (Some "http://base/") [("ex", "http://example.org/"); ("sp", "a b")] [] 0 in
  resolve "ex:name" sc = Ok "http://example.org/name" /\
  resolve "http://other/x" sc = Ok "http://other/x" /\
  resolve "path/to:it" sc = Ok "http://base/path/to:it" /\
  resolve "sp:c" sc = Err (InvalidIri "a bc") /\
  resolve "path/to:it" scope_default = Err (NoBaseIri "path/to:it") /\
  absolute "ex:name" "ex" "name" /\ (forall a b, ~ absolute "path/to:it" a b).
Proof.
  intros sc. repeat (split; [reflexivity|]). split.
  - split; [reflexivity|]. intros [|[|[|n]]] c H; cbn in H; try discriminate; injection H as <-; now repeat split.
  - intros a b H. apply absolute_scheme in H as [H _]. discriminate.
Qed.

(** The identifier of a layout is read with the prefixes of its parent: its own prefixes are not
    used. *)
Definition self_prefix : alayout :=
  AUnit {| ah_base := None; ah_prefixes := [("ex", "http://example.org/")]; ah_id := Some "ex:Unit";
           ah_input := ["self"]; ah_intro := [];
           ah_dataset := [Quad (AVar "self") (AIri "ex:p") (AIri "ex:Unit") None]; ah_extra := [] |}
        (VLit LUnit).
Example C54_identifier_example :
  fst (build_document self_prefix []) = Ok (TmIri "ex:Unit") /\
  bt_get (TmIri "ex:Unit") (snd (build_document self_prefix [])) =
  Some (PreOf (UnitL (Header 1 0 [Quad (PVar 0) (PRes (TmIri "http://example.org/p"))
                                    (PRes (TmIri "http://example.org/Unit")) None]) (VLit LUnit))).
Proof. split; reflexivity. Qed.

(** ** C55 *)

Definition unit_named (c : value) : alayout := AUnit (with_id "http://e/l") c.

(** The rejected definition replaces the existing one. *)
Theorem C55_redefinition_refuted : exists l b r p p' b',
  bt_wf b /\ bt_get r b = Some p /\
  build_document l b = (Err LayoutRedefinition, b') /\ bt_get r b' = Some p' /\ p' <> p.
Proof.
  exists (unit_named (VLit (LText "new"))), (snd (build_document (unit_named (VLit (LText "old"))) [])),
    (TmIri "http://e/l"). do 2 eexists. exists [(TmIri "http://e/l", PreOf (UnitL (Header 1 0 []) (VLit (LText "new"))))].
  split; [|split; [reflexivity|split; [reflexivity|split; [reflexivity|discriminate]]]].
  cbn. repeat constructor.
Qed.

(** Two documents without identifier cannot be compiled with the same builder. *)
Theorem C55_anonymous_refuted : exists l b r b',
  (forall l' h, inside l l' -> header_of l' = Some h -> ah_id h = None) /\
  build_document l [] = (Ok r, b) /\ build_document l b = (Err LayoutRedefinition, b').
Proof.
  exists id_layout, (snd (build_document id_layout [])), (TmBlank "0"), (snd (build_document id_layout [])).
  split; [|split; reflexivity].
  intros l' h I Hh. inversion I as [|? l1 ? N I1]; subst; [|inversion N]. now injection Hh as <-.
Qed.

(** With one generator they can. *)
Example C55_anonymous_example :
  let (o1, s1) := build_with_context term_context id_layout (0, []) in
  let (o2, s2) := build_with_context term_context id_layout s1 in
  o1 = Ok (TmBlank "0") /\ o2 = Ok (TmBlank "1") /\ length (snd s2) = 2.
Proof. vm_compute. auto. Qed.

Example C55_redefinition_example :
  let b := snd (build_document (unit_named (VLit (LText "old"))) []) in
  bt_wf b /\ iri_denotes no_env "http://e/l" "http://e/l" /\ bt_get (TmIri "http://e/l") b <> None /\
  fst (build_document (unit_named (VLit (LText "new"))) []) = Ok (TmIri "http://e/l") /\
  fst (build_document (unit_named (VLit (LText "new"))) b) = Err LayoutRedefinition.
Proof.
  intros b. split; [cbn; repeat constructor|]. split; [|split; [discriminate|split; reflexivity]].
  apply (resolve_denotes "http://e/l" scope_default). reflexivity.
Qed.

(** ** C70 *)
Example C70_example :
  exists s', build_with_context term_context person (0, []) = (Ok (TmIri "http://example.org/Person"), s') /\
    compiled (ctx_iri term_context) (ctx_lit term_context) (fun r => bt_get r (snd s')) no_env person
      (TmIri "http://example.org/Person").
Proof.
  eexists. split; [reflexivity|]. apply (C70_meaning term_context person (0, [])); [reflexivity|constructor].
Qed.

(** ** C71 *)
Example C71_example : exists w,
  fst (build_document (AUnordered header0 {| ai_intro := ["value"]; ai_value := AFormatLayout (RefLayout (AUnion header0));
         ai_dataset := []; ai_property := None |}) []) = Panic w.
Proof. eexists. reflexivity. Qed.

Print Assumptions C52_scopes.
Print Assumptions C52_variable.
Print Assumptions C52_undeclared_rejected.
Print Assumptions C52_undeclared_reported.
Print Assumptions C53_scoped_partial.
Print Assumptions C53_scoped_refuted.
Print Assumptions C53_registry_partial.
Print Assumptions C53_dehydration_partial.
Print Assumptions C53_hydration_partial.
Print Assumptions C54_unique.
Print Assumptions C54_prefixed.
Print Assumptions C54_absolute.
Print Assumptions C54_relative.
Print Assumptions C54_cases.
Print Assumptions C54_header.
Print Assumptions C55_success_partial.
Print Assumptions C55_more_definitions.
Print Assumptions C55_redefinition_partial.
Print Assumptions C55_anonymous_partial.
Print Assumptions C55_redefinition_refuted.
Print Assumptions C55_anonymous_refuted.
Print Assumptions C70_meaning.
Print Assumptions C70_definitions.
Print Assumptions C71_panics.
Print Assumptions C71_unions.
Print Assumptions C71_terminates.
