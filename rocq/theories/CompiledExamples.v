(** * C122: examples *)

From Coq Require Import String List Bool Arith NArith ZArith Lia Permutation Sorted Qcanon.
Import ListNotations.
From Verif Require Import Base BaseProofs Orders PatternModel MatchingModel MatchingSpec MatchingProofs ValueModel LayoutModel LayoutSpec HydrateModel HydrateSpec
  HydrateProperties TermModel HydrateExamples DehydrateModel DehydrateSpec DehydrateFinish DehydrateProperties DehydrateExamples
  AcceptSpec TakenSpec TakenProperties TakenExamples AbsModel AbsSpec AbsProofs AbsProperties AbsScoping CompiledProofs CompiledProperties.
Open Scope list_scope.
Open Scope nat_scope.
Open Scope string_scope.

Local Instance compiled_external : AbsExternal := {|
  iri_resolved := fun base r => base ++ r;
  decimal_type_of := fun _ => xsd_ns "integer";
  decimal_lexical_of := fun _ => "0"
|}.

Definition head (i : option string) : aheader := {|
  ah_base := None; ah_prefixes := []; ah_id := i; ah_input := ["self"]; ah_intro := []; ah_dataset := []; ah_extra := []
|}.
Definition text_field (p : string) (required : bool) : afield alayout :=
  AField {| ai_intro := ["value"]; ai_value := AFormatLayout (RefLayout (ALiteralL (AKTextString None None) (head None) None));
            ai_dataset := []; ai_property := Some (AIri p) |} required.

(** The fields are not in the order of their keys, and one key is given twice. *)
Definition card : alayout := AProduct (head (Some "http://e/card")) [
  (VLit (LText "name"), text_field "http://e/name" true);
  (VLit (LText "email"), text_field "http://e/email" false);
  (VLit (LText "name"), text_field "http://e/fullname" true)].
Definition card_builder : @builder term := snd (build_document card []).

Lemma card_inputs : literal_inputs card.
Proof.
  intros l' I. inversion I as [|? l1 ? N I1]; subst; [exact Logic.I|].
  inversion N as [? ? k f ? J F| | | | |]; subst.
  destruct J as [J|[J|[J|[]]]]; injection J as <- <-; cbn in F; unfold nested_ref in F; injection F as <-;
    (inversion I1 as [|? l2 ? N2 I2]; subst; [cbn; lia|]); inversion N2.
Qed.
Example card_built : built card_builder.
Proof. apply (built_document card [] (Ok (TmIri "http://e/card"))); [constructor|exact card_inputs|vm_compute; reflexivity]. Qed.

Definition card_layouts : layouts term := match builder_build (E := unit) 10 card_builder with Ok m => m | _ => [] end.
Example card_compiled : builder_build (E := unit) 10 card_builder = Ok card_layouts.
Proof. vm_compute. reflexivity. Qed.

(** Two fields, sorted. *)
Example card_fields : exists h f g, layouts_get card_layouts (TmIri "http://e/card") = Some (ProductL h [(VLit (LText "email"), f); (VLit (LText "name"), g)]).
Proof. do 3 eexists. vm_compute. reflexivity. Qed.
Example card_sorted : registry_sorted (layouts_get card_layouts).
Proof. exact (C122_sorted 10 card_builder card_layouts (built_documents _ card_built) card_compiled). Qed.

(** Read with the compiled layouts, and written back. *)
Definition card_data : list (quad term) := [
  Quad (iri "x") (iri "http://e/email") (text "a@b") None;
  Quad (iri "x") (iri "http://e/fullname") (text "Ann B") None;
  Quad (iri "x") (iri "http://e/name") (text "Ann") None].
Definition card_value : typed_value term :=
  match hydrate (list_dataset card_data) (layouts_get card_layouts) 10 (TmIri "http://e/card") [iri "x"] with Ok v => v | _ => TAlways vunit end.
Example card_read : hydrate (list_dataset card_data) (layouts_get card_layouts) 10 (TmIri "http://e/card") [iri "x"] = Ok card_value.
Proof. vm_compute. reflexivity. Qed.
Lemma card_enumerates : enumerates (list_dataset card_data) (fun q => In q card_data).
Proof. apply list_dataset_enumerates. unfold card_data. no_dup. Qed.
Example card_means : Means (fun q => In q card_data) (layouts_get card_layouts) false None (TmIri "http://e/card") [iri "x"] card_value.
Proof.
  exact (proj1 (C122_reads 10 card_builder card_layouts card_compiled (list_dataset card_data) _ 10 None (TmIri "http://e/card") [iri "x"]
    (built_documents _ card_built) card_enumerates) _ card_read).
Qed.
Lemma card_no_sum : no_sum (layouts_get card_layouts).
Proof.
  intros ref h vs H. apply bt_get_In in H. revert H. set (L := card_layouts). vm_compute in L. subst L. cbn [In].
  intros H. repeat (destruct H as [[=]|H]). destruct H.
Qed.
Example card_back n e : dehydrate same (layouts_get card_layouts) n (into_untyped card_value) (TmIri "http://e/card") default_options = Err e ->
  exists t u, e = DTermAmbiguity t u.
Proof.
  apply (C122_writes_back 10 card_builder card_layouts card_compiled default_options same (list_dataset card_data) _ 10 n (TmIri "http://e/card") [iri "x"] card_value e
    card_built (C120_no_sum _ card_no_sum) same_perm card_enumerates card_read).
  apply no_ids_valid. vm_compute. reflexivity.
Qed.

Print Assumptions C122_sorted.
Print Assumptions C122_reads.
Print Assumptions C122_reads_all.
Print Assumptions C122_writes.
Print Assumptions C122_writes_back.
