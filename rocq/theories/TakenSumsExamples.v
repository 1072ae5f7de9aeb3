(** * C120: a sum of two records and a text *)

From Coq Require Import String List Bool Arith NArith ZArith Lia Permutation Qcanon.
Import ListNotations.
From Verif Require Import Base BaseProofs Orders PatternModel MatchingModel MatchingSpec MatchingProofs ValueModel LayoutModel LayoutSpec HydrateModel HydrateSpec
  HydrateProperties TermModel HydrateExamples DehydrateModel DehydrateSpec DehydrateProofs DehydrateFinish DehydrateProperties DehydrateExamples
  AcceptSpec TakenSpec TakenProperties TakenExamples TakenSums.
Open Scope list_scope.
Open Scope nat_scope.
Open Scope string_scope.

(** A shape is a circle, a rectangle with an optional label, or a name. *)
Definition shapes : registry term := layouts_get [
  (iri "circle", ProductL no_header [(key "label", Field (prop "label" (iri "string")) false); (key "radius", Field (prop "radius" (iri "number")) true)]);
  (iri "number", DataL KNumber no_header (PVar 0) (iri xsd_integer));
  (iri "rectangle", ProductL no_header [(key "height", Field (prop "height" (iri "number")) true); (key "label", Field (prop "label" (iri "string")) false)]);
  (iri "shape", SumL (Header 1 1 []) [
     Variant "circle" (Item 0 (VFormat (iri "circle") [PVar 1] None) [Quad (PVar 0) (PRes (iri "circle")) (PVar 1) None]);
     Variant "rectangle" (Item 0 (VFormat (iri "rectangle") [PVar 1] None) [Quad (PVar 0) (PRes (iri "rectangle")) (PVar 1) None]);
     Variant "name" (Item 0 (VFormat (iri "string") [PVar 1] None) [Quad (PVar 0) (PRes (iri "name")) (PVar 1) None])]);
  (iri "string", DataL (KTextString None) no_header (PVar 0) (iri xsd_string))].

Example shapes_apart : told_apart shapes.
Proof.
  intros ref h vs i j va vb H Na Nb NE. apply bt_get_In in H. cbn [In] in H.
  repeat (destruct H as [H|H]; [try discriminate H|]); [|destruct H]. injection H as <- <- <-.
  destruct i as [|[|[|[|i]]]]; try discriminate Na; injection Na as <-; destruct j as [|[|[|[|j]]]]; try discriminate Nb; try congruence; injection Nb as <-;
    (do 2 eexists; split; [reflexivity|]; split; [reflexivity|]; split; [exact Logic.I|]).
  - eapply apart_left; [right; left; reflexivity|reflexivity|]. intros [K|[K|[]]]; discriminate K.
  - apply apart_kind. intros v (m & -> & _) (x & [=] & _).
  - eapply apart_left; [left; reflexivity|reflexivity|]. intros [K|[K|[]]]; discriminate K.
  - apply apart_kind. intros v (m & -> & _) (x & [=] & _).
  - apply apart_kind. intros v (x & -> & _) (m & [=] & _).
  - apply apart_kind. intros v (x & -> & _) (m & [=] & _).
Qed.

(** So what is read with it is not refused: for instance a rectangle. *)
Example shapes_sorted : registry_sorted shapes.
Proof.
  intros ref l H. apply bt_get_In in H. cbn [In] in H. repeat (destruct H as [[= <- <-]|H]; [try exact Logic.I; repeat constructor|]). destruct H.
Qed.
Example shapes_declared : declared_registry shapes.
Proof. intros ref l x H U. apply bt_get_In in H. cbn [In] in H. repeat (destruct H as [[= <- <-]|H]; [declared|]). destruct H. Qed.
Definition rectangle : list (quad term) := [
  Quad (blank "b") (iri "height") (int "7") None;
  Quad (iri "x") (iri "rectangle") (blank "b") None].
Definition rectangle_value : typed_value term :=
  match hydrate (list_dataset rectangle) shapes 10 (iri "shape") [iri "x"] with Ok v => v | _ => TAlways vunit end.
Example rectangle_taken : Takes shapes (iri "shape") 1 (into_untyped rectangle_value).
Proof.
  refine (C120_taken (list_dataset rectangle) (fun q => In q rectangle) _ shapes shapes_sorted shapes_declared (C120_apart _ shapes_apart)
    10 None (iri "shape") [iri "x"] rectangle_value _ _).
  - apply list_dataset_enumerates. unfold rectangle. no_dup.
  - vm_compute. reflexivity.
  - apply no_ids_valid. vm_compute. reflexivity.
Qed.
Example rectangle_written : exists out, dehydrate same shapes 10 (into_untyped rectangle_value) (iri "shape") default_options = Ok out /\ length (fst out) = 2.
Proof. eexists. split; vm_compute; reflexivity. Qed.

Print Assumptions C120_apart.
