(** * Zero, one and two variants of a sum (C17), layouts that differ by their patterns (C20) *)

From Coq Require Import String List Bool Arith NArith Permutation Sorted Lia.
Import ListNotations.
From Verif Require Import Base BaseProofs Orders PatternModel MatchingModel MatchingSpec
  MatchingProofs ValueModel ValueProofs LayoutModel HydrateModel HydrateSpec HydrateProofs HydrateProperties TermModel
  HydrateExamples DehydrateModel SumProperties TextPatternExamples TextPatternProperties.
Open Scope list_scope.
Open Scope nat_scope.
Open Scope string_scope.

(** ** C17 *)
Definition typed_as (t : string) (l : term) : item_layout term :=
  Item 0 (VFormat l [PVar 0] None) [Quad (PVar 0) (PRes (iri "type")) (PRes (iri t)) None].
Definition beings : list (variant term) :=
  [Variant "person" (typed_as "person" (iri "name")); Variant "robot" (typed_as "robot" (iri "name"))].
Definition beings_reg : registry term := layouts_get [
  (iri "being", SumL no_header beings); (iri "name", IdL no_header (PVar 0) None)].
Definition beings_quads : list (quad term) := [
  Quad (iri "alice") (iri "type") (iri "person") None;
  Quad (iri "bob") (iri "type") (iri "person") None;
  Quad (iri "bob") (iri "type") (iri "robot") None;
  Quad (iri "carol") (iri "type") (iri "alien") None].
Definition beings_data : dataset term := list_dataset beings_quads.
Definition beings_graph (q : quad term) : Prop := In q beings_quads.

Lemma beings_enum : enumerates beings_data beings_graph.
Proof. apply list_dataset_enumerates. unfold beings_quads. no_dup. Qed.
Lemma beings_scoped : patterns_scoped (SumL no_header beings).
Proof. split; [scope|]. intros v [<-|[<-|[]]]; scope. Qed.

Ltac solves := eapply the_solution_by_stream; [exact beings_enum|vm_compute; reflexivity].
Ltac does := eexists _, _, _; split; [solves|]; split; [split; [repeat constructor|reflexivity]|vm_compute; reflexivity].
Ltac not_there := left; eapply no_solution_by_stream; [exact beings_enum|vm_compute; reflexivity].

Example alice_person : hydrate_with beings_data beings_reg 2 None (iri "being") [iri "alice"]
  = Ok (TVariant (TLit (TId "alice" (iri "name"))) (iri "being") 0).
Proof.
  destruct (C17_choice beings_data beings_graph beings_reg 1 None (iri "being") [iri "alice"] no_header beings [Some (iri "alice")]
    beings_enum eq_refl beings_scoped eq_refl) as (One & _).
  - solves.
  - intros va [<-|[<-|[]]]; [left; eexists; does|right; not_there].
  - eapply (One 0); [reflexivity|does|]. intros [|[|j]] vb NE E; [congruence|injection E as <-; not_there|destruct j; discriminate].
Qed.
Example bob_ambiguous : hydrate_with beings_data beings_reg 2 None (iri "being") [iri "bob"] = Panic "hydrate: variant ambiguity".
Proof.
  destruct (C17_choice beings_data beings_graph beings_reg 1 None (iri "being") [iri "bob"] no_header beings [Some (iri "bob")]
    beings_enum eq_refl beings_scoped eq_refl) as (_ & _ & Two).
  - solves.
  - intros va [<-|[<-|[]]]; left; eexists; does.
  - eapply (Two 0 1); [discriminate|reflexivity|reflexivity|does|does].
Qed.
Example carol_none : hydrate_with beings_data beings_reg 2 None (iri "being") [iri "carol"] = Panic "hydrate: no variant found".
Proof.
  destruct (C17_choice beings_data beings_graph beings_reg 1 None (iri "being") [iri "carol"] no_header beings [Some (iri "carol")]
    beings_enum eq_refl beings_scoped eq_refl) as (_ & None_ & _).
  - solves.
  - intros va [<-|[<-|[]]]; right; not_there.
  - apply None_. intros va [<-|[<-|[]]]; not_there.
Qed.

(** ** C20 *)
Definition any_reg : registry term := layouts_get [
  (iri "id", IdL no_header (PVar 0) None);
  (iri "text", DataL (KTextString None) no_header (PVar 0) (iri xsd_string))].
Example patterns_differ : same_but_patterns a_reg any_reg /\ a_reg (iri "text") <> any_reg (iri "text").
Proof.
  split; [|vm_compute; discriminate]. intro r. unfold a_reg, any_reg, layouts_get. cbn [bt_get].
  destruct (eqb r (iri "id")); [reflexivity|]. destruct (eqb r (iri "text")); reflexivity.
Qed.

Print Assumptions C17_choice.
Print Assumptions C20_hydrate_ignores.
Print Assumptions C20_dehydrate_ignores.
Print Assumptions C20_dehydrate_public_ignores.
