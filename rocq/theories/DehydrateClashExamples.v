(** * The blank nodes of the layouts and those that dehydration creates: examples (C62) *)

From Coq Require Import String List Bool Arith NArith Permutation Lia.
Import ListNotations.
From Verif Require Import Base BaseProofs Orders PatternModel ValueModel LayoutModel LayoutSpec HydrateModel TermModel
  DehydrateModel DehydrateSpec DehydrateProofs DehydrateEmits DehydrateFinish DehydrateProperties HydrateExamples DehydrateExamples
  RoundTripSpec OtherDataProperties RenameProperties DehydrateUnique DehydrateClash.
Open Scope list_scope.
Open Scope nat_scope.
Open Scope string_scope.

(** The registry of [C62_no_clash_refuted] with another name for the blank node of the layout. *)
Definition marked_layouts : layouts term :=
  [(iri "r", ProductL no_header
      [(key "a", Field (Item 1 (VFormat (iri "s") [PVar 1] None)
         [Quad (PRes (blank "mark")) (PRes (iri "p")) (PVar 1) None]) true)]);
   (iri "s", ProductL no_header [])].

Lemma marked_mentions r l t : layouts_get marked_layouts r = Some l -> mentions l t -> t = blank "mark" \/ t = iri "p".
Proof.
  intros E H. apply bt_get_In in E. cbn in E.
  repeat (destruct E as [E|E]; [injection E as _ <-|]); [..|contradiction];
    (inversion H as [? p ? PO QN|? vf p ? FO IN NA|? vf ? FO GR| | | |]; subst;
     [inversion PO; subst|inversion FO; subst|inversion FO; subst|..]; cbn in *;
     repeat match goal with
     | A : _ \/ _ |- _ => destruct A
     | A : False |- _ => destruct A
     | A : (_, _) = (_, _) |- _ => injection A as ? ?
     end; subst; cbn in *; unfold quad_names, names in *; cbn in *;
     repeat match goal with
     | A : _ \/ _ |- _ => destruct A
     | A : False |- _ => destruct A
     end; subst; cbn in *; try discriminate;
     try match goal with A : PRes _ = PRes _ |- _ => injection A as <-; auto end).
Qed.

(** The hypotheses of [C62_no_clash_partial], with a blank node in the layouts and one that is created. *)
Example C62_witness : exists ds vals,
  dehydrate same (layouts_get marked_layouts) 10 (VMap [(key "a", VMap [])]) (iri "r") default_options = Ok (ds, vals) /\
  ds = [Quad (blank "mark") (iri "p") (blank "0") None] /\
  (forall l, Permutation (same l) l) /\ fresh_identifiers default_options /\
  forall r l, layouts_get marked_layouts r = Some l ->
    (forall i, ~ mentions l (o_input_term default_options i)) /\ (forall n, ~ mentions l (generated default_options n)).
Proof.
  eexists _, _. split; [vm_compute; reflexivity|]. split; [reflexivity|]. split; [intro l; apply Permutation_refl|].
  split; [exact default_options_fresh|]. intros r l E. split.
  - intros i M. destruct (marked_mentions _ _ _ E M) as [H|H]; discriminate.
  - intros n M. rewrite default_generated in M. destruct (marked_mentions _ _ _ E M) as [H|H]; [|discriminate].
    injection H as H. unfold nat_string in H. destruct (Nat.to_uint n); cbn in H; discriminate.
Qed.

Print Assumptions C62_no_clash_partial.
