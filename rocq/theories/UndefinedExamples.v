(** * C13, missing layouts: a case, refutations and assumptions *)

From Coq Require Import String List Bool Arith ZArith QArith Qcanon.
Import ListNotations.
From Verif Require Import Base BaseProofs Orders PatternModel MatchingModel MatchingSpec MatchingProofs ValueModel LayoutModel LayoutSpec
  HydrateModel HydrateSpec TermModel HydrateExamples DehydrateModel DehydrateExamples UndefinedProperties.
Open Scope string_scope.
Open Scope list_scope.
Open Scope nat_scope.

(** A record whose optional field [extra] has no layout, and a choice of defined layouts. *)
Definition incomplete : layouts term := [
  (iri "rec", ProductL no_header [
      (key "extra", Field (prop "extra" (iri "missing")) false);
      (key "what", Field (prop "what" (iri "sum")) true)]);
  (iri "sum", SumL no_header [Variant "n" (self (VFormat (iri "number") [PVar 0] None));
                              Variant "s" (self (VFormat (iri "string") [PVar 0] None))]);
  (iri "number", DataL KNumber no_header (PVar 0) (iri xsd_integer));
  (iri "string", DataL (KTextString None) no_header (PVar 0) (iri xsd_string))].
Definition completed : layouts term := (iri "missing", Always) :: incomplete.

Lemma reaches_data (m : layouts term) r r' k h p dt :
  layouts_get m r = Some (DataL k h p dt) -> reaches (layouts_get m) r r' -> r' = r.
Proof.
  intros E H. inversion H as [|a l b c E' U]; subst; [reflexivity|]. rewrite E in E'. injection E' as <-. inversion U.
Qed.

Example incomplete_sums : sums_defined (layouts_get incomplete).
Proof.
  intros ref h vs va r E Hva H. apply bt_get_In in E. cbn [incomplete In] in E.
  repeat (destruct E as [E|E]; [injection E; try discriminate E; intros|]); try contradiction; subst; try discriminate.
  destruct Hva as [<-|[<-|[]]]; (eapply reaches_data in H; [subst r; vm_compute; discriminate|reflexivity]).
Qed.

Example completed_extends : extends (layouts_get incomplete) (layouts_get completed).
Proof.
  intros r l E. unfold layouts_get, completed in *. cbn [bt_get]. destruct (eqb_spec r (iri "missing")) as [->|_]; [|exact E].
  vm_compute in E. discriminate E.
Qed.

Definition thing_quads : list (quad term) := [Quad (iri "a") (iri "what") (text "x") None; Quad (iri "b") (iri "extra") (iri "c") None;
  Quad (iri "b") (iri "what") (int "3") None].

(** C13_hydrate_missing_partial: the hypotheses hold; without the optional field the missing layout is not needed,
    with it the error names it. *)
Example incomplete_hydrated :
  let D := list_dataset thing_quads in
  (forall fuel, hydrate D (layouts_get incomplete) fuel (iri "rec") [iri "a"] =
     hydrate D (layouts_get completed) fuel (iri "rec") [iri "a"] \/
     exists r, layouts_get incomplete r = None /\
       hydrate D (layouts_get incomplete) fuel (iri "rec") [iri "a"] = Err (LayoutNotFound r)) /\
  (exists v, hydrate D (layouts_get incomplete) 5 (iri "rec") [iri "a"] = Ok v) /\
  hydrate D (layouts_get incomplete) 5 (iri "rec") [iri "b"] = Err (LayoutNotFound (iri "missing")) /\
  (exists v, hydrate D (layouts_get completed) 5 (iri "rec") [iri "b"] = Ok v).
Proof.
  split; [|split; [eexists; vm_compute; reflexivity|split; [vm_compute; reflexivity|eexists; vm_compute; reflexivity]]].
  intro fuel. apply (C13_hydrate_missing_partial (list_dataset thing_quads) (fun q => In q thing_quads)).
  - apply list_dataset_enumerates. no_dup.
  - exact incomplete_sums.
  - exact completed_extends.
Qed.

Example incomplete_dehydrated :
  dehydrate DehydrateExamples.same (layouts_get incomplete) 5 (VMap [(key "extra", vunit); (key "what", VLit (LText "x"))]) (iri "rec") default_options
    = Err (DLayoutNotFound (iri "missing")) /\
  exists r, dehydrate DehydrateExamples.same (layouts_get incomplete) 5 (VMap [(key "what", VLit (LText "x"))]) (iri "rec") default_options = Ok r.
Proof. split; [|eexists]; vm_compute; reflexivity. Qed.

(** The full statement is refuted with sums: the failure of a variant is dropped, whatever its cause
    (layouts/src/distill/hy/mod.rs 305, distill/de/mod.rs 680-693). *)
Definition swallowing : layouts term := [
  (iri "sum", SumL no_header [Variant "a" (self (VFormat (iri "missing") [PVar 0] None));
                              Variant "b" (self (VFormat (iri "any") [PVar 0] None))]);
  (iri "any", Always)].
Definition not_swallowing : layouts term := (iri "missing", Always) :: swallowing.

Lemma not_swallowing_extends : extends (layouts_get swallowing) (layouts_get not_swallowing).
Proof.
  intros r l E. unfold layouts_get, not_swallowing in *. cbn [bt_get]. destruct (eqb_spec r (iri "missing")) as [->|_]; [|exact E].
  vm_compute in E. discriminate E.
Qed.

Theorem C13_hydrate_sum_refuted :
  exists (reg reg' : registry term) ref inputs v,
    extends reg reg' /\ (exists r, reaches reg ref r /\ reg r = None) /\
    forall D fuel, hydrate D reg (S (S fuel)) ref inputs = Ok v /\
      hydrate D reg' (S (S fuel)) ref inputs = Panic "hydrate: variant ambiguity".
Proof.
  exists (layouts_get swallowing), (layouts_get not_swallowing), (iri "sum"), [iri "a"], (TVariant (TAlways vunit) (iri "sum") 1).
  split; [exact not_swallowing_extends|]. split.
  - exists (iri "missing"). split; [|reflexivity]. eapply reaches_step; [reflexivity| |constructor]. refine (U_variant no_header _ (Variant "a" (self (VFormat (iri "missing") [PVar 0] None))) _). now left.
  - intros D fuel. split; reflexivity.
Qed.

Theorem C13_dehydrate_sum_refuted :
  exists (reg reg' : registry term) ref v r,
    extends reg reg' /\ (exists r, reaches reg ref r /\ reg r = None) /\
    dehydrate DehydrateExamples.same reg 2 v ref default_options = Ok r /\
    dehydrate DehydrateExamples.same reg' 2 v ref default_options = Err DDataAmbiguity.
Proof.
  exists (layouts_get swallowing), (layouts_get not_swallowing), (iri "sum"), vunit. eexists.
  split; [exact not_swallowing_extends|]. split.
  - exists (iri "missing"). split; [|reflexivity]. eapply reaches_step; [reflexivity| |constructor]. refine (U_variant no_header _ (Variant "a" (self (VFormat (iri "missing") [PVar 0] None))) _). now left.
  - split; vm_compute; reflexivity.
Qed.

Print Assumptions C13_hydrate_missing_partial.
Print Assumptions C13_dehydrate_missing_partial.
Print Assumptions C13_dehydrate_missing_public_partial.
Print Assumptions C13_hydrate_sum_refuted.
Print Assumptions C13_dehydrate_sum_refuted.
