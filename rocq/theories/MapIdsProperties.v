(** * The names in the errors of dehydration (C110) *)

From Coq Require Import String List Bool Arith.
Import ListNotations.
From Verif Require Import Base Orders PatternModel ValueModel LayoutModel HydrateModel TermModel DehydrateModel DehydrateFinish RelabelSpec RelabelProperties MapIdsModel
  BaseProofs DehydrateExamples HydrateExamples RelabelExamples.
Open Scope list_scope.
Open Scope nat_scope.
Open Scope string_scope.

Section MapIds.
Context {X : Xsd} {IS : IriSyntax} {Gn : Type}.

Lemma map_ids_renamed {R} (f : R -> R) e e' : renamed_de_error (fun r r' => r' = f r) e e' <-> e' = map_ids f e.
Proof.
  split.
  - intros []; cbn [map_ids]; congruence.
  - intros ->. destruct e; constructor; reflexivity.
Qed.

(** Layouts renamed by a function: the same results, and the errors renamed by [map_ids]. *)
Theorem C110_map_ids (f : term -> term) order reg reg' fuel v ref (opts : options Gn) : renamed_registry (fun r r' => r' = f r) reg reg' ->
  dehydrate order reg' fuel v (f ref) opts =
  match dehydrate order reg fuel v ref opts with Ok r => Ok r | Err e => Err (map_ids f e) | Panic w => Panic w | OutOfFuel => OutOfFuel end.
Proof.
  intro RR. pose proof (C110_dehydrate _ order reg reg' fuel v ref (f ref) opts RR eq_refl) as K.
  destruct (dehydrate order reg fuel v ref opts), (dehydrate order reg' fuel v (f ref) opts); cbn in K; try contradiction; [congruence| |congruence|reflexivity].
  apply map_ids_renamed in K. congruence.
Qed.

(** [map_ids] is a functor: nothing but the names changes. *)
Theorem C110_map_ids_laws {R S T} (f : R -> S) (g : S -> T) (e : de_error R) : map_ids (fun r => r) e = e /\ map_ids g (map_ids f e) = map_ids (fun r => g (f r)) e.
Proof. destruct e; split; reflexivity. Qed.
End MapIds.

(** A missing key of a layout with another name. *)
Example people_missing : exists k m,
  dehydrate (fun l => l) (layouts_get people) 9 (VMap []) (iri "person") default_options = Err (DMissingRequiredKey (iri "person") k m) /\
  dehydrate (fun l => l) (layouts_get people2) 9 (VMap []) (other (iri "person")) default_options = Err (DMissingRequiredKey (other (iri "person")) k m).
Proof.
  assert (E : exists k m, dehydrate (fun l => l) (layouts_get people) 9 (VMap []) (iri "person") default_options = Err (DMissingRequiredKey (iri "person") k m))
    by (do 2 eexists; vm_compute; reflexivity).
  destruct E as (k & m & E). exists k, m. split; [exact E|].
  rewrite (C110_map_ids other (fun l => l) (layouts_get people) (layouts_get people2) 9 (VMap []) (iri "person") default_options people2_renamed), E. reflexivity.
Qed.

Print Assumptions C110_map_ids.
Print Assumptions C110_map_ids_laws.
