(** * C120: what hydration reads is never refused by dehydration

    The conditions (TakenSpec.v): no layout uses a variable that it does not declare (guaranteed by the compiler, C53), the
    variants of a sum exclude each other, and the identifiers read are IRIs.  See TakenExamples.v for the condition on sums. *)

From Coq Require Import String List Bool Arith NArith Permutation.
Import ListNotations.
From Verif Require Import Base BaseProofs Orders PatternModel MatchingModel MatchingSpec ValueModel LayoutModel LayoutSpec HydrateModel HydrateSpec
  HydrateProperties TermModel DehydrateModel DehydrateSpec DehydrateProofs DehydrateFinish DehydrateProperties AcceptSpec AcceptProofs AcceptProperties
  TakenSpec TakenProofs.
Open Scope list_scope.
Open Scope nat_scope.

Section Taken.
Context {R : Type} {CR : Cmp R} {CRL : CmpLaws R} {IR : Interp R} {X : Xsd} {IS : IriSyntax}.
Variable D : dataset R.
Variable G : quad R -> Prop.
Hypothesis EN : enumerates D G.
Variable reg : registry R.
Hypothesis RS : registry_sorted reg.
Hypothesis DR : declared_registry reg.
Hypothesis DS : decided_sums reg.

(** The value read is one that the layout takes... *)
Theorem C120_taken fuel g ref inputs tv :
  hydrate_with D reg fuel g ref inputs = Ok tv -> ids_valid tv -> Takes reg ref (length inputs) (into_untyped tv).
Proof.
  intros H V. apply (means_taken G reg RS DR DS g); [|exact V].
  exact (proj1 (C09_hydration_sound D G reg fuel g ref inputs EN RS) _ H).
Qed.

(** ... so that no call of dehydration with as many resources refuses it. *)
Theorem C120_not_refused {S I} {CS : Cmp S} {CSL : CmpLaws S} (ops : interpretation R S I) fuel fuel' g g' ref inputs inputs' tv st e st' :
  hydrate_with D reg fuel g ref inputs = Ok tv -> ids_valid tv -> length inputs' = length inputs ->
  dehydrate_with ops reg fuel' (into_untyped tv) g' ref inputs' st <> (Err e, st').
Proof.
  intros H V L H'. apply C119_refuses in H'; [|exact RS]. rewrite L in H'. eapply C119_exclusive; [|exact H'].
  eapply C120_taken; eauto.
Qed.
End Taken.

(** A registry without sums meets the condition on sums. *)
Theorem C120_no_sum {R} {IS : IriSyntax} (reg : registry R) : no_sum reg -> decided_sums reg.
Proof. intros N ref h vs i va v H. destruct (N _ _ _ H). Qed.

(** The functions of the API: the only error left is that one resource would be two terms. *)
Section Public.
Context {X : Xsd} {IS : IriSyntax} {IR : Interp term} {Gn : Type}.
Variable opts : options Gn.
Variable reg : registry term.
Hypothesis RS : registry_sorted reg.
Hypothesis DR : declared_registry reg.
Hypothesis DS : decided_sums reg.
Variable order : list (quad res) -> list (quad res).
Hypothesis order_perm : forall l, Permutation (order l) l.

Theorem C120_public D G fuel fuel' ref inputs tv e :
  enumerates D G -> hydrate D reg fuel ref inputs = Ok tv -> ids_valid tv ->
  dehydrate order reg fuel' (into_untyped tv) ref opts = Err e -> exists a b, e = DTermAmbiguity a b.
Proof.
  intros EN H V H'. pose proof (C120_taken D G EN reg RS DR DS fuel None ref inputs tv H V) as T.
  destruct (proj2 (C119_public opts reg RS order order_perm fuel' (into_untyped tv) ref) e H') as [[E _]|(l & E & [R|[_ A]])]; [|exfalso|exact A].
  - exfalso. inversion T; congruence.
  - eapply C119_exclusive; [|exact R].
    inversion T as [? ? ? E'|? ? ? l' E' SL N|? ? ? h vs i va E' N]; subst; rewrite E in E'; injection E' as ->.
    + now apply T_anything.
    + replace (input_number opts l') with (length inputs); [exact T|]. unfold input_number. change (arity l') with (expects l'). now rewrite N.
    + unfold input_number. cbn. rewrite <- N. exact T.
Qed.
End Public.
