(** * C122: the compiled layouts are as the distillation needs them

    The theorems on hydration and dehydration ask that the fields of the records are in the order of their keys ([registry_sorted]), and some of them
    that the variables are declared.  The registries made by the compiler from any documents, one after the other, are like this, so that these theorems
    hold of them with no other condition. *)

From Coq Require Import String Ascii List Bool Arith NArith Sorted Permutation Lia.
Import ListNotations.
From Verif Require Import Base BaseProofs Orders PatternModel ValueModel LayoutModel LayoutSpec
  MatchingModel MatchingSpec HydrateModel HydrateSpec HydrateProperties TermModel DehydrateModel DehydrateSpec DehydrateProperties
  AcceptSpec AcceptProperties TakenSpec TakenProperties AbsModel AbsSpec AbsProofs AbsProperties AbsScoping CompiledProofs.
Open Scope list_scope.
Open Scope nat_scope.

Section Compiled.
Context {X : Xsd} {IS : IriSyntax} {AE : AbsExternal} {E : Type}.

(** The builders obtained from any documents, compiled with success or not, one after the other. *)
Inductive documents : @builder term -> Prop :=
| documents_nil : documents []
| documents_next l b o b' : documents b -> build_document l b = (o, b') -> documents b'.

Lemma built_documents b : built b -> documents b.
Proof. induction 1 as [|l b o b' H IH LI D]; [constructor|]. eapply documents_next; eassumption. Qed.

(** The fields of each record are sorted by key, and no key occurs twice. *)
Theorem C122_sorted fuel b m : documents b -> builder_build (E := E) fuel b = Ok m -> registry_sorted (layouts_get m).
Proof.
  intros D H ref l G. assert (SB : sorted_builder b).
  { clear H. induction D as [|l' b o b' D IH B]; [intros r p []|]. exact (document_keeps l' b o b' B IH). }
  apply bt_get_In in G. destruct (builder_build_In fuel b [] m H ref l G) as [[]|(r' & p & I & L)]. exact (SB r' p I l L).
Qed.

Section Registry.
Variable fuel : nat.
Variable b : @builder term.
Variable m : layouts term.
Hypothesis compiled : builder_build (E := E) fuel b = Ok m.

(** Reading with compiled layouts gives what the layouts mean, and an error is given only for data that they do not describe... *)
Theorem C122_reads {IR : Interp term} D G n g ref inputs : documents b -> enumerates D G ->
  (forall v, hydrate_with D (layouts_get m) n g ref inputs = Ok v -> Means G (layouts_get m) false g ref inputs v) /\
  (forall e, hydrate_with D (layouts_get m) n g ref inputs = Err e -> Rejects G (layouts_get m) false g ref inputs).
Proof. intros B EN. apply C09_hydration_sound; [exact EN|]. exact (C122_sorted fuel b m B compiled). Qed.

(** ... and all that they mean is read, when the variants of the sums introduce no variables. *)
Theorem C122_reads_all {IR : Interp term} D G g ref inputs : built b -> enumerates D G ->
  (forall r h vs v, layouts_get m r = Some (SumL h vs) -> In v vs -> it_intro (va_item v) = 0) ->
  (forall v, Means G (layouts_get m) true g ref inputs v ->
     exists N, forall n, N <= n -> hydrate_with D (layouts_get m) n g ref inputs = Ok v) /\
  (Rejects G (layouts_get m) true g ref inputs ->
     exists N, forall n, N <= n -> exists e, hydrate_with D (layouts_get m) n g ref inputs = Err e).
Proof.
  intros B EN SV. apply C10_hydration_complete_partial; [exact EN| |].
  - exact (C122_sorted fuel b m (built_documents b B) compiled).
  - exact (C53_hydration_partial fuel b m B compiled SV).
Qed.

(** Writing with compiled layouts: what is written is taken by the layout, and what is not is refused, for the reason told... *)
Theorem C122_writes {S I} {CS : Cmp S} {CSL : CmpLaws S} (ops : interpretation term S I) n v g ref inputs st : documents b ->
  (forall st', dehydrate_with ops (layouts_get m) n v g ref inputs st = (Ok tt, st') -> Takes (layouts_get m) ref (length inputs) v) /\
  (forall e st', dehydrate_with ops (layouts_get m) n v g ref inputs st = (Err e, st') -> Refuses (layouts_get m) ref (length inputs) v e).
Proof.
  intros B. pose proof (C122_sorted fuel b m B compiled) as RS. split; intros *; [now apply C119_accepts|now apply C119_refuses].
Qed.

(** ... and what was read is not refused. *)
Theorem C122_writes_back {IR : Interp term} {Gn} (opts : options Gn) order D G n n' ref inputs tv e :
  built b -> decided_sums (layouts_get m) -> (forall l, Permutation (order l) l) ->
  enumerates D G -> hydrate D (layouts_get m) n ref inputs = Ok tv -> ids_valid tv ->
  dehydrate order (layouts_get m) n' (into_untyped tv) ref opts = Err e -> exists t u, e = DTermAmbiguity t u.
Proof.
  intros B DS OP EN H V. eapply C120_public; eauto.
  - exact (C122_sorted fuel b m (built_documents b B) compiled).
  - intros r l x Q. exact (C53_registry_partial fuel b m r l x B compiled Q).
Qed.
End Registry.
End Compiled.
