(** * C121: examples *)

From Coq Require Import String List Bool Arith NArith ZArith Lia Permutation Qcanon.
Import ListNotations.
From Verif Require Import Base BaseProofs Orders PatternModel MatchingModel MatchingSpec MatchingProofs ValueModel LayoutModel LayoutSpec HydrateModel HydrateSpec
  HydrateProperties TermModel HydrateExamples DehydrateModel DehydrateSpec DehydrateFinish DehydrateProperties DehydrateExamples
  TakenSpec TakenProperties TakenExamples WriteBackSpec AmbiguityProperties.
Open Scope list_scope.
Open Scope nat_scope.
Open Scope string_scope.

(** A record of a literal read as a text and as a number. *)
Definition both : registry term := layouts_get [
  (iri "both", ProductL no_header [
     (key "number", Field (self (VFormat (iri "number") [PVar 0] None)) true);
     (key "text", Field (self (VFormat (iri "digits") [PVar 0] None)) true)]);
  (iri "digits", DataL (KTextString None) no_header (PVar 0) (iri xsd_integer));
  (iri "number", DataL KNumber no_header (PVar 0) (iri xsd_integer))].

Lemma both_In r l : both r = Some l -> In (r, l) [
  (iri "both", ProductL no_header [
     (key "number", Field (self (VFormat (iri "number") [PVar 0] None)) true);
     (key "text", Field (self (VFormat (iri "digits") [PVar 0] None)) true)]);
  (iri "digits", DataL (KTextString None) no_header (PVar 0) (iri xsd_integer));
  (iri "number", DataL KNumber no_header (PVar 0) (iri xsd_integer))].
Proof. apply bt_get_In. Qed.
Example both_sorted : registry_sorted both.
Proof.
  intros ref l H. apply both_In in H. cbn [In] in H. repeat (destruct H as [[= <- <-]|H]; [try exact Logic.I|]); [|destruct H].
  repeat constructor.
Qed.
Example both_plain : plain_registry both.
Proof.
  intros ref l H. apply both_In in H. cbn [In] in H. repeat (destruct H as [[= <- <-]|H]); [..|destruct H]; cbn [plain_layout].
  - split; [intros x L; cbn in L; lia|]. intros k f [[= <- <-]|[[= <- <-]|[]]]; (split; [intros x L; cbn in L; lia|now left]).
  - intros x L. cbn in L. lia.
  - intros x L. cbn in L. lia.
Qed.
Example both_declared : declared_registry both.
Proof. intros ref l x H U. apply both_In in H. cbn [In] in H. repeat (destruct H as [[= <- <-]|H]; [declared|]). destruct H. Qed.
Example both_no_sum : no_sum both.
Proof. intros ref h vs H. apply both_In in H. cbn [In] in H. repeat (destruct H as [[=]|H]). destruct H. Qed.

(** It reads "042", and cannot write it back: C121 applies, and tells why. *)
Definition both_value (s : string) : typed_value term :=
  match hydrate (list_dataset []) both 10 (iri "both") [int s] with Ok v => v | _ => TAlways vunit end.
Example both_ambiguous :
  hydrate (list_dataset []) both 10 (iri "both") [int "042"] = Ok (both_value "042") /\
  dehydrate same both 10 (into_untyped (both_value "042")) (iri "both") default_options = Err (DTermAmbiguity (int "42") (int "042")) /\
  two_spellings (int "42") (int "042").
Proof.
  assert (H : hydrate (list_dataset []) both 10 (iri "both") [int "042"] = Ok (both_value "042")) by (vm_compute; reflexivity).
  assert (E : dehydrate same both 10 (into_untyped (both_value "042")) (iri "both") default_options = Err (DTermAmbiguity (int "42") (int "042")))
    by (vm_compute; reflexivity).
  split; [exact H|]. split; [exact E|].
  assert (V : ids_valid (both_value "042")) by (apply no_ids_valid; vm_compute; reflexivity).
  assert (EN : enumerates (list_dataset []) (fun q : quad term => In q [])) by (apply list_dataset_enumerates; constructor).
  assert (ND : is_decimal_type xsd_boolean = false) by (vm_compute; reflexivity).
  destruct (C121_only_error both ND both_plain both_sorted same same_perm default_options both_declared (C120_no_sum _ both_no_sum)
    (list_dataset []) (fun q => In q []) 10 10 (iri "both") [int "042"] (both_value "042") _ EN H V E) as (a & b & [= <- <-] & T).
  exact T.
Qed.

(** Written in the normal way, the literal is written back. *)
Example both_normal : exists out,
  hydrate (list_dataset []) both 10 (iri "both") [int "42"] = Ok (both_value "42") /\
  dehydrate same both 10 (into_untyped (both_value "42")) (iri "both") default_options = Ok out /\ out = ([], [int "42"]).
Proof. eexists. split; [vm_compute; reflexivity|]. split; [vm_compute; reflexivity|reflexivity]. Qed.

(** So a dataset that was read without error may be impossible to write back. *)
Theorem C121_never_fails_refuted : exists (reg : registry term) D tv inputs ref a b,
  registry_sorted reg /\ plain_registry reg /\ declared_registry reg /\ decided_sums reg /\
  hydrate D reg 10 ref inputs = Ok tv /\ ids_valid tv /\ dehydrate same reg 10 (into_untyped tv) ref default_options = Err (DTermAmbiguity a b).
Proof.
  exists both, (list_dataset []), (both_value "042"), [int "042"], (iri "both"), (int "42"), (int "042").
  split; [exact both_sorted|]. split; [exact both_plain|]. split; [exact both_declared|]. split; [exact (C120_no_sum _ both_no_sum)|].
  destruct both_ambiguous as (H & E & _). split; [exact H|]. split; [|exact E]. apply no_ids_valid. vm_compute. reflexivity.
Qed.

Print Assumptions C121_ambiguity.
Print Assumptions C121_only_error.
Print Assumptions C121_never_fails_refuted.
