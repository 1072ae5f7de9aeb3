(** * C121: examples of layouts that write back all they read *)

From Coq Require Import String List Bool Arith NArith ZArith Lia Permutation Qcanon.
Import ListNotations.
From Verif Require Import Base BaseProofs Orders PatternModel MatchingModel MatchingSpec MatchingProofs ValueModel LayoutModel LayoutSpec HydrateModel HydrateSpec
  HydrateProperties TermModel HydrateExamples DehydrateModel DehydrateSpec DehydrateFinish DehydrateProperties DehydrateExamples RoundTripSpec
  TakenSpec TakenProperties TakenExamples WriteBackSpec AmbiguityProperties AmbiguityExamples NormalLiterals.
Open Scope list_scope.
Open Scope nat_scope.
Open Scope string_scope.

(** A record of a number and of a unit, always the literal [c]. *)
Definition measure_list (c : term) : list (term * layout term) := [
  (iri "digits", DataL KNumber no_header (PVar 0) (iri xsd_integer));
  (iri "measure", ProductL no_header [
     (key "number", Field (self (VFormat (iri "digits") [PVar 0] None)) true);
     (key "unit", Field (self (VFormat (iri "unit") [PRes c] None)) true)]);
  (iri "unit", DataL (KTextString None) no_header (PVar 0) (iri xsd_string))].
Definition measure (c : term) : registry term := layouts_get (measure_list c).
Definition metre : term := TmLit (RdfLiteral "m" (TypeAny xsd_string)).

Lemma measure_In c r l : measure c r = Some l -> In (r, l) (measure_list c).
Proof. apply bt_get_In. Qed.
Example measure_sorted : registry_sorted (measure metre).
Proof.
  intros ref l H. apply measure_In in H. cbn [In measure_list] in H. repeat (destruct H as [[= <- <-]|H]; [try exact Logic.I|]); [|destruct H].
  repeat constructor.
Qed.
Example measure_plain : plain_registry (measure metre).
Proof.
  intros ref l H. apply measure_In in H. cbn [In measure_list] in H. repeat (destruct H as [[= <- <-]|H]); [..|destruct H]; cbn [plain_layout].
  - intros x L. cbn in L. lia.
  - split; [intros x L; cbn in L; lia|]. intros k f [[= <- <-]|[[= <- <-]|[]]]; (split; [intros x L; cbn in L; lia|now left]).
  - intros x L. cbn in L. lia.
Qed.
Example measure_declared : declared_registry (measure metre).
Proof. intros ref l x H U. apply measure_In in H. cbn [In measure_list] in H. repeat (destruct H as [[= <- <-]|H]; [declared|]). destruct H. Qed.
Example measure_no_sum : no_sum (measure metre).
Proof. intros ref h vs H. apply measure_In in H. cbn [In measure_list] in H. repeat (destruct H as [[=]|H]). destruct H. Qed.
Example measure_apart : texts_apart (measure metre).
Proof.
  intros ref pat h r ty H. apply measure_In in H. cbn [In measure_list] in H. repeat (destruct H as [[=]|H]); [subst ty|destruct H].
  split; [discriminate|vm_compute; reflexivity].
Qed.
Example measure_normal : normal_names (measure metre).
Proof.
  intros ref l lit lit' H N L. apply measure_In in H. cbn [In measure_list] in H. repeat (destruct H as [[= <- <-]|H]); [..|destruct H];
    inversion N; subst; cbn [In] in *.
  match goal with A : _ \/ _ |- _ => destruct A as [[= <- <-]|[[= <- <-]|[]]] end; cbn in *;
    match goal with A : _ \/ _ |- _ => destruct A as [[=]|[]] end; subst lit.
  inversion L; subst; try reflexivity.
  match goal with A : is_decimal_type _ = true |- _ => vm_compute in A; discriminate A end.
Qed.

(** "042" is read, and written back as "42". *)
Definition measured (c : term) : typed_value term :=
  match hydrate (list_dataset []) (measure c) 10 (iri "measure") [int "042"] with Ok v => v | _ => TAlways vunit end.
Example measure_written :
  hydrate (list_dataset []) (measure metre) 10 (iri "measure") [int "042"] = Ok (measured metre) /\
  dehydrate same (measure metre) 10 (into_untyped (measured metre)) (iri "measure") default_options = Ok ([], [int "42"]) /\
  forall fuel order e, (forall l, Permutation (order l) l) ->
    dehydrate order (measure metre) fuel (into_untyped (measured metre)) (iri "measure") default_options <> Err e.
Proof.
  assert (H : hydrate (list_dataset []) (measure metre) 10 (iri "measure") [int "042"] = Ok (measured metre)) by (vm_compute; reflexivity).
  split; [exact H|]. split; [vm_compute; reflexivity|]. intros fuel order e OP.
  assert (V : ids_valid (measured metre)) by (apply no_ids_valid; vm_compute; reflexivity).
  assert (EN : enumerates (list_dataset []) (fun q : quad term => In q [])) by (apply list_dataset_enumerates; constructor).
  assert (ND : is_decimal_type xsd_boolean = false) by (vm_compute; reflexivity).
  eapply (C121_written_back (measure metre) ND); eauto using measure_plain, measure_sorted, measure_apart, measure_normal, measure_declared, measure_no_sum, C120_no_sum.
  intros n s. apply decimal_parse_print.
Qed.

(** Both conditions are needed.  [both] reads a number as a text. *)
Example both_not_apart : ~ texts_apart both.
Proof.
  intro A. destruct (A (iri "digits") None no_header (PVar 0) xsd_integer) as [_ H]; [vm_compute; reflexivity|]. vm_compute in H. discriminate H.
Qed.

(** [frozen] writes a number as "042". *)
Definition frozen_layout : layout term := DataL KNumber no_header (PRes (int "042")) (iri xsd_integer).
Definition frozen : registry term := layouts_get [(iri "frozen", frozen_layout)].
Example frozen_apart : texts_apart frozen.
Proof. intros ref pat h r ty H. apply bt_get_In in H. destruct H as [[=]|[]]. Qed.
Example frozen_fails : exists tv a b,
  hydrate (list_dataset []) frozen 10 (iri "frozen") [iri "x"] = Ok tv /\
  dehydrate same frozen 10 (into_untyped tv) (iri "frozen") default_options = Err (DTermAmbiguity a b) /\ ~ normal_names frozen.
Proof.
  eexists _, (int "042"), (int "42"). split; [vm_compute; reflexivity|]. split; [vm_compute; reflexivity|]. intro N.
  assert (L : normal_literal (RdfLiteral "42" (TypeAny xsd_integer)) (RdfLiteral "042" (TypeAny xsd_integer))).
  { assert (H : exists n, decimal_parse "042" = Some n /\ decimal_print n = Some "42") by (eexists; split; vm_compute; reflexivity).
    destruct H as (n & P & Q). refine (nl_decimal xsd_integer _ _ n _ Q P). vm_compute. reflexivity. }
  assert (E : RdfLiteral "42" (TypeAny xsd_integer) = RdfLiteral "042" (TypeAny xsd_integer)); [|discriminate E].
  apply (N (iri "frozen") frozen_layout); [vm_compute; reflexivity|constructor|exact L].
Qed.

Print Assumptions C121_no_ambiguity.
Print Assumptions C121_written_back.
Print Assumptions frozen_fails.
