(** * C74: the generated deserializers read what the layouts mean *)

From Coq Require Import String List Bool Arith ZArith QArith Qcanon Permutation Sorted Lia.
Import ListNotations.
From Verif Require Import Base BaseProofs Orders PatternModel MatchingModel MatchingSpec ValueModel LayoutModel
  HydrateModel HydrateSpec HydrateProofs HydrateSound HydrateProperties TermModel GenDataModel GenModel GenSpec GenProofs.
Open Scope list_scope.
Open Scope nat_scope.

Section C74.
Context {R I : Type} {CR : Cmp R} {LR : CmpLaws R} {RT : Runtime R I} {RS : Resolver R I} {IS : IntSyntax} {X : Xsd}.
Variable i : I.
Variable types : program.
Variable res : string -> R.
Variable reg : registry R.

(** C74 (what holds, soundness).  When a generated deserializer returns a value, [hydrate] returns a tree for
    the same layouts, dataset and inputs, and both present the same data.  Missing: values with blank node
    identifiers; IRIs of the program unknown to the interpretation; several literals of the same datatype, or
    language strings, on one resource; variants that introduce variables. *)
Theorem C74_deserialize_sound_partial (D : dataset R) fuel g ty inputs v :
  integers_are_decimals -> program_fits types -> describes types res reg -> interpreted i types res ->
  plain_literals i ->
  deserialize i D types fuel g ty inputs = Ok v -> ~ mentions_blank v ->
  exists tv, hydrate_with (I := seen i) D reg fuel g (res ty) inputs = Ok tv /\ presents types res ty tv v.
Proof. intros. eapply deserialize_sound; eassumption. Qed.

(** C74 (what holds, completeness).  When [hydrate] returns a tree, so does the generated deserializer, and both
    present the same data.  Missing: programs with enumerations (see below); literals out of the range of the Rust integers. *)
Theorem C74_deserialize_complete_partial (D : dataset R) fuel g ty inputs tv :
  integers_are_decimals -> program_fits types -> describes types res reg -> interpreted i types res ->
  without_sums types -> in_range i types ->
  hydrate_with (I := seen i) D reg fuel g (res ty) inputs = Ok tv ->
  exists v, deserialize i D types fuel g ty inputs = Ok v /\ presents types res ty tv v.
Proof.
  intros ? ? ? ? NS ?. eapply deserialize_complete; try eassumption.
  intros ? ? ? ? ? ? ? ? ? ? ? ? ? ? ? T. exfalso. exact (NS _ _ _ _ T).
Qed.

(** C74 (what holds, completeness with enumerations).  The same for programs whose enumerations are discriminated by
    the dataset: no two variants are found for the same inputs.  Missing: enumerations where the content of a
    variant decides, of which [C74_enumeration_refuted] is one; literals out of the range of the Rust integers. *)
Theorem C74_deserialize_enumerations_partial (D : dataset R) (G : quad R -> Prop) fuel g ty inputs tv :
  integers_are_decimals -> program_fits types -> describes types res reg -> interpreted i types res ->
  enumerates D G -> discriminated types res G -> in_range i types ->
  hydrate_with (I := seen i) D reg fuel g (res ty) inputs = Ok tv ->
  exists v, deserialize i D types fuel g ty inputs = Ok v /\ presents types res ty tv v.
Proof.
  intros ? ? ? ? EN DI ?. eapply deserialize_complete; try eassumption.
  intros ? ? ? ? ? ? ? ? ? ? ? ? ? ? ? T Hs N M M1 M2. eapply header_Ok in Hs; [|eassumption].
  eapply match_unique_Some in M1 as [M1 _]; [|eassumption]. eapply match_unique_Some in M2 as [M2 _]; [|eassumption].
  eapply DI; eassumption.
Qed.

(** C74: the value read is the one the layout gives to the dataset in the declarative semantics of
    HydrateSpec.v. *)
Theorem C74_deserialize_means_partial (D : dataset R) G fuel g ty inputs v :
  integers_are_decimals -> program_fits types -> describes types res reg -> interpreted i types res ->
  plain_literals i -> enumerates D G -> registry_sorted reg ->
  deserialize i D types fuel g ty inputs = Ok v -> ~ mentions_blank v ->
  exists tv, Means (IR := seen i) G reg false g (res ty) inputs tv /\ presents types res ty tv v.
Proof.
  intros DEC F DS INT P EN SO H NB.
  destruct (deserialize_sound i D types res reg DEC F DS INT P fuel g ty inputs v H NB) as (tv & Hh & Pr).
  exists tv. split; [|assumption]. eapply (proj1 (C09_hydration_sound (IR := seen i) D G reg fuel g (res ty) inputs EN SO)). exact Hh.
Qed.

(** C74: a literal type reads the only literal of its datatype with a value; several are ambiguous, whatever
    the resource has besides. *)
Theorem C74_literals (D : dataset R) fuel g ty k datatype p r :
  types ty = Some (TyDerived (DataL k (Header 1 0 []) (PVar 0) datatype) p) ->
  deserialize i D types (S fuel) g ty [r] =
    match readings p datatype (rt_literals i r) with
    | [v] => Ok v
    | [] => Err (match rt_literals i r with [] => ExpectedLiteral | _ => LiteralTypeMismatch end)
    | _ => Err AmbiguousLiteralValue
    end.
Proof.
  intros H. cbn [deserialize]. rewrite H. cbn [input_count h_input length Nat.eqb].
  assert (E : de_layout i D (deserialize i D types fuel) fuel g (DataL k (Header 1 0 []) (PVar 0) datatype) p [r] =
    de_data i p datatype r) by reflexivity.
  rewrite E. apply de_data_readings.
Qed.
End C74.
