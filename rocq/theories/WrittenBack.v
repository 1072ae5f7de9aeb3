(** * C121: what was read is written back

    [C121_written_back] excludes the errors.  With the layouts of literals that [dehydrate] supports (C31), and sums that do not use one another for ever (C59),
    there is no panic and the call returns: the value is written, and C100 tells what is written. *)

From Coq Require Import String List Bool Arith NArith Permutation Sorted Lia.
Import ListNotations.
From Verif Require Import Base BaseProofs Orders PatternModel MatchingModel MatchingSpec ValueModel LayoutModel LayoutSpec HydrateModel
  HydrateSpec HydrateProofs HydrateSound HydrateComplete HydrateProperties TermModel DehydrateModel DehydrateSpec DehydrateProofs DehydrateEmits DehydrateFinish
  DehydrateProperties RegistryProperties RoundTripSpec OtherDataProperties RenameProperties DehydrateUnique DehydrateUniqueProperties
  WriteBackSpec WriteBackProofs WriteBackProperties DehydrateOutcomes AmbiguityProperties NormalLiterals.
From Verif Require TakenSpec TakenProperties.
Open Scope list_scope.
Open Scope nat_scope.

Section Total.
Context {X : Xsd} {IS : IriSyntax} {Gn : Type}.
Variable reg : registry term.
Hypothesis not_decimal : is_decimal_type xsd_boolean = false.
Hypothesis prints : decimals_read_back X.
Hypothesis plain : plain_registry reg.
Hypothesis sorted : registry_sorted reg.
Hypothesis apart : texts_apart reg.
Hypothesis normal : normal_names reg.
Hypothesis declared : TakenSpec.declared_registry reg.
Hypothesis decided : TakenSpec.decided_sums reg.
Hypothesis literals : forall ref l, reg ref = Some l -> supported l.
(** No sum is reached from itself through sums only. *)
Variable rank : term -> nat.
Variable K : nat.
Hypothesis bounded : forall r, rank r < K.
Hypothesis founded : forall r h vs va, reg r = Some (SumL h vs) -> In va vs -> rank (vf_layout (it_value (va_item va))) < rank r.
Variable order : list (quad res) -> list (quad res).
Hypothesis order_perm : forall l, Permutation (order l) l.
Variable opts : options Gn.

Theorem C121_total D G fuel ref inputs tv :
  enumerates D G -> hydrate D reg fuel ref inputs = Ok tv -> TakenSpec.ids_valid tv ->
  (forall n, part (VLit (LNum n)) (into_untyped tv) -> decimal_print n <> None) ->
  exists enough, forall fuel', enough <= fuel' -> exists ds vals, dehydrate order reg fuel' (into_untyped tv) ref opts = Ok (ds, vals).
Proof.
  intros EN HY V NP.
  destruct (C59_terminates input_interpretation reg rank K (into_untyped tv) ref bounded founded) as (enough & T).
  exists enough. intros fuel' L.
  destruct (dehydrate order reg fuel' (into_untyped tv) ref opts) as [[ds vals]|e|w|] eqn:DE.
  - eauto.
  - exfalso. revert DE. eapply C121_written_back; eauto.
  - exfalso. revert DE. apply C31_no_panic_partial; eauto.
  - exfalso. unfold dehydrate in DE. destruct (reg ref) as [l|] eqn:El; [|discriminate]. cbn [ok_or bind] in DE.
    match type of DE with context [dehydrate_with _ _ _ _ _ _ ?inp ?s] => pose proof (T fuel' L None inp s) as N end.
    destruct (dehydrate_with _ _ _ _ _ _ _ _) as [[[]|e|w|] st]; try discriminate; [|now apply N].
    assert (C : forall m, check_terms m <> OutOfFuel).
    { clear. induction m as [|[r ts] m IH]; [discriminate|]. cbn [check_terms].
      destruct r as [i|i|t]; [destruct ts as [|t [|u ts]]..|destruct (find _ _)]; try discriminate; try exact IH;
        destruct (check_terms m); try discriminate; now destruct IH. }
    specialize (C (ii_map (ds_interp st))). destruct (check_terms _) as [m|e|w|]; try discriminate; [|now apply C]. cbn [bind] in DE.
    destruct (map_list _ _ _) as [d ms]. destruct (map_list _ _ _). discriminate.
Qed.

(** What is written: quads of the dataset that was read, up to the names of the blank nodes and the way booleans and decimals are written (C100). *)
Hypothesis no_blank : forall r l b, reg r = Some l -> ~ mentions l (TmBlank b).
Hypothesis blanks : blank_identifiers opts.
Hypothesis fresh : fresh_identifiers opts.

Theorem C121_total_written D G fuel ref inputs tv :
  enumerates D G -> hydrate D reg fuel ref inputs = Ok tv -> TakenSpec.ids_valid tv ->
  (forall n, part (VLit (LNum n)) (into_untyped tv) -> decimal_print n <> None) ->
  exists enough, forall fuel', enough <= fuel' -> exists ds vals f, dehydrate order reg fuel' (into_untyped tv) ref opts = Ok (ds, vals) /\
    renames_blanks f /\ (forall q, In q ds -> exists q0, G q0 /\ normal_quad (rename_quad f q) q0) /\
    (length vals = length inputs -> Forall2 normal_term (map f vals) inputs).
Proof.
  intros EN HY V NP. destruct (C121_total D G fuel ref inputs tv EN HY V NP) as (enough & T). exists enough. intros fuel' L.
  destruct (T fuel' L) as (ds & vals & DE).
  edestruct (C100_written_back_partial (Gn := Gn)) as (f & RB & Q & VA); eauto. exists ds, vals, f. eauto.
Qed.
End Total.
