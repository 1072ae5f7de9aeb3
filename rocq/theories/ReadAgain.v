(** * C123: read, written, and read again

    A value is read from a dataset, written with the same layout (C121), and read from what was written (C30): it is the same value, up to the order of the
    items of the sets, although the dataset written is another one: it has other blank nodes, it misses the quads that the layout does not name, and the
    literals are normal. *)

From Coq Require Import String List Bool Arith NArith Permutation Sorted Lia.
Import ListNotations.
From Verif Require Import Base BaseProofs Orders PatternModel MatchingModel MatchingSpec ValueModel LayoutModel LayoutSpec HydrateModel
  HydrateSpec HydrateProperties TermModel DehydrateModel DehydrateSpec DehydrateFinish DehydrateProperties RoundTripSpec RoundTripProperties
  WriteBackSpec WriteBackProofs DehydrateOutcomes NormalLiterals WrittenBack.
From Verif Require TakenSpec.
Open Scope list_scope.
Open Scope nat_scope.

Section Again.
Context {X : Xsd} {IS : IriSyntax} {Gn : Type}.
Variable reg : registry term.
(** The conditions of C121. *)
Hypothesis not_decimal : is_decimal_type xsd_boolean = false.
Hypothesis prints : decimals_read_back X.
Hypothesis plain : plain_registry reg.
Hypothesis sorted : registry_sorted reg.
Hypothesis apart : texts_apart reg.
Hypothesis normal : normal_names reg.
Hypothesis declared : TakenSpec.declared_registry reg.
Hypothesis decided : TakenSpec.decided_sums reg.
Hypothesis literals : forall ref l, reg ref = Some l -> supported l.
Variable rank : term -> nat.
Variable K : nat.
Hypothesis bounded : forall r, rank r < K.
Hypothesis founded : forall r h vs va, reg r = Some (SumL h vs) -> In va vs -> rank (vf_layout (it_value (va_item va))) < rank r.
Variable order : list (quad res) -> list (quad res).
Hypothesis order_perm : forall l, Permutation (order l) l.
Variable opts : options Gn.
(** The class of layouts of C30. *)
Hypothesis tree : tree_registry reg.
Hypothesis blanks : blank_identifiers opts.
Hypothesis fresh : fresh_identifiers opts.

(** C123.  Missing: the layouts that are not trees, and the values that are not [Proper] (C30). *)
Theorem C123_read_again_partial D G fuel ref inputs tv :
  enumerates D G -> hydrate D reg fuel ref inputs = Ok tv -> TakenSpec.ids_valid tv ->
  (forall n, part (VLit (LNum n)) (into_untyped tv) -> decimal_print n <> None) ->
  Proper reg ref (into_untyped tv) -> distinct_identifiers reg ref (into_untyped tv) -> not_terminators reg ref (into_untyped tv) ->
  exists enough, forall fuel', enough <= fuel' -> exists ds vals, dehydrate order reg fuel' (into_untyped tv) ref opts = Ok (ds, vals) /\
    forall D', enumerates D' (fun q => In q ds) -> exists tv' N, (forall fuel'', N <= fuel'' -> hydrate D' reg fuel'' ref vals = Ok tv') /\
      Same reg ref (into_untyped tv) (into_untyped tv').
Proof.
  intros EN HY V NP PR DI NT.
  destruct (C121_total reg not_decimal prints plain sorted apart normal declared decided literals rank K bounded founded order order_perm opts
    D G fuel ref inputs tv EN HY V NP) as (enough & T).
  exists enough. intros fuel' L. destruct (T fuel' L) as (ds & vals & DE). exists ds, vals. split; [exact DE|]. intros D' EN'.
  eapply C30_round_trip_partial; eassumption.
Qed.

(** Without sets: the same value. *)
Theorem C123_read_again_equal_partial D G fuel ref inputs tv : no_sets reg ->
  enumerates D G -> hydrate D reg fuel ref inputs = Ok tv -> TakenSpec.ids_valid tv ->
  (forall n, part (VLit (LNum n)) (into_untyped tv) -> decimal_print n <> None) ->
  Proper reg ref (into_untyped tv) -> distinct_identifiers reg ref (into_untyped tv) -> not_terminators reg ref (into_untyped tv) ->
  exists enough, forall fuel', enough <= fuel' -> exists ds vals, dehydrate order reg fuel' (into_untyped tv) ref opts = Ok (ds, vals) /\
    forall D', enumerates D' (fun q => In q ds) -> exists tv' N, (forall fuel'', N <= fuel'' -> hydrate D' reg fuel'' ref vals = Ok tv') /\
      into_untyped tv' = into_untyped tv.
Proof.
  intros NS EN HY V NP PR DI NT.
  destruct (C121_total reg not_decimal prints plain sorted apart normal declared decided literals rank K bounded founded order order_perm opts
    D G fuel ref inputs tv EN HY V NP) as (enough & T).
  exists enough. intros fuel' L. destruct (T fuel' L) as (ds & vals & DE). exists ds, vals. split; [exact DE|]. intros D' EN'.
  eapply C30_round_trip_equal_partial; eassumption.
Qed.
End Again.
