(** * C123: the conditions, for the layouts that are trees

    Most conditions of C123 hold of every tree.  Without sums, one remains: no text layout is for the booleans or the decimals. *)

From Coq Require Import String List Bool Arith NArith Permutation Sorted Lia.
Import ListNotations.
From Verif Require Import Base BaseProofs Orders PatternModel MatchingModel MatchingSpec ValueModel LayoutModel LayoutSpec HydrateModel
  HydrateSpec HydrateProperties TermModel DehydrateModel DehydrateSpec DehydrateFinish DehydrateProperties RoundTripSpec RoundTripProperties
  WriteBackSpec WriteBackProofs DehydrateOutcomes NormalLiterals WrittenBack ReadAgain.
From Verif Require TakenSpec TakenProperties.
Open Scope list_scope.
Open Scope nat_scope.

Section Trees.
Context {X : Xsd} {IS : IriSyntax}.
Variable reg : registry term.
Hypothesis tree : tree_registry reg.

Lemma tree_supported ref l : reg ref = Some l -> supported l.
Proof.
  intro E. destruct (tree _ _ E) as [k ty T| | | | | | | |]; cbn; try exact Logic.I. destruct k; cbn in *; subst; eauto.
Qed.

Lemma tree_normal_names : normal_names reg.
Proof.
  intros ref l lit lit' E N _. exfalso.
  destruct (tree _ _ E); inversion N; subst;
    repeat match goal with
    | A : In _ (map _ _) |- _ => apply in_map_iff in A as (? & <- & _)
    | A : In _ (fields_of _) |- _ => apply in_map_iff in A as ([? []] & [= <- <-] & _)
    end; match goal with A : In _ (vf_input _) |- _ => destruct A as [[=]|[]] end.
Qed.

Lemma about_used ps n : used_where_introduced n 0 (statements ps).
Proof. intros x L. lia. Qed.
Lemma linked_plain p r : plain_item 1 (linked p r).
Proof.
  split; [|now left]. intros x L. cbn in L. assert (x = 1) as -> by lia. eexists. split; [now left|]. unfold qvar_of, pvar_of. cbn. auto.
Qed.
Lemma same_plain n r : plain_item n (same_node r).
Proof. split; [|now left]. intros x L. cbn in L. lia. Qed.
Lemma tagged_plain n p g r : plain_item n (tagged p g r).
Proof. split; [|now left]. intros x L. cbn in L. lia. Qed.
Lemma cell_plain first rest r : plain_item 3 (cell first rest r).
Proof.
  split; [|now left]. intros x L. cbn in L. assert (x = 3) as -> by lia. eexists. split; [now left|]. unfold qvar_of, pvar_of. cbn. auto.
Qed.

Lemma tree_plain : (forall r h vs, reg r = Some (SumL h vs) -> exclusive reg vs) -> plain_registry reg.
Proof.
  intros EX ref l E. destruct (tree _ _ E); cbn [plain_layout choice_layout record_layout tuple_layout set_layout list_layout tagged_layout data_layout];
    try (apply about_used); split; try (apply about_used).
  - split; [|eapply EX, E]. intros va A. apply in_map_iff in A as (v & <- & _). apply same_plain.
  - intros k f A. apply in_map_iff in A as ([k' c] & [= <- <-] & _). destruct c; [apply same_plain|apply linked_plain].
  - intros it A. apply in_map_iff in A as (v & <- & _). apply linked_plain.
  - apply linked_plain.
  - apply cell_plain.
  - split; [|eapply EX, E]. intros va A. apply in_map_iff in A as (v & <- & _). apply tagged_plain.
Qed.

Lemma about_declared ps x : ~ header_undeclared 1 (about ps) x.
Proof.
  intros [(q & A & V) L]. cbn in L. apply in_map_iff in A as ([p o] & <- & _). unfold qvar_of, pvar_of in V. cbn in V.
  destruct V as [V|[V|[V|V]]]; try discriminate. injection V as <-. lia.
Qed.
Ltac scoped := intros [[(q & A & V)|[A|A]] L]; cbn in A, L;
  [repeat (destruct A as [<-|A]; [unfold qvar_of, pvar_of in V; cbn in V; destruct V as [V|[V|[V|V]]]; try discriminate; injection V as <-; lia|]); destruct A
  |destruct A as [[= <-]|[]]; lia|discriminate].
Lemma linked_declared p r x : ~ item_undeclared 1 (linked p r) x.
Proof. scoped. Qed.
Lemma same_declared r x : ~ item_undeclared 1 (same_node r) x.
Proof. scoped. Qed.
Lemma tagged_declared p g r x : ~ item_undeclared 1 (tagged p g r) x.
Proof. scoped. Qed.
Lemma cell_declared first rest r x : ~ item_undeclared 3 (cell first rest r) x.
Proof. scoped. Qed.

Lemma tree_declared : TakenSpec.declared_registry reg.
Proof.
  intros ref l x E. destruct (tree _ _ E);
    cbn [undeclared_in choice_layout record_layout tuple_layout set_layout list_layout tagged_layout data_layout];
    try apply about_declared; (intros [U|U]; [exact (about_declared _ _ U)|]).
  - destruct U as [[= <-] L]. cbn in L. lia.
  - destruct U as [[= <-] L]. cbn in L. lia.
  - destruct U as (va & A & U). apply in_map_iff in A as (v & <- & _). exact (same_declared _ _ U).
  - destruct U as (k & f & A & U). apply in_map_iff in A as ([k' [r|p b r]] & [= <- <-] & _); [exact (same_declared _ _ U)|exact (linked_declared _ _ _ U)].
  - destruct U as (it & A & U). apply in_map_iff in A as (v & <- & _). exact (linked_declared _ _ _ U).
  - exact (linked_declared _ _ _ U).
  - destruct U as [[[[= <-]|[=]] L]|U]; [cbn in L; lia|exact (cell_declared _ _ _ _ U)].
  - destruct U as (va & A & U). apply in_map_iff in A as (v & <- & _). exact (tagged_declared _ _ _ _ U).
Qed.

Section Again.
Context {Gn : Type}.
Hypothesis not_decimal : is_decimal_type xsd_boolean = false.
Hypothesis prints : decimals_read_back X.
Hypothesis apart : texts_apart reg.
Variable order : list (quad res) -> list (quad res).
Hypothesis order_perm : forall l, Permutation (order l) l.
Variable opts : options Gn.
Hypothesis blanks : blank_identifiers opts.
Hypothesis fresh : fresh_identifiers opts.

(** C123 for trees.  The conditions on the sums: no value is taken by two variants, each value taken by a variant is refused by the others, and no sum is
    reached from itself through sums only.  Missing: the layouts that are not trees. *)
Theorem C123_trees_partial (rank : term -> nat) K :
  (forall r h vs, reg r = Some (SumL h vs) -> exclusive reg vs) -> TakenSpec.decided_sums reg ->
  (forall r, rank r < K) -> (forall r h vs va, reg r = Some (SumL h vs) -> In va vs -> rank (vf_layout (it_value (va_item va))) < rank r) ->
  forall D G fuel ref inputs tv,
  enumerates D G -> hydrate D reg fuel ref inputs = Ok tv -> TakenSpec.ids_valid tv ->
  (forall n, part (VLit (LNum n)) (into_untyped tv) -> decimal_print n <> None) ->
  Proper reg ref (into_untyped tv) -> distinct_identifiers reg ref (into_untyped tv) -> not_terminators reg ref (into_untyped tv) ->
  exists enough, forall fuel', enough <= fuel' -> exists ds vals, dehydrate order reg fuel' (into_untyped tv) ref opts = Ok (ds, vals) /\
    forall D', enumerates D' (fun q => In q ds) -> exists tv' N, (forall fuel'', N <= fuel'' -> hydrate D' reg fuel'' ref vals = Ok tv') /\
      Same reg ref (into_untyped tv) (into_untyped tv').
Proof.
  intros EX DS RB RF D G fuel ref inputs tv.
  exact (C123_read_again_partial reg not_decimal prints (tree_plain EX) (tree_sorted reg tree) apart tree_normal_names tree_declared DS tree_supported
    rank K RB RF order order_perm opts tree blanks fresh D G fuel ref inputs tv).
Qed.

(** Without sums there is nothing to check but the types of the texts. *)
Theorem C123_no_sum_partial D G fuel ref inputs tv : no_sum reg ->
  enumerates D G -> hydrate D reg fuel ref inputs = Ok tv -> TakenSpec.ids_valid tv ->
  (forall n, part (VLit (LNum n)) (into_untyped tv) -> decimal_print n <> None) ->
  Proper reg ref (into_untyped tv) -> distinct_identifiers reg ref (into_untyped tv) -> not_terminators reg ref (into_untyped tv) ->
  exists enough, forall fuel', enough <= fuel' -> exists ds vals, dehydrate order reg fuel' (into_untyped tv) ref opts = Ok (ds, vals) /\
    forall D', enumerates D' (fun q => In q ds) -> exists tv' N, (forall fuel'', N <= fuel'' -> hydrate D' reg fuel'' ref vals = Ok tv') /\
      Same reg ref (into_untyped tv) (into_untyped tv').
Proof.
  intro NS. apply (C123_trees_partial (fun _ => 0) 1).
  - intros r h vs E. now elim (NS r h vs).
  - now apply TakenProperties.C120_no_sum.
  - intro r. apply Nat.lt_0_1.
  - intros r h vs va E. now elim (NS r h vs).
Qed.
End Again.
End Trees.
