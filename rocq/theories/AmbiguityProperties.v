(** * C121: when can what was read not be written back for an ambiguity?

    [dehydrate] reports [DTermAmbiguity a b] when the resource of some node would be two terms.  For a value read from a dataset by the same layout,
    this can only be because the dataset writes a boolean or a decimal in a way that is not the normal one, and this literal was read twice:
    as a text and as a value.  With C120 nothing else can fail. *)

From Coq Require Import String List Bool Arith NArith Permutation Sorted Lia.
Import ListNotations.
From Verif Require Import Base BaseProofs Orders PatternModel MatchingModel MatchingSpec ValueModel LayoutModel LayoutSpec HydrateModel
  HydrateSpec HydrateProofs HydrateSound HydrateComplete HydrateProperties TermModel DehydrateModel DehydrateSpec DehydrateProofs DehydrateEmits DehydrateFinish
  DehydrateProperties RegistryProperties RoundTripSpec OtherDataProperties RenameProperties DehydrateUnique DehydrateUniqueProperties
  WriteBackSpec WriteBackProofs WriteBackProperties DehydrateOutcomes.
From Verif Require TakenSpec TakenProperties.
Open Scope list_scope.
Open Scope nat_scope.

(** Two ways to write one boolean or one decimal, one of them the normal one. *)
Definition two_spellings {X : Xsd} (a b : term) : Prop :=
  exists l l', normal_literal l l' /\ l <> l' /\ ((a = TmLit l /\ b = TmLit l') \/ (a = TmLit l' /\ b = TmLit l)).

Lemma normal_literals {X : Xsd} l1 l2 l : is_decimal_type xsd_boolean = false -> normal_literal l1 l -> normal_literal l2 l -> l1 <> l2 -> normal_literal l1 l2 \/ normal_literal l2 l1.
Proof.
  intros ND H1 H2 N. destruct H1 as [l|v B|v B|ty v v' n D P Q]; [now right|..]; inversion H2; subst; try congruence;
    try (left; now constructor); try (left; econstructor; eassumption).
  all: exfalso; match goal with A : boolean_lexical ?v true, B : boolean_lexical ?v false |- _ => inversion A; subst; inversion B end.
Qed.

Lemma normal_terms {X : Xsd} a b t : is_decimal_type xsd_boolean = false -> normal_term a t -> normal_term b t -> a <> b -> two_spellings a b.
Proof.
  intros ND H1 H2 N. destruct H1 as [t|l l' H].
  - destruct H2 as [t|l l' H]; [congruence|]. exists l, l'. split; [exact H|]. split; [congruence|]. right. auto.
  - inversion H2 as [|l2 ? H']; subst.
    + exists l, l'. split; [exact H|]. split; [congruence|]. left. auto.
    + destruct (normal_literals l l2 l' ND H H') as [A|A]; [congruence|exists l, l2|exists l2, l]; (split; [exact A|]); split; auto; congruence.
Qed.

Section Ambiguity.
Context {X : Xsd} {IS : IriSyntax} {Gn : Type}.
Variable reg : registry term.
(** [xsd:boolean] is not one of the datatypes of the numbers (a fact of the external crate [xsd_types]). *)
Hypothesis not_decimal : is_decimal_type xsd_boolean = false.
Hypothesis plain : plain_registry reg.
Hypothesis sorted : registry_sorted reg.
Variable order : list (quad res) -> list (quad res).
Hypothesis order_perm : forall l, Permutation (order l) l.
Variable opts : options Gn.

Theorem C121_ambiguity D G fuel fuel' ref inputs tv a b :
  enumerates D G -> hydrate D reg fuel ref inputs = Ok tv ->
  dehydrate order reg fuel' (into_untyped tv) ref opts = Err (DTermAmbiguity a b) -> two_spellings a b.
Proof.
  intros EN HY DE. destruct (C09_hydration_sound D G reg fuel None ref inputs EN sorted) as [SND _]. apply SND in HY. clear SND.
  destruct (dehydrate_Err opts reg order fuel' (into_untyped tv) ref _ DE) as [[_ [=]]|[(l & st & El & RUN)|(l & st & a' & b' & El & RUN & [= <- <-] & NE & r & Hb & Ha)]].
  { exfalso.
    pose proof (dehydrate_fine input_interpretation reg (fun _ => True) (fun _ => True)
      (fun e => forall a b, e <> DTermAmbiguity a b) (fun _ => True)) as F.
    specialize (F ltac:(auto) ltac:(auto) ltac:(auto) ltac:(discriminate) ltac:(discriminate) ltac:(discriminate)
      ltac:(discriminate) ltac:(discriminate) ltac:(discriminate) ltac:(auto)).
    specialize (F fuel' (into_untyped tv) None ref (map RInput (seq 0 (root_count opts l))) Logic.I Logic.I initial).
    rewrite RUN in F. now apply (F a b). }
  set (count := root_count opts l) in *.
  assert (exists th, Inv G st th) as (th & IV).
  { destruct (Nat.eq_dec count (length inputs)) as [EC|NC].
    - destruct (with_step G reg plain sorted fuel' tv None ref (map RInput (seq 0 count)) initial st (start inputs) RUN) as (th & A & IV & _).
      + apply initial_inv. reflexivity.
      + apply inputs_below.
      + rewrite EC, start_inputs. exact HY.
      + exists th. exact IV.
    - exists (start inputs).
      assert (arity l = None) as AN.
      { destruct (arity l) as [n|] eqn:AL; [|reflexivity]. exfalso. apply NC. unfold count, root_count. rewrite <- arity_input_count, AL.
        destruct HY; match goal with H : layout_for _ _ _ _ |- _ => destruct H as [LF AR]; rewrite LF in El; injection El as <-; now rewrite (AR _ AL) end. }
      assert (l = Always) as ->.
      { destruct HY; match goal with H : layout_for _ _ _ _ |- _ => destruct H as [LF AR]; rewrite LF in El; injection El as <- end; try discriminate; reflexivity. }
      assert (st = initial) as ->.
      { destruct fuel'; cbn [dehydrate_with] in RUN; [discriminate|]. unfold dehydrate_body in RUN. rewrite El in RUN. cbn [input_count dehydrate_layout] in RUN.
        apply ret_Ok in RUN as [_ <-]. reflexivity. }
      apply initial_inv. reflexivity. }
  apply (normal_terms a b (th r)); [exact not_decimal| |exact (proj1 (iv_asg _ _ _ IV _ _ Hb))|exact NE].
  destruct Ha as [->|Ha]; [rewrite (iv_term _ _ _ IV); constructor|exact (proj1 (iv_asg _ _ _ IV _ _ Ha))].
Qed.

(** With the conditions of C120, nothing else can be wrong. *)
Hypothesis declared : TakenSpec.declared_registry reg.
Hypothesis decided : TakenSpec.decided_sums reg.

Theorem C121_only_error D G fuel fuel' ref inputs tv e :
  enumerates D G -> hydrate D reg fuel ref inputs = Ok tv -> TakenSpec.ids_valid tv ->
  dehydrate order reg fuel' (into_untyped tv) ref opts = Err e -> exists a b, e = DTermAmbiguity a b /\ two_spellings a b.
Proof.
  intros EN HY V DE. destruct (TakenProperties.C120_public opts reg sorted declared decided order order_perm D G fuel fuel' ref inputs tv e EN HY V DE) as (a & b & ->).
  exists a, b. split; [reflexivity|]. eapply C121_ambiguity; eauto.
Qed.
End Ambiguity.
