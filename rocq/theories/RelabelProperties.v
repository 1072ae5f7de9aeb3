(** * The names of layouts play no role (C110) *)

From Coq Require Import String List Bool Arith NArith Permutation.
Import ListNotations.
From Verif Require Import Base BaseProofs Orders PatternModel ValueModel LayoutModel LayoutSpec MatchingModel MatchingSpec HydrateModel HydrateSpec HydrateProperties TermModel DehydrateModel.
From Verif Require Import ValueProofs RelabelSpec RelabelProofs.
Open Scope list_scope.
Open Scope nat_scope.

Section Hydrate.
Context {R : Type} {CR : Cmp R} {LR : CmpLaws R} {I : Interp R} {X : Xsd}.
Variables (N : R -> R -> Prop) (D : dataset R).

(** Reading a dataset with layouts renamed: the same outcome, the same error up to the names, the same value up to the names and to
    the order of the items of the sets. *)
Theorem C110_hydrate reg reg' fuel g ref ref' inputs :
  renamed_registry N reg reg' -> N ref ref' ->
  renamed_outcome (renamed_hy_error N) (renamed_value N (is_set reg))
    (hydrate_with D reg fuel g ref inputs) (hydrate_with D reg' fuel g ref' inputs).
Proof.
  intros RR H. apply r_hydrate; [exact RR| |exact H]. intros r r' h it h' it' f _ E _. left. now exists h, it.
Qed.

(** The order of the items too, unless a set contains variants. *)
Lemma hydrate_in_order G reg reg' fuel g ref ref' inputs :
  enumerates D G -> registry_sorted reg -> registry_sorted reg' ->
  renamed_registry N reg reg' -> N ref ref' -> no_sum_in_sets reg ref ->
  renamed_outcome (renamed_hy_error (fun r r' => N r r' /\ reaches reg ref r)) (renamed_value (fun r r' => N r r' /\ reaches reg ref r) (fun _ => False))
    (hydrate_with D reg fuel g ref inputs) (hydrate_with D reg' fuel g ref' inputs).
Proof.
  intros EN RS RS' RR H NS. set (N' := fun r r' => N r r' /\ reaches reg ref r).
  apply r_hydrate; [now apply renamed_reached| |split; [exact H|constructor]].
  intros r r' h it h' it' f [NR RE] E E'. right. intros l l' L L' F. apply sort_alike; [exact F|].
  pose proof (renamed_reached N reg reg' ref RR r r' (conj NR RE)) as RL. rewrite E, E' in RL. inversion RL as [| | | | | | |? ? ? (_ & (NI & _) & _)| |]; subst.
  intros x y x' y' IX IY IX' IY' VX VY.
  destruct (L _ IX) as (? & ? & HX), (L _ IY) as (? & ? & HY), (L' _ IX') as (? & ? & HX'), (L' _ IY') as (? & ? & HY').
  apply (C14_conforms _ _ _ _ _ _ _ _ EN RS) in HX, HY. apply (C14_conforms _ _ _ _ _ _ _ _ EN RS') in HX', HY'.
  change (typed_value_cmp x y = typed_value_cmp x' y').
  refine (cmp_alike N' reg reg' RS RS' (renamed_reached N reg reg' ref RR) x _ _ y x' y' NI _ HX HY HX' HY' VX VY). intros q h1 vs Q. eapply NS; eauto.
Qed.

(** The order of the items too, unless a set contains variants: then the very same value, once the names are erased. *)
Theorem C110_hydrate_order_partial G reg reg' fuel g ref ref' inputs :
  enumerates D G -> registry_sorted reg -> registry_sorted reg' ->
  renamed_registry N reg reg' -> N ref ref' -> no_sum_in_sets reg ref ->
  renamed_outcome (renamed_hy_error N) (fun v v' => into_untyped v = into_untyped v')
    (hydrate_with D reg fuel g ref inputs) (hydrate_with D reg' fuel g ref' inputs).
Proof.
  intros EN RS RS' RR H NS. pose proof (hydrate_in_order G reg reg' fuel g ref ref' inputs EN RS RS' RR H NS) as K.
  destruct (hydrate_with D reg _ _ _ _), (hydrate_with D reg' _ _ _ _); cbn in K |- *; auto.
  - eapply renamed_untyped; eauto.
  - destruct K; constructor; try (destruct H0; constructor); try apply H0; try (destruct H1; constructor; assumption).
Qed.
End Hydrate.

Section Dehydrate.
Context {Q S I : Type} {CS : Cmp S} {X : Xsd} {IS : IriSyntax} (N : Q -> Q -> Prop).

(** Writing a value with layouts renamed: the same quads and the same resources, the same error up to the names. *)
Theorem C110_dehydrate_with (ops : interpretation Q S I) reg reg' fuel v g ref ref' inputs st :
  renamed_registry N reg reg' -> N ref ref' ->
  snd (dehydrate_with ops reg fuel v g ref inputs st) = snd (dehydrate_with ops reg' fuel v g ref' inputs st) /\
  renamed_outcome (renamed_de_error N) eq (fst (dehydrate_with ops reg fuel v g ref inputs st)) (fst (dehydrate_with ops reg' fuel v g ref' inputs st)).
Proof. intros RR H. now apply d_dehydrate. Qed.
End Dehydrate.

Section Dehydration.
Context {X : Xsd} {IS : IriSyntax} {Gn : Type}.

Theorem C110_dehydrate (N : term -> term -> Prop) order reg reg' fuel v ref ref' (opts : options Gn) :
  renamed_registry N reg reg' -> N ref ref' ->
  renamed_outcome (renamed_de_error N) eq (dehydrate order reg fuel v ref opts) (dehydrate order reg' fuel v ref' opts).
Proof.
  intros RR H. unfold dehydrate. pose proof (RR _ _ H) as L. destruct (reg ref) as [l|], (reg' ref') as [l'|]; try contradiction; cbn [ok_or bind]; [|now constructor].
  assert (input_count l' = input_count l) as -> by (destruct L; reflexivity).
  set (c := match input_count l with Some n => n | None => _ end).
  destruct (C110_dehydrate_with N input_interpretation reg reg' fuel v None ref ref' (map RInput (seq 0 c)) (DState (InputInterp [] 0) []) RR H) as [E1 E2].
  destruct (dehydrate_with _ reg _ _ _ _ _ _) as [o st], (dehydrate_with _ reg' _ _ _ _ _ _) as [o' st']. cbn [fst snd] in *. subst st'.
  destruct o, o'; cbn in E2; try contradiction; [|exact E2|exact E2|exact E2].
  assert (CT : forall m, renamed_outcome (renamed_de_error N) eq (check_terms m) (check_terms m)).
  { induction m as [|[r ts] m IH]; cbn [check_terms]; [reflexivity|].
    destruct r; [| |destruct (find _ ts); [constructor|exact IH]]; (destruct ts as [|t [|u ts]]; [exact IH| |constructor]; eapply o_bind; [exact IH|]; intros ? ? _ _ <-; reflexivity). }
  eapply o_bind; [apply CT|]. intros mp ? _ _ <-. destruct (map_list _ _ _) as [ds ms]. destruct (map_list _ _ _) as [vs ms']. reflexivity.
Qed.
End Dehydration.
