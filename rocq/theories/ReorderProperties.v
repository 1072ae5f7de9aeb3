(** * C107: the order of the patterns of a layout plays no role *)

From Coq Require Import String List Bool Arith NArith Permutation Sorted Qcanon Lia.
Import ListNotations.
From Verif Require Import Base BaseProofs Orders PatternModel MatchingModel MatchingSpec MatchingProofs ValueModel ValueProofs LayoutModel LayoutSpec
  HydrateModel HydrateSpec HydrateProofs HydrateSound HydrateDet HydrateComplete HydratePost HydrateProperties
  TermModel DehydrateModel DehydrateSpec DehydrateProofs DehydrateFinish ReorderSpec ReorderProofs ReorderDehydrate.
Open Scope list_scope.
Open Scope nat_scope.

Section Hydrate.
Context {R : Type} {CR : Cmp R} {LR : CmpLaws R} {IR : Interp R} {X : Xsd}.

Lemma reordered_sorted (reg reg' : registry R) : reordered_registry reg reg' -> registry_sorted reg -> registry_sorted reg'.
Proof.
  intros H S ref l E. specialize (H ref). rewrite E in H. destruct (reg ref) as [l0|] eqn:E0; [|destruct H]. specialize (S ref l0 E0).
  destruct H as [| | | | |h h' fs fs' _ F| | | |]; try exact Logic.I. cbn [fields_sorted] in *.
  replace (map fst fs') with (map fst fs); [exact S|]. clear -F. induction F as [|a b fs fs' (E & _) F IH]; [reflexivity|]. cbn. congruence.
Qed.

Lemma below_same n (ps ps' : list (qpat R)) : same_patterns ps ps' -> below_vars n ps -> below_vars n ps'.
Proof. intros H B x (p & I0 & V). apply B. exists p. split; [now apply H|exact V]. Qed.

Lemma Forall2_In_r {A B} (P : A -> B -> Prop) l l' b : Forall2 P l l' -> In b l' -> exists a, In a l /\ P a b.
Proof.
  intros F. induction F as [|a b' l l' E F IH]; [intros []|]. intros [->|I0]; [exists a; split; [now left|exact E]|].
  destruct (IH I0) as (a' & A1 & A2). exists a'. split; [now right|exact A2].
Qed.

Lemma reordered_scoped (reg reg' : registry R) : reordered_registry reg reg' -> registry_scoped reg -> registry_scoped reg'.
Proof.
  intros H S ref l E. specialize (H ref). rewrite E in H. destruct (reg ref) as [l0|] eqn:E0; [|destruct H]. specialize (S ref l0 E0).
  destruct H as [| |h h' c (A & B & C)|k h h' r d (A & B & C)|h h' r p (A & B & C)|h h' fs fs' (A & B & C) F|h h' vs vs' (A & B & C) F
    |h h' i i' (A & B & C) (F1 & F2 & F3)|h h' i i' a b (A & B & C) (F1 & F2 & F3)|h h' its its' (A & B & C) F]; cbn [patterns_scoped] in *;
    try exact Logic.I; rewrite <- B; try (now apply (below_same _ _ _ C)); rewrite <- A; destruct S as [S1 S2]; (split; [now apply (below_same _ _ _ C)|]).
  - intros k f I0. destruct (Forall2_In_r _ _ _ _ F I0) as ([k0 f0] & J & (_ & (F1 & _ & F3) & _)). cbn [snd] in *. rewrite <- F1.
    apply (below_same _ _ _ F3). now apply (S2 k0).
  - intros v I0. destruct (Forall2_In_r _ _ _ _ F I0) as (v0 & J & (_ & (F1 & _ & F3))). apply (below_same _ _ _ F3). now apply S2.
  - rewrite <- F1. now apply (below_same _ _ _ F3).
  - rewrite <- F1. now apply (below_same _ _ _ F3).
  - intros v I0. destruct (Forall2_In_r _ _ _ _ F I0) as (v0 & J & (F1 & _ & F3)). rewrite <- F1. apply (below_same _ _ _ F3). now apply S2.
Qed.

(** C107 (meaning).  What the layouts mean does not depend on the order of their patterns. *)
Theorem C107_means G (reg reg' : registry R) strict g ref ins : reordered_registry reg reg' ->
  (forall v, Means G reg strict g ref ins v <-> Means G reg' strict g ref ins v) /\
  (Rejects G reg strict g ref ins <-> Rejects G reg' strict g ref ins).
Proof.
  intros H. destruct (semantics_same G reg reg' H strict) as [A B].
  destruct (semantics_same G reg' reg (registry_sym _ _ H) strict) as [A' B'].
  split; [intros v; split; [apply A|apply A']|split; [apply B|apply B']].
Qed.

(** C107 (hydration).  Two orders of the patterns never give two different values, nor a value and an error.  Missing: one of them may
    panic, see [C107_sum_refuted]. *)
Theorem C107_hydrates_partial (D : dataset R) G (reg reg' : registry R) fuel fuel' g ref ins v :
  enumerates D G -> registry_sorted reg -> reordered_registry reg reg' ->
  hydrate_with D reg fuel g ref ins = Ok v ->
  (forall v', hydrate_with D reg' fuel' g ref ins = Ok v' -> v' = v) /\
  (forall e, hydrate_with D reg' fuel' g ref ins <> Err e).
Proof.
  intros EN RS RR H. destruct (hydrate_sound D G reg EN RS fuel g ref ins) as [S _]. apply S in H.
  apply (C107_means G reg reg' false g ref ins RR) in H.
  destruct (hydrate_sound D G reg' EN (reordered_sorted _ _ RR RS) fuel' g ref ins) as [S1 S2].
  destruct (semantics_det G reg') as [DT _]. destruct (DT _ _ _ _ H) as [D1 D2]. split.
  - intros v' H'. symmetry. auto.
  - intros e H'. apply S2 in H'. auto.
Qed.

(** C107, in full for the layouts without sums: the same value is returned whatever the order. *)
Theorem C107_hydrates_no_sum (D : dataset R) G (reg reg' : registry R) fuel g ref ins v :
  enumerates D G -> registry_sorted reg -> registry_scoped reg -> no_sum reg -> reordered_registry reg reg' ->
  hydrate_with D reg fuel g ref ins = Ok v ->
  exists N, forall fuel', N <= fuel' -> hydrate_with D reg' fuel' g ref ins = Ok v.
Proof.
  intros EN RS SC NS RR H. destruct (hydrate_sound D G reg EN RS fuel g ref ins) as [S _]. apply S in H.
  apply means_no_sum in H; [|exact NS]. apply (C107_means G reg reg' true g ref ins RR) in H.
  destruct (C10_hydration_complete_partial D G reg' g ref ins EN (reordered_sorted _ _ RR RS) (reordered_scoped _ _ RR SC)) as [C _]. now apply C.
Qed.
End Hydrate.

(** C107 (dehydration).  When the layouts only use variables where they are declared (see [C61_undeclared_only]), dehydration ends in the
    same way, with the same identifications and the same quads, whatever the interpretation. *)
Theorem C107_dehydrates_with {Q S I} {CS : Cmp S} {LS : CmpLaws S} {X : Xsd} {IS : IriSyntax} (ops : interpretation Q S I) (reg reg' : registry Q)
    fuel v g ref ins st o st1 :
  reordered_registry reg reg' -> (forall r l x, reg r = Some l -> ~ undeclared_in l x) ->
  dehydrate_with ops reg fuel v g ref ins st = (o, st1) ->
  exists st2, dehydrate_with ops reg' fuel v g ref ins st = (o, st2) /\ ds_interp st2 = ds_interp st1 /\
    (forall q, In q (ds_output st2) <-> In q (ds_output st1)).
Proof.
  intros RR SC H.
  destruct (sim_dehydrate ops reg reg' RR SC fuel v g ref ins st st (conj eq_refl (fun q => iff_refl _))) as [[A B] C]. rewrite H in A, B, C.
  destruct (dehydrate_with ops reg' fuel v g ref ins st) as [o' st2]. cbn [fst snd] in *. exists st2.
  split; [|split; [now symmetry|intros q; symmetry; apply B]]. f_equal. destruct o as [[]|?|?|], o' as [[]|?|?|]; try contradiction; congruence.
Qed.


(** C107 (dehydration).  The whole result of [dehydrate], errors and panics included, is the same.  ([order] is the order in which the set of
    quads is traversed: it depends on the set, not on the way it was built.) *)
Theorem C107_dehydrates {Gn} {X : Xsd} {IS : IriSyntax} (order : list (quad res) -> list (quad res)) (reg reg' : registry term) fuel v ref (opts : options Gn) :
  (forall l l', Permutation l l' -> order l = order l') ->
  reordered_registry reg reg' -> (forall r l x, reg r = Some l -> ~ undeclared_in l x) ->
  dehydrate order reg' fuel v ref opts = dehydrate order reg fuel v ref opts.
Proof.
  intros OP RR SC. unfold dehydrate. pose proof (RR ref) as K.
  destruct (reg ref) as [l|] eqn:E, (reg' ref) as [l'|]; try contradiction; [|reflexivity]. cbn [ok_or bind].
  rewrite (count_same l l' K).
  destruct (dehydrate_with input_interpretation reg fuel v None ref _ (DState (InputInterp [] 0) [])) as [o st1] eqn:D.
  destruct (C107_dehydrates_with _ _ _ _ _ _ _ _ _ _ _ RR SC D) as (st2 & D' & E1 & E2). rewrite D'.
  destruct o as [u|e|w|]; try reflexivity. rewrite E1. destruct (check_terms (ii_map (ds_interp st1))) as [m|e|w|]; try reflexivity. cbn [bind].
  replace (order (ds_output st2)) with (order (ds_output st1)); [reflexivity|]. apply OP.
  destruct (dehydrate_wf _ _ _ _ _ _ _ _ _ initial_wf D) as (_ & _ & N1). destruct (dehydrate_wf _ _ _ _ _ _ _ _ _ initial_wf D') as (_ & _ & N2).
  apply NoDup_Permutation; auto. intros q. symmetry. apply E2.
Qed.
