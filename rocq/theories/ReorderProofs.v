(** * The meaning of a layout does not depend on the order of its patterns (C107) *)

From Coq Require Import String List Bool Arith NArith Permutation Sorted Qcanon Lia.
Import ListNotations.
From Verif Require Import Base BaseProofs Orders PatternModel MatchingModel MatchingSpec
  ValueModel LayoutModel LayoutSpec HydrateModel HydrateSpec HydrateSound ReorderSpec.
Open Scope list_scope.
Open Scope nat_scope.

Section Symmetry.
Context {R : Type}.

Lemma patterns_sym (ps ps' : list (qpat R)) : same_patterns ps ps' -> same_patterns ps' ps.
Proof. intros H p. symmetry. apply H. Qed.
Lemma header_sym (h h' : header R) : reordered_header h h' -> reordered_header h' h.
Proof. intros (A & B & C). split; [now symmetry|]. split; [now symmetry|now apply patterns_sym]. Qed.
Lemma item_sym (i i' : item_layout R) : reordered_item i i' -> reordered_item i' i.
Proof. intros (A & B & C). split; [now symmetry|]. split; [now symmetry|now apply patterns_sym]. Qed.
Lemma Forall2_sym {A B} (P : A -> B -> Prop) (Q : B -> A -> Prop) l l' :
  (forall a b, P a b -> Q b a) -> Forall2 P l l' -> Forall2 Q l' l.
Proof. intros H F. induction F; constructor; auto. Qed.

Lemma reordered_sym (l l' : layout R) : reordered l l' -> reordered l' l.
Proof.
  intros H. destruct H; constructor; try (now apply header_sym); try (now apply item_sym).
  - apply (Forall2_sym reordered_field); [|assumption]. intros a b (E1 & E2 & E3).
    split; [now symmetry|]. split; [now apply item_sym|now symmetry].
  - apply (Forall2_sym reordered_variant); [|assumption]. intros a b (E1 & E2). split; [now symmetry|now apply item_sym].
  - apply (Forall2_sym reordered_item); [|assumption]. intros a b. apply item_sym.
Qed.

Lemma registry_sym (reg reg' : registry R) : reordered_registry reg reg' -> reordered_registry reg' reg.
Proof. intros H r. specialize (H r). destruct (reg r), (reg' r); auto. now apply reordered_sym. Qed.
End Symmetry.

Section Means.
Context {R : Type} {CR : Cmp R} {IR : Interp R} {X : Xsd}.
Variable G : quad R -> Prop.

Lemma map_at (g : option R) ps ps' : same_patterns ps ps' -> same_patterns (map (at_graph g) ps) (map (at_graph g) ps').
Proof. intros H p. rewrite !in_map_iff. split; intros (q & E & I0); exists q; split; auto; now apply H. Qed.

Lemma solution_same s ps ps' s' : same_patterns ps ps' -> solution G s ps s' -> solution G s ps' s'.
Proof.
  intros H [A B C D]. split; [exact A|exact B| |].
  - intros p I0. apply C. now apply H.
  - intros x N. apply D. intros (p & I0 & V). apply N. exists p. split; [now apply H|exact V].
Qed.
Lemma solution_iff s g ps ps' s' : same_patterns ps ps' ->
  (solution G s (map (at_graph g) ps) s' <-> solution G s (map (at_graph g) ps') s').
Proof. intros H. apply map_at with (g := g) in H. split; apply solution_same; [exact H|now apply patterns_sym]. Qed.

Lemma the_same g s ps ps' s' : same_patterns ps ps' -> the_solution G g s ps s' -> the_solution G g s ps' s'.
Proof.
  intros H [A B]. split; [now apply (solution_iff s g ps ps')|]. intros s'' C. apply B. now apply (solution_iff s g ps ps').
Qed.
Lemma no_same g s ps ps' : same_patterns ps ps' -> no_solution G g s ps -> no_solution G g s ps'.
Proof. intros H A s' C. apply (A s'). now apply (solution_iff s g ps ps'). Qed.
Lemma several_same g s ps ps' : same_patterns ps ps' -> several_solutions G g s ps -> several_solutions G g s ps'.
Proof.
  intros H (s1 & s2 & N & A & B). exists s1, s2. split; [exact N|]. split; now apply (solution_iff s g ps ps').
Qed.

Lemma header_sol_same g h h' ins s : reordered_header h h' -> header_sol G g h ins s -> header_sol G g h' ins s.
Proof. intros (A & B & C). unfold header_sol. rewrite <- B. now apply the_same. Qed.
Lemma header_bad_same g h h' ins : reordered_header h h' -> header_bad G g h ins -> header_bad G g h' ins.
Proof.
  intros (A & B & C) [H|H]; unfold header_bad; rewrite <- B; [left|right]; [now apply (no_same g _ (h_dataset h))|now apply (several_same g _ (h_dataset h))].
Qed.
Lemma item_sol_same g s i i' s' : reordered_item i i' -> item_sol G g s i s' -> item_sol G g s i' s'.
Proof. intros (A & B & C). unfold item_sol. rewrite <- A. now apply the_same. Qed.
Lemma item_none_same g s i i' : reordered_item i i' -> item_none G g s i -> item_none G g s i'.
Proof. intros (A & B & C). unfold item_none. rewrite <- A. now apply no_same. Qed.
Lemma item_several_same g s i i' : reordered_item i i' -> item_several G g s i -> item_several G g s i'.
Proof. intros (A & B & C). unfold item_several. rewrite <- A. now apply several_same. Qed.

Variables reg reg' : registry R.
Hypothesis RR : reordered_registry reg reg'.

Lemma arity_same (l l' : layout R) : reordered l l' -> arity l' = arity l.
Proof. intros H. destruct H as [| | | | |h h' fs fs' (A & _)|h h' vs vs' (A & _)|h h' i i' (A & _)|h h' i i' a b (A & _)|h h' l l' (A & _)]; cbn; congruence. Qed.
Lemma layout_same ref ins l : layout_for reg ref ins l -> exists l', layout_for reg' ref ins l' /\ reordered l l'.
Proof.
  intros [A B]. specialize (RR ref). rewrite A in RR. destruct (reg' ref) as [l'|] eqn:E; [|destruct RR].
  exists l'. split; [|exact RR]. split; [exact E|]. intros n. rewrite (arity_same l l' RR). apply B.
Qed.

Variable strict : bool.

Lemma semantics_same :
  (forall g ref ins v, Means G reg strict g ref ins v -> Means G reg' strict g ref ins v) /\
  (forall g ref ins, Rejects G reg strict g ref ins -> Rejects G reg' strict g ref ins).
Proof.
  destruct (semantics_ind R CR IR X G reg strict
    (fun g ref ins v => Means G reg' strict g ref ins v)
    (fun g ref ins => Rejects G reg' strict g ref ins)
    (fun g s vf v => VMeans G reg' strict g s vf v)
    (fun g s vf => VRejects G reg' strict g s vf)
    (fun g s vf => VDecided G reg' strict g s vf)
    (fun g s fs m => forall fs', Forall2 reordered_field fs fs' -> Fields G reg' strict g s fs' m)
    (fun g s fs => forall fs', Forall2 reordered_field fs fs' -> FieldsRej G reg' strict g s fs')
    (fun g s its vs => forall its', Forall2 reordered_item its its' -> Tuple G reg' strict g s its' vs)
    (fun g s its => forall its', Forall2 reordered_item its its' -> TupleRej G reg' strict g s its')
    (fun g vf sols vs => Items G reg' strict g vf sols vs)
    (fun g s node hd tl vs => forall node', reordered_item node node' -> Nodes G reg' strict g s node' hd tl vs)
    (fun g s node hd tl => forall node', reordered_item node node' -> NodesRej G reg' strict g s node' hd tl)
    (fun g s va => forall va', reordered_variant va va' -> Excluded G reg' strict g s va')
    (fun g s vs => forall vs', Forall2 reordered_variant vs vs' -> NoVariant G reg' strict g s vs')
    (fun g s i vs j v => forall vs', Forall2 reordered_variant vs vs' -> One G reg' strict g s i vs' j v)
    (fun g s sel vs => forall vs', Forall2 reordered_variant vs vs' -> VariantsRej G reg' strict g s sel vs'))
    as (I1 & I2 & _); [..|split; [exact I1|exact I2]]; intros;
  repeat match goal with
  | H : layout_for reg _ _ _ |- _ =>
      let l' := fresh "l'" in let L := fresh "L" in let Q := fresh "Q" in
      apply layout_same in H as (l' & L & Q); inversion Q; subst; clear Q
  | H : Forall2 _ [] _ |- _ => inversion H; subst; clear H
  | H : Forall2 _ (_ :: _) _ |- _ => inversion H; subst; clear H
  | H : reordered_field (_, _) ?y |- _ =>
      destruct y as [? ?]; destruct H as (? & ? & ?); cbn [fst snd] in *; subst
  | H : reordered_variant ?x ?y |- _ =>
      lazymatch goal with _ : reordered_item (va_item x) (va_item y) |- _ => fail | _ => pose proof (proj2 H) end
  end;
  repeat match goal with
  | Q : reordered_header ?h ?h', H : header_sol G _ ?h _ _ |- _ => apply (header_sol_same _ _ _ _ _ Q) in H
  | Q : reordered_header ?h ?h', H : header_bad G _ ?h _ |- _ => apply (header_bad_same _ _ _ _ Q) in H
  | Q : reordered_item ?i ?i', H : item_sol G _ _ ?i _ |- _ => apply (item_sol_same _ _ _ _ _ Q) in H
  | Q : reordered_item ?i ?i', H : item_none G _ _ ?i |- _ => apply (item_none_same _ _ _ _ Q) in H
  | Q : reordered_item ?i ?i', H : item_several G _ _ ?i |- _ => apply (item_several_same _ _ _ _ Q) in H
  | Q : reordered_item ?i ?i', H : the_solution G _ (fresh _ (1 + it_intro ?i)) (it_dataset ?i) _ |- _ =>
      apply (the_same _ _ _ _ _ (proj2 (proj2 Q))) in H; rewrite (proj1 Q) in H
  | Q : reordered_item ?i ?i', H : several_solutions G _ (fresh _ (1 + it_intro ?i)) (it_dataset ?i) |- _ =>
      apply (several_same _ _ _ _ (proj2 (proj2 Q))) in H; rewrite (proj1 Q) in H
  | Q : reordered_item ?i ?i', H : no_solution G _ (fresh _ (1 + it_intro ?i)) (it_dataset ?i) |- _ =>
      apply (no_same _ _ _ _ (proj2 (proj2 Q))) in H; rewrite (proj1 Q) in H
  | Q : reordered_item ?i ?i', H : VMeans G reg' _ _ _ (it_value ?i) _ |- _ => rewrite (proj1 (proj2 Q)) in H
  | Q : reordered_item ?i ?i', H : VRejects G reg' _ _ _ (it_value ?i) |- _ => rewrite (proj1 (proj2 Q)) in H
  | Q : reordered_item ?i ?i', H : Items G reg' _ _ (it_value ?i) _ _ |- _ => rewrite (proj1 (proj2 Q)) in H
  end;
  try (econstructor; eauto; try congruence; fail);
  try (cbn [LayoutModel.h_input] in *; subst; match goal with
    | Q : reordered_header ?h ?h', B : header_bad G _ ?h _, L : layout_for reg' _ _ ?l |- _ =>
        apply (R_header G reg' strict g ref inputs l h' L); [reflexivity|exact (header_bad_same _ _ _ _ Q B)] end).
  - apply (M_unordered G reg' strict g ref inputs h' i' s sols vals l); auto. intros s1. rewrite H2.
    destruct H10 as (E & _ & P). rewrite <- E. now apply solution_iff.
  - apply R_undefined. specialize (RR ref). rewrite H in RR. now destruct (reg' ref).
  - pose proof (RR ref) as Q. rewrite H in Q. destruct (reg' ref) as [l'|] eqn:E; [|destruct Q].
    apply (R_arity G reg' strict g ref inputs l' n); auto. rewrite (arity_same l l' Q). assumption.
  - match goal with Q : reordered_item it i' |- _ => rename Q into IT end.
  match goal with S : solution G _ _ _, V : VRejects G reg' _ _ _ (it_value i') |- _ => rename S into SO, V into VR end.
  pose proof IT as (E & EV & P).
  apply (R_unordered G reg' strict g ref inputs h' i' s s'); auto.
  + rewrite <- E. now apply (solution_iff _ g (it_dataset it)).
  + intros ST s'' S2. rewrite <- E in S2. apply (solution_iff _ g (it_dataset it)) in S2; [|exact P]. rewrite <- EV. eauto.
Qed.
End Means.
