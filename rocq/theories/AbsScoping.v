(** * Well scoped registries (C53) *)

From Coq Require Import String Ascii List Bool Arith NArith Lia.
Import ListNotations.
From Verif Require Import Base BaseProofs Orders PatternModel ValueModel LayoutModel LayoutSpec
  MatchingSpec HydrateModel HydrateSpec TermModel DehydrateModel DehydrateSpec DehydrateProperties
  AbsModel AbsSpec AbsProofs AbsProperties.
Open Scope list_scope.
Open Scope nat_scope.

Section Scoping.
Context {X : Xsd} {IS : IriSyntax} {AE : AbsExternal}.

(** The builders obtained by compiling documents, with success or not, one after the other. *)
Inductive built : @builder term -> Prop :=
| built_nil : built []
| built_document l b o b' : built b -> literal_inputs l -> build_document l b = (o, b') -> built b'.

Lemma built_scoped b : built b -> forall r p, In (r, p) b -> scoped_pre p.
Proof.
  induction 1 as [|l b o b' H IH LI E]; [intros r p []|]. intros r p I. unfold build_document in E.
  match type of E with context [let (_, _) := build_with_context _ _ ?s in _] =>
    pose proof (document_triple term_context l s) as [T _];
    destruct (build_with_context term_context l s) as [o1 s1] eqn:E1
  end.
  injection E as <- <-. cbn [fst snd] in T. apply T in I as [I|I]; [now apply (IH r)|now apply I].
Qed.

Lemma compile_prelayout {R} {CR : Cmp R} {E} fuel (p : prelayout R) l : compile (E := E) fuel p = Ok l -> prelayout_of p l.
Proof.
  destruct p as [l0|pat h res dt|h res pat|ls|ls]; cbn [compile prelayout_of]; try discriminate.
  - now intros [= <-].
  - intros H. apply bind_Ok in H as (d & _ & H). injection H as <-. now exists d.
  - intros H. apply bind_Ok in H as (d & _ & H). injection H as <-. now exists d.
Qed.

Lemma builder_build_In {E} fuel (b : @builder term) : forall m m', builder_build_into (E := E) fuel b m = Ok m' ->
  forall r l, In (r, l) m' -> In (r, l) m \/ exists r' p, In (r', p) b /\ prelayout_of p l.
Proof.
  induction b as [|[id p] b IH]; intros m m' H r l I; cbn [builder_build_into] in H.
  - injection H as <-. now left.
  - apply bind_Ok in H as (l0 & C & H). apply compile_prelayout in C.
    destruct (IH _ _ H r l I) as [K|(r' & p' & K & L)].
    + cbn [layouts_insert fst] in K. apply bt_insert_In in K as [->|K]; [|now left].
      right. exists id, p. split; [now left|exact C].
    + right. exists r', p'. split; [now right|exact L].
Qed.

(** Every variable of a layout of the compiled registry is declared where it is used. *)
Theorem C53_registry_partial {E} fuel b m r lay x :
  built b -> builder_build (E := E) fuel b = Ok m -> layouts_get m r = Some lay -> ~ undeclared_in lay x.
Proof.
  intros B H G. apply bt_get_In in G. destruct (builder_build_In fuel b [] m H r lay G) as [[]|(r' & p & I & L)].
  now apply (built_scoped b B r' p I).
Qed.

(** So the dehydration with such a registry never fails by an undeclared variable. *)
Theorem C53_dehydration_partial {E} fuel b m {S I : Type} {CS : Cmp S} {LS : CmpLaws S} (ops : interpretation term S I) n v g ref inputs st x st' :
  built b -> builder_build (E := E) fuel b = Ok m ->
  dehydrate_with ops (layouts_get m) n v g ref inputs st <> (Err (DUndeclaredVariable x), st').
Proof.
  intros B H D. apply C61_undeclared_only in D as (r & l & _ & G & U).
  now apply (C53_registry_partial fuel b m r l x B H G).
Qed.

(** The patterns matched by the hydration only have declared variables, unless a variant of a sum
    introduces variables. *)
Theorem C53_hydration_partial {E} fuel b m :
  built b -> builder_build (E := E) fuel b = Ok m ->
  (forall r h vs v, layouts_get m r = Some (SumL h vs) -> In v vs -> it_intro (va_item v) = 0) ->
  registry_scoped (layouts_get m).
Proof.
  intros B H SV r lay G. assert (U : forall x, ~ undeclared_in lay x) by (intros x; now apply (C53_registry_partial (E := E) fuel b m r)).
  assert (HS : forall n h, (forall x, ~ header_undeclared n h x) -> below_vars (n + h_intro h) (h_dataset (R := term) h)).
  { intros n h K x V. destruct (Nat.lt_ge_cases x (n + h_intro h)) as [L|L]; [exact L|]. now destruct (K x). }
  assert (IT : forall n it, (forall x, ~ item_undeclared n it x) -> below_vars (n + it_intro it) (it_dataset (R := term) it)).
  { intros n it K x V. destruct (Nat.lt_ge_cases x (n + it_intro it)) as [L|L]; [exact L|].
    destruct (K x). split; [now left|exact L]. }
  destruct lay as [| |h c|k h res dt|h res d|h fs|h vs|h it|h n hd tl|h its]; cbn [patterns_scoped undeclared_in] in *;
    try exact Logic.I.
  - now apply HS.
  - apply HS. intros x K. apply (U x). now left.
  - apply HS. intros x K. apply (U x). now left.
  - split; [apply HS; intros x K; apply (U x); now left|]. intros k f I. apply IT. intros x K. apply (U x). right.
    now exists k, f.
  - split; [apply HS; intros x K; apply (U x); now left|]. intros v I.
    replace (h_input h + h_intro h) with (h_input h + h_intro h + it_intro (va_item v)).
    + apply IT. intros x K. apply (U x). right. now exists v.
    + rewrite (SV r h vs v G I). lia.
  - split; [apply HS; intros x K; apply (U x); now left|]. apply IT. intros x K. apply (U x). now right.
  - split; [apply HS; intros x K; apply (U x); now left|]. apply IT. intros x K. apply (U x). right. now right.
  - split; [apply HS; intros x K; apply (U x); now left|]. intros it I. apply IT. intros x K. apply (U x). right.
    now exists it.
Qed.
End Scoping.
