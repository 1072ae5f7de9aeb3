(** * C120: when the variants of a sum exclude each other

    A condition on the layouts alone for the condition [decided_sums] of C120. *)

From Coq Require Import String List Bool Arith NArith Lia.
Import ListNotations.
From Verif Require Import Base BaseProofs Orders PatternModel MatchingModel MatchingSpec ValueModel LayoutModel LayoutSpec HydrateModel HydrateSpec
  HydrateProperties TermModel DehydrateModel DehydrateSpec AcceptSpec TakenSpec.
Open Scope list_scope.
Open Scope nat_scope.
Open Scope string_scope.

Section Sums.
Context {R : Type} {IS : IriSyntax}.

(** Two layouts are told apart by the kind of their values (a text and a number, a record and a list, two lists of different lengths, two
    constants...), or they are records, one of which requires a key that the other does not have. *)
Inductive apart : layout R -> layout R -> Prop :=
| apart_kind la lb : (forall v, right_kind la v -> right_kind lb v -> False) -> apart la lb
| apart_left ha fa hb fb k f : In (k, f) fa -> f_required f = true -> ~ In k (map fst fb) -> apart (ProductL ha fa) (ProductL hb fb)
| apart_right ha fa hb fb k f : In (k, f) fb -> f_required f = true -> ~ In k (map fst fa) -> apart (ProductL ha fa) (ProductL hb fb).

(** The layouts of two variants of a sum are always told apart. *)
Definition told_apart (reg : registry R) : Prop :=
  forall ref h vs i j va vb, reg ref = Some (SumL h vs) -> nth_error vs i = Some va -> nth_error vs j = Some vb -> j <> i ->
    exists la lb, reg (vf_layout (it_value (va_item va))) = Some la /\ reg (vf_layout (it_value (va_item vb))) = Some lb /\ simple la /\ apart la lb.

Theorem C120_apart reg : told_apart reg -> decided_sums reg.
Proof.
  intros TA ref h vs i va v H Na T j vb Nb NE. destruct (TA ref h vs i j va vb H Na Nb NE) as (la & lb & Ea & Eb & SI & AP).
  inversion T as [? ? ? _ TV]; subst. inversion TV as [? ? ? E'|? ? ? l' E' _ _ _ RK RQ _ _|? ? ? h' vs' i' va' E']; subst;
    rewrite Ea in E'; injection E' as E''; [subst la; contradiction| |subst la; contradiction]. subst l'.
  destruct AP as [la lb K|ha fa hb fb k f I Q N|ha fa hb fb k f I Q N].
  - eapply VR_value, R_kind; [exact Eb|]. intros K'. exact (K v RK K').
  - destruct RK as (m & -> & KS). pose proof (RQ ha fa m k f eq_refl eq_refl I Q) as IN.
    eapply VR_value, R_kind; [exact Eb|]. intros (m' & [= <-] & KS'). exact (N (KS' k IN)).
  - destruct RK as (m & -> & KS). eapply VR_value, R_required; [exact Eb|exact I|exact Q|]. intros IN. exact (N (KS k IN)).
Qed.
End Sums.
