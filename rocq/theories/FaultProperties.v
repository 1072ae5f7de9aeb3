(** * C118: the errors of hydration tell the truth *)

From Coq Require Import String List Bool Arith NArith.
Import ListNotations.
From Verif Require Import Base BaseProofs Orders PatternModel MatchingModel MatchingSpec
  ValueModel LayoutModel HydrateModel HydrateSpec HydrateSound FaultSpec FaultProofs.
Open Scope list_scope.
Open Scope nat_scope.

Section C118.
Context {R : Type} {CR : Cmp R} {LR : CmpLaws R} {IR : Interp R} {X : Xsd}.
Variable D : dataset R.
Variable G : quad R -> Prop.
Hypothesis EN : enumerates D G.
Variable reg : registry R.

(** C118.  Whatever the error, what it says is the case at a place that was asked for. *)
Theorem C118_tells fuel g ref inputs e : hydrate_with D reg fuel g ref inputs = Err e ->
  exists g' ref' inputs', Asked G reg g ref inputs g' ref' inputs' /\ Wrong G reg g' ref' inputs' e.
Proof. apply hydrate_fault, EN. Qed.

(** C118.  A value is only returned if nothing is wrong at any of the places asked for. *)
Theorem C118_value fuel g ref inputs v : registry_sorted reg -> hydrate_with D reg fuel g ref inputs = Ok v ->
  forall g' ref' inputs' e, Asked G reg g ref inputs g' ref' inputs' -> ~ Wrong G reg g' ref' inputs' e.
Proof.
  intros RS H g' ref' inputs' e A W. apply (hydrate_sound D G reg EN RS) in H.
  destruct (asked_means _ _ _ _ _ _ _ _ _ _ H A) as (v' & M). eapply means_not_wrong; eauto.
Qed.

(** C118.  So if something is wrong at a place asked for, and hydration answers, it answers by an error that
    is true (maybe of another place, if several things are wrong). *)
Theorem C118_reported fuel g ref inputs g' ref' inputs' e : registry_sorted reg ->
  Asked G reg g ref inputs g' ref' inputs' -> Wrong G reg g' ref' inputs' e ->
  match hydrate_with D reg fuel g ref inputs with
  | Ok _ => False
  | Err e1 => exists g1 ref1 inputs1, Asked G reg g ref inputs g1 ref1 inputs1 /\ Wrong G reg g1 ref1 inputs1 e1
  | Panic _ | OutOfFuel => True
  end.
Proof.
  intros RS A W. destruct (hydrate_with D reg fuel g ref inputs) as [v|e1| |] eqn:H; auto.
  - exact (C118_value _ _ _ _ _ RS H _ _ _ _ A W).
  - exact (C118_tells _ _ _ _ _ H).
Qed.

(** C118.  The error of a sum is about the sum, never about the inside of one of its variants. *)
Theorem C118_sum fuel g ref inputs h vs e : reg ref = Some (SumL h vs) ->
  hydrate_with D reg fuel g ref inputs = Err e -> Wrong G reg g ref inputs e.
Proof.
  intros E H. apply C118_tells in H as (g' & ref' & inputs' & A & W). destruct A as [|g1 ref1 inputs1 g2 ref2 inputs2 C A]; [exact W|].
  exfalso. destruct C as [? ? ? ? ? ? O|? ? ? ? O|? ? ? ? ? ? ? ? ? O|? ? ? ? ? O]; destruct O as [[O _] _]; congruence.
Qed.
End C118.
