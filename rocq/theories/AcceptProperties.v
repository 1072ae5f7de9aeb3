(** * C119: which values dehydration takes

    The specification is AcceptSpec.v ([Takes], [Refuses]): judgements on values alone.  The fields of the records of a
    registry are sorted by key ([registry_sorted]), as in the [BTreeMap] of the code. *)

From Coq Require Import String List Bool Arith NArith Permutation.
Import ListNotations.
From Verif Require Import Base BaseProofs Orders PatternModel MatchingModel MatchingSpec ValueModel LayoutModel HydrateModel HydrateSpec
  TermModel LayoutSpec DehydrateModel DehydrateSpec DehydrateProofs DehydrateFinish DehydrateProperties AcceptSpec AcceptProofs.
Open Scope list_scope.
Open Scope nat_scope.

Section Accept.
Context {Q S I : Type} {CS : Cmp S} {CSL : CmpLaws S} {X : Xsd} {IS : IriSyntax}.
Variable ops : interpretation Q S I.
Variable reg : registry Q.
Hypothesis RS : registry_sorted reg.

(** What is written is a value that the layout takes... *)
Theorem C119_accepts fuel v g ref inputs st st' :
  dehydrate_with ops reg fuel v g ref inputs st = (Ok tt, st') -> Takes reg ref (length inputs) v.
Proof. intros H. pose proof (dehydrate_yields ops reg RS fuel v g ref inputs st) as Y. rewrite H in Y. exact Y. Qed.

(** ... and an error is for a value that it refuses, and says what is wrong with it. *)
Theorem C119_refuses fuel v g ref inputs st e st' :
  dehydrate_with ops reg fuel v g ref inputs st = (Err e, st') -> Refuses reg ref (length inputs) v e.
Proof. intros H. pose proof (dehydrate_yields ops reg RS fuel v g ref inputs st) as Y. rewrite H in Y. exact Y. Qed.
End Accept.

(** No value is both taken and refused. *)
Theorem C119_exclusive {Q} {IS : IriSyntax} (reg : registry Q) ref n v e :
  Takes reg ref n v -> Refuses reg ref n v e -> False.
Proof. intros T R. exact (proj1 (exclusive reg) _ _ _ T _ R). Qed.

Section Decide.
Context {Q S I : Type} {CS : Cmp S} {CSL : CmpLaws S} {X : Xsd} {IS : IriSyntax}.
Variable ops : interpretation Q S I.
Variable reg : registry Q.
Hypothesis RS : registry_sorted reg.

(** A call that ends with a value or an error ends with a value exactly if the layout takes the value. *)
Theorem C119_decides fuel v g ref inputs st o st' :
  dehydrate_with ops reg fuel v g ref inputs st = (o, st') -> (o = Ok tt \/ exists e, o = Err e) ->
  (o = Ok tt <-> Takes reg ref (length inputs) v).
Proof.
  intros H [->|[e ->]].
  - split; [|reflexivity]. intros _. eapply C119_accepts; eauto.
  - split; [discriminate|]. intros T. exfalso. eapply C119_exclusive; [exact T|]. eapply C119_refuses; eauto.
Qed.
End Decide.

(** So acceptance depends neither on the resources given as inputs (only on their number), nor on the graph, the state,
    the fuel, nor the interpretation of resources. *)
Theorem C119_same {Q S I S' I'} {CS : Cmp S} {CS' : Cmp S'} {L : CmpLaws S} {L' : CmpLaws S'} {X X' : Xsd} {IS : IriSyntax}
  (ops : interpretation Q S I) (ops' : interpretation Q S' I') (reg : registry Q) fuel fuel' v g g' ref inputs inputs' st st' e s s' :
  registry_sorted reg -> length inputs = length inputs' ->
  dehydrate_with (X := X) ops reg fuel v g ref inputs st = (Ok tt, s) ->
  dehydrate_with (X := X') ops' reg fuel' v g' ref inputs' st' <> (Err e, s').
Proof.
  intros RS N H H'. apply C119_accepts in H; [|exact RS]. apply C119_refuses in H'; [|exact RS]. rewrite <- N in H'.
  eapply C119_exclusive; eauto.
Qed.

(** The function of the API: it may also fail because two terms were given to one resource, for a value that the layout
    takes. *)
Section Public.
Context {X : Xsd} {IS : IriSyntax} {Gn : Type}.
Variable opts : options Gn.
Variable reg : registry term.
Hypothesis RS : registry_sorted reg.
Variable order : list (quad res) -> list (quad res).
Hypothesis order_perm : forall l, Permutation (order l) l.

Theorem C119_public fuel v ref :
  (forall ds vals, dehydrate order reg fuel v ref opts = Ok (ds, vals) ->
     exists l, reg ref = Some l /\ Takes reg ref (input_number opts l) v) /\
  (forall e, dehydrate order reg fuel v ref opts = Err e ->
     reg ref = None /\ e = DLayoutNotFound ref \/
     exists l, reg ref = Some l /\
       (Refuses reg ref (input_number opts l) v e \/
        Takes reg ref (input_number opts l) v /\ exists a b, e = DTermAmbiguity a b)).
Proof.
  split.
  - intros ds vals H. apply dehydrate_inv in H as (l & st & theta & E & R & _); [|exact order_perm].
    exists l. split; [exact E|]. apply C119_accepts in R; [|exact RS]. rewrite map_length, seq_length in R.
    rewrite input_number_count. exact R.
  - intros e H. apply dehydrate_Err in H as [[E ->]|[(l & st & E & H)|(l & st & a & b & E & H & -> & _)]].
    + left. auto.
    + right. exists l. split; [exact E|]. left. apply C119_refuses in H; [|exact RS].
      rewrite map_length, seq_length in H. rewrite input_number_count. exact H.
    + right. exists l. split; [exact E|]. right. split; [|eauto]. apply C119_accepts in H; [|exact RS].
      rewrite map_length, seq_length in H. rewrite input_number_count. exact H.
Qed.
End Public.
