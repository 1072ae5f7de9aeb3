(** * A registry with a tree layout and others (C30, C88, C94) *)

From Coq Require Import String List Bool Arith NArith QArith Qcanon Permutation Sorted Lia.
Import ListNotations.
From Verif Require Import Base BaseProofs Orders PatternModel MatchingModel MatchingSpec ValueModel LayoutModel LayoutSpec HydrateModel
  TermModel HydrateExamples DehydrateModel DehydrateSpec DehydrateFinish DehydrateProperties DehydrateExamples RoundTripSpec RoundTripProperties RoundTripExamples
  RegistryProperties LocalProperties LocalRoundTrip.
Open Scope list_scope.
Open Scope nat_scope.
Open Scope string_scope.

(** The team of [DehydrateExamples.v], completed by layouts that are not tree layouts: bytes, and a sum
    that is its own variant. *)
Definition odd : layouts term := [
  (iri "bytes", DataL KByteString no_header (PVar 0) (iri xsd_string));
  (iri "loop", SumL no_header [Variant "loop" (self (VFormat (iri "loop") [PVar 0] None))])].
Definition mixed : registry term := union_get (reg_with team_reg (layouts_get odd)).

Example team_closed : closed team_reg.
Proof.
  intros r l r' E U. apply team_In in E. apply C51_dependencies_exact in U. unfold team in E. simpl in E.
  repeat (destruct E as [E|E]; [injection E as <- <-; vm_compute in U;
    repeat (destruct U as [<-|U]; [vm_compute; discriminate|]); contradiction|]). contradiction.
Qed.
Lemma team_reaches r : reaches team_reg (iri "team") r -> team_reg r <> None.
Proof.
  assert (G : forall a b, reaches team_reg a b -> team_reg a <> None -> team_reg b <> None).
  { intros a b H. induction H as [|a l a' b E U _ IH]; intro N; [exact N|]. apply IH. eapply team_closed; eauto. }
  intro H. eapply G; [exact H|]. vm_compute. discriminate.
Qed.
Example mixed_agrees : agree_from mixed team_reg (iri "team").
Proof. apply agree_sym, agree_union. exact team_reaches. Qed.
Example mixed_not_tree : ~ tree_registry mixed.
Proof. intro T. pose proof (T (iri "bytes") _ eq_refl) as H. inversion H. contradiction. Qed.

Example mixed_round_trip : exists tv N,
  (forall fuel, N <= fuel -> hydrate (list_dataset team_quads) mixed fuel (iri "team") [iri "http://team"] = Ok tv) /\
  Same team_reg (iri "team") team_value (into_untyped tv).
Proof.
  assert (DE : dehydrate same mixed 10 team_value (iri "team") default_options = Ok (team_quads, [iri "http://team"])).
  { rewrite (C94_dehydrate_public same default_options mixed team_reg 10 team_value (iri "team") mixed_agrees). exact dehydrate_team. }
  destruct (C30_round_trip_local_partial default_options mixed team_reg same same_perm 10 team_value (iri "team") team_quads
    [iri "http://team"] (list_dataset team_quads) mixed_agrees team_tree team_proper team_distinct team_not_terminators
    default_blank default_options_fresh integers_read_back DE team_enumerates) as (tv & N & HY & SA & _).
  exists tv, N. split; assumption.
Qed.

(** A layout that is reached counts. *)
Example reached_matters : exists (reg reg' : registry term) ref (D : dataset term),
  (forall r, r <> iri "name" -> reg r = reg' r) /\ reaches reg ref (iri "name") /\
  hydrate D reg 3 ref [iri "bob"] <> hydrate D reg' 3 ref [iri "bob"].
Proof.
  exists (layouts_get [(iri "friend", ProductL no_header [(key "name", Field (prop "name" (iri "name")) true)])]),
    (layouts_get [(iri "friend", ProductL no_header [(key "name", Field (prop "name" (iri "name")) true)]); (iri "name", Always)]),
    (iri "friend"), (list_dataset [Quad (iri "bob") (iri "name") (text "Bob") None]).
  split; [|split].
  - intros r N. unfold layouts_get. cbn [bt_get]. destruct (eqb r (iri "friend")); [reflexivity|].
    destruct (eqb_spec r (iri "name")) as [->|_]; [contradiction|reflexivity].
  - eapply reaches_step; [vm_compute; reflexivity| |constructor]. change (iri "name") with (vf_layout (it_value (f_item (Field (prop "name" (iri "name")) true)))).
    econstructor. left. reflexivity.
  - vm_compute. discriminate.
Qed.

Print Assumptions C94_hydrate.
Print Assumptions C94_dehydrate.
Print Assumptions C94_dehydrate_public.
Print Assumptions C94_insert.
Print Assumptions C94_union.
Print Assumptions C94_command.
Print Assumptions C30_round_trip_local_partial.
Print Assumptions C88_round_trip_local_partial.
