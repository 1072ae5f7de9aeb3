(** * Cases of C96 and C97 *)

From Coq Require Import String List Bool Arith NArith ZArith QArith Qcanon Permutation Sorted Lia.
Import ListNotations.
From Verif Require Import Base BaseProofs Orders PatternModel MatchingModel MatchingSpec MatchingProofs ValueModel LayoutModel LayoutSpec HydrateModel HydrateSpec
  HydrateProperties TermModel HydrateExamples DehydrateModel DehydrateSpec DehydrateFinish DehydrateProperties DehydrateExamples RoundTripSpec RoundTripProperties
  RoundTripExamples RegistryProperties OtherDataProperties RenameProperties.
Open Scope list_scope.
Open Scope nat_scope.
Open Scope string_scope.

(** ** C96 *)

(** The predicates of the layouts of the team. *)
Definition team_predicates : list term := map iri ["name"; "todo"; "member"; "type"; "age"; "first"; "rest"; "left"; "right"].
Lemma team_patterns r l p : team_reg r = Some l -> pattern_of l p -> exists pr, q_p p = PRes pr /\ In pr team_predicates.
Proof.
  intros E H. apply team_In in E. unfold team in E. simpl in E.
  assert (F : Forall (fun p => exists pr, q_p p = PRes pr /\ In pr team_predicates) (match l with
    | ProductL h fs => h_dataset h ++ flat_map (fun kf => it_dataset (f_item (snd kf))) fs
    | UnorderedL h it | OrderedL h it _ _ => h_dataset h ++ it_dataset it
    | SizedL h its => h_dataset h ++ flat_map it_dataset its
    | IdL h _ _ | DataL _ h _ _ => h_dataset h
    | _ => [] end)%list).
  { repeat (destruct E as [E|E]; [injection E as _ <-; cbn; repeat (apply Forall_cons; [eexists; split; [reflexivity|vm_compute; tauto]|]); apply Forall_nil|]). destruct E. }
  rewrite Forall_forall in F. apply F.
  repeat (destruct E as [E|E]; [injection E as _ <-; inversion H; subst; rewrite ?in_app_iff, ?in_flat_map; eauto 6|]). destruct E.
Qed.

(** Other data around the team: a comment on a member, and members in another vocabulary. *)
Definition around : list (quad term) := [
  q3 (blank "0") "comment" (text "works on Mondays");
  q3 (iri "http://team") "hasMember" (iri "http://carol");
  q3 (iri "http://carol") "hasName" (text "Carol")].
Example around_elsewhere q : In q around -> ~ concerns team_reg (iri "team") q.
Proof.
  intros IN (r & l & p & _ & E & PO & v & _ & S2 & _). destruct (team_patterns r l p E PO) as (pr & E2 & IP). rewrite E2 in S2. inversion S2; subst.
  destruct IN as [<-|[<-|[<-|[]]]]; simpl in IP; intuition discriminate.
Qed.
Definition crowded : list (quad term) := (around ++ team_quads)%list.
Lemma crowded_enumerates : enumerates (list_dataset crowded) (fun q => In q team_quads \/ In q around).
Proof.
  eapply enumerates_ext; [|apply list_dataset_enumerates].
  - intro q. unfold crowded. rewrite in_app_iff. tauto.
  - unfold crowded, around, team_quads. repeat constructor; simpl; intuition discriminate.
Qed.
Example crowded_round_trip : exists tv N,
  (forall fuel, N <= fuel -> hydrate (list_dataset crowded) team_reg fuel (iri "team") [iri "http://team"] = Ok tv) /\
  Same team_reg (iri "team") team_value (into_untyped tv).
Proof.
  destruct (C30_round_trip_among_partial default_options team_reg same same_perm 10 team_value (iri "team") team_quads
    [iri "http://team"] (list_dataset crowded) (fun q => In q around) team_tree team_proper team_distinct team_not_terminators
    default_blank default_options_fresh integers_read_back dehydrate_team crowded_enumerates around_elsewhere) as (tv & N & H1 & H2 & _).
  exists tv, N. split; assumption.
Qed.

(** The result is the same with and without them, in all the uses of the layouts. *)
Example crowded_same fuel g ref inputs :
  hydrate_with (fun p => filter (fun q => existsb (eqb (q_p q)) team_predicates) (list_dataset crowded p)) team_reg fuel g ref inputs =
  hydrate_with (list_dataset crowded) team_reg fuel g ref inputs.
Proof.
  apply C96_predicates; [intros r l p _; apply team_patterns|]. intros p q H. now apply crowded_enumerates in H.
Qed.

(** A quad that concerns the layout counts. *)
Example concerning_counts : exists q, concerns team_reg (iri "team") q /\
  (exists v, hydrate (list_dataset team_quads) team_reg 6 (iri "team") [iri "http://team"] = Ok v) /\
  (exists e, hydrate (list_dataset (q :: team_quads)) team_reg 6 (iri "team") [iri "http://team"] = Err e).
Proof.
  exists (q3 (blank "0") "name" (text "Eve")). split; [|split].
  - exists (iri "team"). eexists. exists (Quad (PVar 0) (PRes (iri "name")) (PVar 1) None).
    split; [constructor|]. split; [vm_compute; reflexivity|]. split.
    + eapply (po_field _ _ (key "name")); [right; right; left; reflexivity|left; reflexivity].
    + exists (fun x => if Nat.eqb x 0 then blank "0" else text "Eve"). repeat split; try (constructor; reflexivity). discriminate.
  - eexists. vm_compute. reflexivity.
  - eexists. vm_compute. reflexivity.
Qed.

(** ** C97 *)

(** The labels "0" and "left" are exchanged. *)
Definition exchange (i : string) : string := if eqb i "0" then "left" else if eqb i "left" then "0" else i.
Lemma exchange_back i : exchange (exchange i) = i.
Proof.
  unfold exchange. destruct (eqb_spec i "0") as [->|N0]; [reflexivity|]. destruct (eqb_spec i "left") as [->|N1]; [reflexivity|].
  destruct (eqb_spec i "0"); [contradiction|]. destruct (eqb_spec i "left"); [contradiction|reflexivity].
Qed.
Lemma team_no_blank r l i : team_reg r = Some l -> ~ mentions l (TmBlank i).
Proof.
  intros E H. apply team_In in E. unfold team in E. simpl in E.
  repeat (destruct E as [E|E]; [injection E as _ <-|]); [..|contradiction];
    (inversion H as [? p ? PO QN|? vf p ? FO IN NA|? vf ? FO GR| | | |]; subst;
     [inversion PO; subst|inversion FO; subst|inversion FO; subst|..]; cbn in *;
     repeat match goal with
     | A : _ \/ _ |- _ => destruct A
     | A : False |- _ => destruct A
     | A : (_, _) = (_, _) |- _ => injection A as ? ?
     end; subst; cbn in *; unfold quad_names, names in *; cbn in *;
     repeat match goal with
     | A : _ \/ _ |- _ => destruct A
     | A : False |- _ => destruct A
     end; subst; cbn in *; try discriminate).
Qed.
Definition team_tree_value : typed_value term :=
  match hydrate (list_dataset team_quads) team_reg 10 (iri "team") [iri "http://team"] with Ok v => v | _ => TAlways vunit end.
Example team_renamed :
  hydrate (rename_dataset (relabel exchange) (relabel exchange) (list_dataset team_quads)) team_reg 10 (iri "team") [iri "http://team"] = Ok team_tree_value /\
  In (q3 (blank "left") "name" (text "Alice"))
    (rename_dataset (relabel exchange) (relabel exchange) (list_dataset team_quads) (Quad (PVar 0) (PRes (iri "name")) (PVar 1) None)).
Proof.
  split.
  - apply (C97_blank_nodes exchange exchange (list_dataset team_quads) team_reg 10 (iri "team") [iri "http://team"] team_tree_value exchange_back exchange_back team_no_blank).
    vm_compute. reflexivity.
  - vm_compute. tauto.
Qed.

(** A blank node that is written in a layout cannot be renamed in the data only. *)
Example mentioned_counts : exists (reg : registry term) (D : dataset term) v,
  hydrate D reg 3 (iri "flag") [iri "it"] = Ok v /\
  exists e, hydrate (rename_dataset (relabel exchange) (relabel exchange) D) reg 3 (iri "flag") [iri "it"] = Err e.
Proof.
  exists (layouts_get [(iri "flag", UnitL (Header 1 0 [Quad (PVar 0) (PRes (iri "is")) (PRes (blank "0")) None]) vunit)]),
    (list_dataset [q3 (iri "it") "is" (blank "0")]).
  eexists. split; [vm_compute; reflexivity|]. eexists. vm_compute. reflexivity.
Qed.

Print Assumptions C96_answers.
Print Assumptions C96_removed.
Print Assumptions C96_agree.
Print Assumptions C96_same_no_sum.
Print Assumptions C96_predicates.
Print Assumptions C30_round_trip_among_partial.
Print Assumptions C97_renamed.
Print Assumptions C97_agree.
Print Assumptions C97_same_no_sum.
Print Assumptions C97_blank_nodes.
