(** * Cases of C98 *)

From Coq Require Import String List Bool Arith NArith ZArith QArith Qcanon Permutation Sorted Lia.
Import ListNotations.
From Verif Require Import Base BaseProofs Orders PatternModel MatchingModel MatchingSpec MatchingProofs ValueModel LayoutModel LayoutSpec HydrateModel HydrateSpec
  HydrateProperties TermModel HydrateExamples DehydrateModel DehydrateSpec DehydrateFinish DehydrateProperties DehydrateExamples RoundTripSpec RoundTripProperties
  RoundTripExamples RegistryProperties OtherDataProperties RenameProperties OtherDataExamples DehydrateUnique DehydrateUniqueProperties.
Open Scope list_scope.
Open Scope nat_scope.
Open Scope string_scope.

(** Another generator, which skips every other label, and another name for the inputs. *)
Definition other_options : options nat := {|
  o_input_count := None;
  o_input_term := fun i => TmBlank ("root" ++ nat_string i);
  o_generator := 3;
  o_next := fun n => (TmBlank ("b" ++ nat_string n), 2 + n)
|}.
Lemma other_generated n : generated other_options n = TmBlank ("b" ++ nat_string (3 + 2 * n)).
Proof.
  unfold generated. assert (E : gen_state other_options n = 3 + 2 * n) by (induction n as [|n IH]; [reflexivity|]; cbn [gen_state]; rewrite IH; cbn [other_options o_next snd]; lia).
  rewrite E. reflexivity.
Qed.
Lemma other_blank : blank_identifiers other_options.
Proof. split; [intro i; eexists; reflexivity|]. intro n. rewrite other_generated. eexists. reflexivity. Qed.
Lemma other_fresh : fresh_identifiers other_options.
Proof.
  split; [|split].
  - intros i j [= H]. now apply nat_string_inj.
  - intros n m. rewrite !other_generated. intro E.
    apply (f_equal (fun t => match t with TmBlank (String _ s) => s | _ => "" end)) in E. apply (nat_string_inj (3 + 2 * n) (3 + 2 * m)) in E. lia.
  - intros i n. rewrite other_generated. cbn [other_options o_input_term append]. discriminate.
Qed.
Definition backwards (l : list (quad res)) : list (quad res) := rev l.
Lemma backwards_perm l : Permutation (backwards l) l.
Proof. apply Permutation_sym, Permutation_rev. Qed.

(** The team with the other options, its quads being visited in the other direction. *)
Definition other_team : list (quad term) * list term :=
  match dehydrate backwards team_reg 10 team_value (iri "team") other_options with Ok r => r | _ => ([], []) end.
Lemma dehydrate_other : dehydrate backwards team_reg 10 team_value (iri "team") other_options = Ok other_team.
Proof. vm_compute. reflexivity. Qed.

Example team_other_names : exists b b', (forall i, b' (b i) = i) /\ (forall i, b (b' i) = i) /\ replaced (relabel b) (team_quads, [iri "http://team"]) other_team.
Proof.
  destruct (C98_relabelled team_reg team_no_blank same backwards same_perm backwards_perm default_options other_options eq_refl 10 team_value (iri "team")
    default_blank default_options_fresh other_blank other_fresh _ dehydrate_team) as (b & b' & r2 & P1 & P2 & E & R).
  rewrite dehydrate_other in E. apply (f_equal (fun o => match o with Ok r => r | _ => r2 end)) in E. cbv beta iota in E. subst r2.
  exists b, b'. split; [exact P1|]. split; [exact P2|exact R].
Qed.
(** The names are not the same: the same node is _:0 with one, _:b13 with the other. *)
Example team_really_other : In (q3 (blank "0") "name" (text "Alice")) team_quads /\
  exists i, i <> "0" /\ In (q3 (blank i) "name" (text "Alice")) (fst other_team) /\ ~ In (q3 (blank "0") "name" (text "Alice")) (fst other_team).
Proof. split; [vm_compute; tauto|]. vm_compute. eexists. split; [|split; [|intuition discriminate]]; [|eauto 20]. discriminate. Qed.

Lemma team_sorted : registry_sorted team_reg.
Proof.
  intros r l H. apply team_In in H. unfold team in H. simpl in H.
  repeat (destruct H as [H|H]; [injection H as _ <-; cbn; try exact Logic.I; repeat constructor|]). destruct H.
Qed.
Example team_other_value tv : hydrate (list_dataset (fst other_team)) team_reg 10 (iri "team") (snd other_team) = Ok tv -> tv = team_tree_value.
Proof.
  intro H. destruct (C98_hydrated team_reg team_no_blank same backwards same_perm backwards_perm default_options other_options eq_refl 10 team_value (iri "team")
    default_blank default_options_fresh other_blank other_fresh _ _ (list_dataset team_quads) (list_dataset (fst other_team)) 10 10 (iri "team") team_tree_value
    team_sorted dehydrate_team dehydrate_other team_enumerates) as [A _].
  - apply list_dataset_enumerates. vm_compute. repeat constructor; simpl; intuition discriminate.
  - vm_compute. reflexivity.
  - now apply A.
Qed.

(** A blank node that is written in a layout may get confused with those of a generator, not of another: the results are then not the same. *)
Definition marked : registry term := fun r =>
  if eqb r (iri "marked") then Some (UnitL (Header 1 1 [Quad (PVar 0) (PRes (iri "mark")) (PVar 1) None; Quad (PVar 0) (PRes (iri "mark")) (PRes (blank "0")) None]) vunit)
  else None.
Theorem C98_mentioned_refuted : exists r1 r2,
  dehydrate same marked 3 vunit (iri "marked") default_options = Ok r1 /\
  dehydrate same marked 3 vunit (iri "marked") other_options = Ok r2 /\
  length (fst r1) = 1 /\ length (fst r2) = 2 /\ ~ exists f, replaced f r1 r2.
Proof.
  do 2 eexists. split; [vm_compute; reflexivity|]. split; [vm_compute; reflexivity|]. split; [reflexivity|]. split; [reflexivity|].
  intros (f & H & _). cbn [fst] in H.
  match type of H with forall q, In q [?a; ?b] <-> _ => destruct (proj1 (H a) (or_introl eq_refl)) as (q & [<-|[]] & E1); destruct (proj1 (H b) (or_intror (or_introl eq_refl))) as (q' & [<-|[]] & E2) end.
  rewrite <- E2 in E1. discriminate.
Qed.

Print Assumptions C98_failures.
Print Assumptions C98_replaced.
Print Assumptions C98_isomorphic.
Print Assumptions C98_relabelled.
Print Assumptions C98_hydrated.
Print Assumptions C98_mentioned_refuted.
