(** * C123: the conditions for trees, on the examples *)

From Coq Require Import String List Bool Arith NArith ZArith Lia Permutation Qcanon.
Import ListNotations.
From Verif Require Import Base BaseProofs Orders PatternModel MatchingModel MatchingSpec MatchingProofs ValueModel LayoutModel LayoutSpec HydrateModel HydrateSpec
  HydrateProperties TermModel HydrateExamples DehydrateModel DehydrateSpec DehydrateFinish DehydrateProperties DehydrateExamples RoundTripSpec RoundTripProperties
  RoundTripExamples OtherDataExamples DehydrateUniqueExamples
  WriteBackSpec WriteBackExamples NormalLiterals WrittenBack WrittenBackExamples ReadAgain ReadAgainExamples ReadAgainTrees.
From Verif Require TakenSpec TakenProperties TakenSums.
Open Scope list_scope.
Open Scope nat_scope.
Open Scope string_scope.

Example team_again_tree order : (forall l, Permutation (order l) l) -> exists tv,
  hydrate (list_dataset team_data) team_reg 10 (iri "team") [iri "http://team"] = Ok tv /\ into_untyped tv = team_value /\
  exists enough, forall fuel, enough <= fuel -> exists ds vals, dehydrate order team_reg fuel team_value (iri "team") default_options = Ok (ds, vals) /\
    forall D', enumerates D' (fun q => In q ds) -> exists tv' N, (forall fuel', N <= fuel' -> hydrate D' team_reg fuel' (iri "team") vals = Ok tv') /\
      Same team_reg (iri "team") team_value (into_untyped tv').
Proof.
  intro OP. destruct (hydrate (list_dataset team_data) team_reg 10 (iri "team") [iri "http://team"]) as [tv|e|w|] eqn:EH;
    [|vm_compute in EH; discriminate..].
  exists tv. split; [reflexivity|].
  assert (E : into_untyped tv = team_value) by (vm_compute in EH; injection EH as <-; vm_compute; reflexivity). split; [exact E|].
  assert (V : good_ids tv = true) by (vm_compute in EH; injection EH as <-; vm_compute; reflexivity).
  assert (N : good_numbers (into_untyped tv) = true) by (rewrite E; vm_compute; reflexivity).
  assert (ND : is_decimal_type xsd_boolean = false) by (vm_compute; reflexivity).
  rewrite <- E. apply (C123_no_sum_partial team_reg team_tree ND integers_read_back team_apart order OP default_options default_blank default_options_fresh
    (list_dataset team_data) (fun q => In q team_data) 10 (iri "team") [iri "http://team"] tv team_no_sum).
  - apply list_dataset_enumerates. unfold team_data. repeat constructor; simpl; intuition discriminate.
  - exact EH.
  - now apply good_ids_valid.
  - intros n. now apply good_numbers_print.
  - rewrite E. exact team_proper.
  - rewrite E. exact team_distinct.
  - rewrite E. exact team_not_terminators.
Qed.

(** With a choice. *)
Example pair_exclusive r h vs : pair_reg r = Some (SumL h vs) -> exclusive pair_reg vs.
Proof. intro H. exact (proj2 (proj2 (pair_plain _ _ H))). Qed.

Example pair_again_tree order : (forall l, Permutation (order l) l) -> exists tv,
  hydrate (list_dataset pair_data) pair_reg 10 (iri "pair") [iri "x"] = Ok tv /\ into_untyped tv = pair_value /\
  exists enough, forall fuel, enough <= fuel -> exists ds vals, dehydrate order pair_reg fuel pair_value (iri "pair") default_options = Ok (ds, vals) /\
    forall D', enumerates D' (fun q => In q ds) -> exists tv' N, (forall fuel', N <= fuel' -> hydrate D' pair_reg fuel' (iri "pair") vals = Ok tv') /\
      Same pair_reg (iri "pair") pair_value (into_untyped tv').
Proof.
  intro OP. destruct (hydrate (list_dataset pair_data) pair_reg 10 (iri "pair") [iri "x"]) as [tv|e|w|] eqn:EH;
    [|vm_compute in EH; discriminate..].
  exists tv. split; [reflexivity|].
  assert (E : into_untyped tv = pair_value) by (vm_compute in EH; injection EH as <-; vm_compute; reflexivity). split; [exact E|].
  assert (V : good_ids tv = true) by (vm_compute in EH; injection EH as <-; vm_compute; reflexivity).
  assert (N : good_numbers (into_untyped tv) = true) by (rewrite E; vm_compute; reflexivity).
  assert (ND : is_decimal_type xsd_boolean = false) by (vm_compute; reflexivity).
  assert (RB : forall r, pair_rank r < 2) by (intro r; unfold pair_rank; destruct (eqb r (iri "choice")); lia).
  assert (RF : forall r h vs va, pair_reg r = Some (SumL h vs) -> In va vs -> pair_rank (vf_layout (it_value (va_item va))) < pair_rank r).
  { intros r h vs va H Hva. apply pair_In in H. unfold pair_layouts in H. cbn [In] in H.
    repeat (destruct H as [H|H]; [try discriminate H|]); [|destruct H]. injection H as <- <- <-.
    destruct Hva as [<-|[<-|[]]]; vm_compute; lia. }
  rewrite <- E. apply (C123_trees_partial pair_reg pair_tree ND integers_read_back pair_apart order OP default_options default_blank default_options_fresh
    pair_rank 2 pair_exclusive (TakenSums.C120_apart _ pair_told_apart) RB RF
    (list_dataset pair_data) (fun q => In q pair_data) 10 (iri "pair") [iri "x"] tv).
  - apply list_dataset_enumerates. unfold pair_data. repeat constructor; simpl; intuition discriminate.
  - exact EH.
  - now apply good_ids_valid.
  - intros n. now apply good_numbers_print.
  - rewrite E. exact pair_proper.
  - rewrite E. exact pair_distinct.
  - rewrite E. exact pair_not_terminators.
Qed.

(** The condition [Proper] on the value read is needed: a dataset that writes one number twice is read as a set of two equal numbers, written with one, and
    read again as a set of one number. *)
Definition numbers : registry term := layouts_get [
  (iri "number", DataL KNumber no_header (PVar 0) (iri xsd_integer));
  (iri "numbers", UnorderedL no_header (prop "n" (iri "number")))].
Definition twice : list (quad term) := [q3 (iri "x") "n" (int "42"); q3 (iri "x") "n" (int "042")].
Lemma numbers_tree : tree_registry numbers.
Proof.
  intros r l H. apply bt_get_In in H. cbn [In] in H. destruct H as [[= <- <-]|[[= <- <-]|[]]].
  - apply (tl_data _ KNumber xsd_integer). vm_compute. reflexivity.
  - apply (tl_set _ [] (iri "n") (iri "number")). intros [].
Qed.
Theorem C123_duplicates_refuted : exists (reg : registry term) D ref inputs tv ds vals tv',
  tree_registry reg /\ no_sum reg /\ texts_apart reg /\
  hydrate D reg 10 ref inputs = Ok tv /\ dehydrate same reg 10 (into_untyped tv) ref default_options = Ok (ds, vals) /\
  hydrate (list_dataset ds) reg 10 ref vals = Ok tv' /\
  into_untyped tv = VList [vint 42; vint 42] /\ into_untyped tv' = VList [vint 42].
Proof.
  exists numbers, (list_dataset twice), (iri "numbers"), [iri "x"]. do 4 eexists. split; [exact numbers_tree|].
  split; [intros r h vs H; apply bt_get_In in H; cbn [In] in H; destruct H as [[=]|[[=]|[]]]|].
  split; [intros r pat h p ty H; apply bt_get_In in H; cbn [In] in H; destruct H as [[=]|[[=]|[]]]|].
  split; [vm_compute; reflexivity|]. split; [vm_compute; reflexivity|]. split; [vm_compute; reflexivity|]. split; vm_compute; reflexivity.
Qed.

Print Assumptions C123_trees_partial.
Print Assumptions C123_no_sum_partial.
Print Assumptions team_again_tree.
Print Assumptions pair_again_tree.
Print Assumptions C123_duplicates_refuted.
