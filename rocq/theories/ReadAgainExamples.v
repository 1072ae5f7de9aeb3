(** * C123: the record of WriteBackExamples.v, read again *)

From Coq Require Import String List Bool Arith NArith ZArith Lia Permutation Qcanon.
Import ListNotations.
From Verif Require Import Base BaseProofs Orders PatternModel MatchingModel MatchingSpec MatchingProofs ValueModel LayoutModel LayoutSpec HydrateModel HydrateSpec
  HydrateProperties TermModel HydrateExamples DehydrateModel DehydrateSpec DehydrateFinish DehydrateProperties DehydrateExamples RoundTripSpec RoundTripProperties
  RoundTripExamples OtherDataExamples DehydrateUniqueExamples
  WriteBackSpec WriteBackExamples NormalLiterals WrittenBack WrittenBackExamples ReadAgain.
From Verif Require TakenSpec TakenProperties TakenSums TakenExamples ReorderExamples.
Open Scope list_scope.
Open Scope nat_scope.
Open Scope string_scope.

(** The dataset has other quads, names for its nodes, and an age written "042". *)
Example team_again order : (forall l, Permutation (order l) l) -> exists tv,
  hydrate (list_dataset team_data) team_reg 10 (iri "team") [iri "http://team"] = Ok tv /\ into_untyped tv = team_value /\
  exists enough, forall fuel, enough <= fuel -> exists ds vals, dehydrate order team_reg fuel team_value (iri "team") default_options = Ok (ds, vals) /\
    forall D', enumerates D' (fun q => In q ds) -> exists tv' N, (forall fuel', N <= fuel' -> hydrate D' team_reg fuel' (iri "team") vals = Ok tv') /\
      Same team_reg (iri "team") team_value (into_untyped tv').
Proof.
  intro OP. destruct (hydrate (list_dataset team_data) team_reg 10 (iri "team") [iri "http://team"]) as [tv|e|w|] eqn:EH;
    [|vm_compute in EH; discriminate..].
  exists tv. split; [reflexivity|].
  assert (E : into_untyped tv = team_value) by (vm_compute in EH; injection EH as <-; vm_compute; reflexivity). split; [exact E|].
  assert (V : good_ids tv = true) by (vm_compute in EH; injection EH as <-; vm_compute; reflexivity).
  assert (N : good_numbers (into_untyped tv) = true) by (rewrite E; vm_compute; reflexivity).
  assert (ND : is_decimal_type xsd_boolean = false) by (vm_compute; reflexivity).
  rewrite <- E. apply (C123_read_again_partial team_reg ND integers_read_back team_plain team_sorted team_apart team_normal ReorderExamples.team_declared
    (TakenProperties.C120_no_sum _ team_no_sum) team_supported (fun _ => 0) 1 (fun _ => Nat.lt_0_1)
    ltac:(intros r h vs va H; exfalso; exact (team_no_sum r h vs H)) order OP default_options team_tree default_blank default_options_fresh
    (list_dataset team_data) (fun q => In q team_data) 10 (iri "team") [iri "http://team"] tv).
  - apply list_dataset_enumerates. unfold team_data. repeat constructor; simpl; intuition discriminate.
  - exact EH.
  - now apply good_ids_valid.
  - intros n. now apply good_numbers_print.
  - rewrite E. exact team_proper.
  - rewrite E. exact team_distinct.
  - rewrite E. exact team_not_terminators.
Qed.

(** Without sets: the pair of RoundTripExamples.v, from a dataset with names, other quads, and numbers that are not normal. *)
Definition pair_reg : registry term := layouts_get pair_layouts.
Definition pair_data : list (quad term) := [
  q3 (iri "x") "left" (iri "l1");
  q3 (iri "l1") "first" (text "a");
  q3 (iri "l1") "rest" (iri "l2");
  q3 (iri "l2") "first" (int "003");
  q3 (iri "l2") "rest" (iri "nil");
  q3 (iri "x") "right" (int "007");
  q3 (iri "x") "end" (iri "y");
  q3 (iri "y") "type" (iri "End");
  q3 (iri "y") "type" (iri "Other")].

Lemma pair_In r l : pair_reg r = Some l -> In (r, l) pair_layouts.
Proof. apply bt_get_In. Qed.
Ltac each_pair H := apply pair_In in H; unfold pair_layouts in H; cbn [In] in H; repeat (destruct H as [[= <- <-]|H]); [..|destruct H].

Example pair_tree : tree_registry pair_reg.
Proof.
  intros r l H. apply bt_get_In in H. unfold pair_layouts in H. simpl in H.
    repeat (destruct H as [H|H]; [injection H as _ <-|]); [..|contradiction].
    + apply (tl_tuple _ [] [(iri "left", iri "tasks"); (iri "right", iri "choice"); (iri "end", iri "unit")]).
      * repeat constructor; simpl; intuition discriminate.
      * intros p _ [].
    + apply (tl_unit _ [(iri "type", iri "End")]).
    + apply (tl_choice _ [("n", iri "number"); ("s", iri "string")] [xsd_integer; xsd_string]).
      * constructor; [exists KNumber; split; vm_compute; reflexivity|].
        constructor; [exists (KTextString None); split; [vm_compute; reflexivity|exact Logic.I]|constructor].
      * repeat constructor; simpl; intuition discriminate.
    + apply (tl_list _ [] (iri "first") (iri "rest") "nil"); [discriminate|intros []|intros []].
    + apply (tl_data _ KNumber xsd_integer). vm_compute. reflexivity.
    + apply (tl_data _ (KTextString None) xsd_string). exact Logic.I.
Qed.
Example pair_no_sets : no_sets pair_reg.
Proof. intros r h it H. apply pair_In in H. unfold pair_layouts in H. cbn [In] in H. repeat (destruct H as [H|H]; [discriminate H|]). destruct H. Qed.
Example pair_proper : Proper pair_reg (iri "pair") pair_value.
Proof.
  eapply pr_tuple; [reflexivity|]. intros i it v Hi Hv.
    destruct i as [|[|[|i]]]; [| | |destruct i; discriminate Hi]; injection Hi as <-; injection Hv as <-.
    + eapply pr_list; [reflexivity| |discriminate]. intros v Hv. apply pr_leaf. reflexivity.
    + apply pr_leaf. reflexivity.
    + eapply pr_unit. reflexivity.
Qed.
Example pair_distinct : distinct_identifiers pair_reg (iri "pair") pair_value.
Proof.
  unfold pair_reg.
  intros ids H. enough (ids = []) as -> by constructor. unfold pair_value in H.
    repeat match goal with
    | E : layouts_get pair_layouts _ = Some (tagged_layout _ _ ?vs), H : In _ ?vs |- _ =>
        destruct vs as [|[? [? ?]] ?]; [destruct H|vm_compute in E; discriminate E]
    | E : layouts_get pair_layouts _ = Some _ |- _ => vm_compute in E; first [discriminate E|injection E; clear E; intros; subst]
    | E : leaf _ _ |- _ => vm_compute in E; first [contradiction|clear E]
    | E : Identifiers _ _ _ _ |- _ => inversion E; clear E; subst
    | E : IdentifiersL _ _ _ _ |- _ => simpl in E; inversion E; clear E; subst
    end; reflexivity.
Qed.
Example pair_not_terminators : not_terminators pair_reg (iri "pair") pair_value.
Proof.
  unfold pair_reg.
  intros ids i H. enough (ids = []) as -> by intros []. unfold pair_value in H.
    repeat match goal with
    | E : layouts_get pair_layouts _ = Some (tagged_layout _ _ ?vs), H : In _ ?vs |- _ =>
        destruct vs as [|[? [? ?]] ?]; [destruct H|vm_compute in E; discriminate E]
    | E : layouts_get pair_layouts _ = Some _ |- _ => vm_compute in E; first [discriminate E|injection E; clear E; intros; subst]
    | E : leaf _ _ |- _ => vm_compute in E; first [contradiction|clear E]
    | E : Identifiers _ _ _ _ |- _ => inversion E; clear E; subst
    | E : IdentifiersL _ _ _ _ |- _ => simpl in E; inversion E; clear E; subst
    end; reflexivity.
Qed.
Example pair_plain : plain_registry pair_reg.
Proof.
  intros r l H. each_pair H; cbn [plain_layout].
  - split; [intros x L; cbn in L; lia|]. intros it H. simpl in H.
    repeat (destruct H as [H|H]; [subst it|]); [..|contradiction]; split; try (left; reflexivity); used.
  - intros x L. cbn in L. lia.
  - split; [intros x L; cbn in L; lia|]. split.
    + intros va Hva. simpl in Hva. repeat (destruct Hva as [<-|Hva]; [split; [intros x L; cbn in L; lia|now left]|]). destruct Hva.
    + intros i j vi vj li lj v N Hi Hj El El' T T'.
      destruct i as [|[|i]]; [..|destruct i; discriminate Hi]; injection Hi as <-; vm_compute in El; injection El as <-;
      (destruct j as [|[|j]]; [..|destruct j; discriminate Hj]; injection Hj as <-; vm_compute in El'; injection El' as <-);
      try (now elim N); cbn [takes] in T, T'; repeat match goal with H : exists _, _ |- _ => destruct H end; subst; discriminate.
  - split; [intros x L; cbn in L; lia|]. split; [used|now left].
  - intros x L. cbn in L. lia.
  - intros x L. cbn in L. lia.
Qed.
Example pair_apart : texts_apart pair_reg.
Proof.
  intros ref pat h r ty H. apply pair_In in H. unfold pair_layouts in H. cbn [In] in H. repeat (destruct H as [[=]|H]); [subst ty|destruct H].
  split; [discriminate|vm_compute; reflexivity].
Qed.
Example pair_normal : normal_names pair_reg.
Proof.
  intros ref l lit lit' H N L. exfalso. each_pair H; inversion N; subst; unfold prop, self in *; cbn in *;
    repeat match goal with
    | A : _ \/ _ |- _ => destruct A as [A|A]
    | A : False |- _ => destruct A
    | A : PVar _ = PRes _ |- _ => discriminate A
    | A : Item _ _ _ = ?y |- _ => is_var y; subst y; cbn in *
    | A : Variant _ _ = ?y |- _ => is_var y; subst y; cbn in *
    end.
Qed.
Example pair_declared : TakenSpec.declared_registry pair_reg.
Proof. intros ref l x H U. each_pair H; TakenExamples.declared. Qed.
Example pair_told_apart : TakenSums.told_apart pair_reg.
Proof.
  intros ref h vs i j va vb H Na Nb NE. apply pair_In in H. unfold pair_layouts in H. cbn [In] in H.
  repeat (destruct H as [H|H]; [try discriminate H|]); [|destruct H]. injection H as <- <- <-.
  destruct i as [|[|i]]; [..|destruct i; discriminate Na]; injection Na as <-;
    (destruct j as [|[|j]]; [..|destruct j; discriminate Nb]); try congruence; injection Nb as <-;
    (do 2 eexists; split; [reflexivity|]; split; [reflexivity|]; split; [exact Logic.I|]); apply TakenSums.apart_kind;
    intros v (y & -> & A) (z & [= <-] & B); destruct y; cbn in A, B; first [discriminate|contradiction|inversion A; inversion B].
Qed.
Example pair_supported r l : pair_reg r = Some l -> supported l.
Proof. intro H. each_pair H; cbn; try exact Logic.I; eexists; try split; vm_compute; reflexivity. Qed.
Definition pair_rank (r : term) : nat := if eqb r (iri "choice") then 1 else 0.

Example pair_again order : (forall l, Permutation (order l) l) -> exists tv,
  hydrate (list_dataset pair_data) pair_reg 10 (iri "pair") [iri "x"] = Ok tv /\ into_untyped tv = pair_value /\
  exists enough, forall fuel, enough <= fuel -> exists ds vals, dehydrate order pair_reg fuel pair_value (iri "pair") default_options = Ok (ds, vals) /\
    forall D', enumerates D' (fun q => In q ds) -> exists tv' N, (forall fuel', N <= fuel' -> hydrate D' pair_reg fuel' (iri "pair") vals = Ok tv') /\
      into_untyped tv' = pair_value.
Proof.
  intro OP. destruct (hydrate (list_dataset pair_data) pair_reg 10 (iri "pair") [iri "x"]) as [tv|e|w|] eqn:EH;
    [|vm_compute in EH; discriminate..].
  exists tv. split; [reflexivity|].
  assert (E : into_untyped tv = pair_value) by (vm_compute in EH; injection EH as <-; vm_compute; reflexivity). split; [exact E|].
  assert (V : good_ids tv = true) by (vm_compute in EH; injection EH as <-; vm_compute; reflexivity).
  assert (N : good_numbers (into_untyped tv) = true) by (rewrite E; vm_compute; reflexivity).
  assert (ND : is_decimal_type xsd_boolean = false) by (vm_compute; reflexivity).
  assert (RB : forall r, pair_rank r < 2) by (intro r; unfold pair_rank; destruct (eqb r (iri "choice")); lia).
  assert (RF : forall r h vs va, pair_reg r = Some (SumL h vs) -> In va vs -> pair_rank (vf_layout (it_value (va_item va))) < pair_rank r).
  { intros r h vs va H Hva. apply pair_In in H. unfold pair_layouts in H. cbn [In] in H.
    repeat (destruct H as [H|H]; [try discriminate H|]); [|destruct H]. injection H as <- <- <-.
    destruct Hva as [<-|[<-|[]]]; vm_compute; lia. }
  rewrite <- E. apply (C123_read_again_equal_partial pair_reg ND integers_read_back pair_plain (tree_sorted _ pair_tree) pair_apart pair_normal pair_declared
    (TakenSums.C120_apart _ pair_told_apart) pair_supported pair_rank 2 RB RF order OP default_options pair_tree default_blank default_options_fresh
    (list_dataset pair_data) (fun q => In q pair_data) 10 (iri "pair") [iri "x"] tv pair_no_sets).
  - apply list_dataset_enumerates. unfold pair_data. repeat constructor; simpl; intuition discriminate.
  - exact EH.
  - now apply good_ids_valid.
  - intros n. now apply good_numbers_print.
  - rewrite E. exact pair_proper.
  - rewrite E. exact pair_distinct.
  - rewrite E. exact pair_not_terminators.
Qed.

Print Assumptions C123_read_again_partial.
Print Assumptions C123_read_again_equal_partial.
Print Assumptions team_again.
Print Assumptions pair_again.
