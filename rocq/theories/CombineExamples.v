(** * Several documents in one dataset: cases and counter-examples (C102) *)

From Coq Require Import String List Bool Arith NArith ZArith Permutation Sorted QArith Qcanon Lia.
Import ListNotations.
From Verif Require Import Base BaseProofs Orders PatternModel MatchingModel MatchingSpec MatchingProofs ValueModel ValueProofs
  LayoutModel LayoutSpec HydrateModel HydrateSpec HydrateProperties TermModel HydrateExamples
  DehydrateModel DehydrateSpec DehydrateProofs DehydrateEmits DehydrateFinish DehydrateProperties DehydrateExamples
  RoundTripSpec RoundTripWrites RoundTripMeans RoundTripProperties RoundTripExamples RenameProperties WriteBackExamples
  CombineModel CombineSpec CombineProofs CombineProperties.
Open Scope list_scope.
Open Scope nat_scope.
Open Scope string_scope.

(** ** The documents of layouts/examples/combine.rs *)
Definition egg_fields : list (value * component) := [(key "egg", Link (iri "#egg") false (iri "egg"))].
Definition bird_fields : list (value * component) := [(key "bird", Link (iri "#bird") false (iri "bird"))].
Definition nested_fields : list (value * component) := [(key "nested", Link (iri "#nested") false (iri "nested"))].
Definition unnested_fields : list (value * component) := [(key "unnested", Link (iri "#unnested") false (iri "unnested"))].
Definition farm : layouts term := [
  (iri "nestedResult", record_layout [] nested_fields);
  (iri "nested", record_layout [] egg_fields);
  (iri "egg", DataL KNumber no_header (PVar 0) (iri xsd_integer));
  (iri "unnestedResult", record_layout [] unnested_fields);
  (iri "unnested", record_layout [] bird_fields);
  (iri "bird", DataL KBoolean no_header (PVar 0) (iri xsd_boolean))].
Definition farm_reg : registry term := layouts_get farm.
Definition nested_value (z : Z) : value := VMap [(key "nested", VMap [(key "egg", vint z)])].
Definition unnested_value : value := VMap [(key "unnested", VMap [(key "bird", VLit (LBool true))])].

(** The two documents of the example, and another one about something else. *)
Definition first_input : nat -> term := o_input_term default_options.
Definition other_input (i : nat) : term := TmBlank ("other" ++ nat_string i).
Definition farm_documents : list document := [
  Document (iri "nestedResult") (nested_value 1) first_input;
  Document (iri "unnestedResult") unnested_value first_input;
  Document (iri "nestedResult") (nested_value 2) other_input].
Definition next := o_next default_options.
Definition farm_all := dehydrate_all same farm_reg 10 next 0 farm_documents.
Definition farm_results : list (list (quad term) * list term) := match farm_all with Ok rs => rs | _ => [] end.
Example farm_ran : farm_all = Ok farm_results.
Proof. vm_compute. reflexivity. Qed.
Example farm_quads : map fst farm_results = [
  [q3 (blank "input0") "#nested" (blank "0"); q3 (blank "0") "#egg" (int "1")];
  [q3 (blank "input0") "#unnested" (blank "1"); q3 (blank "1") "#bird" (TmLit (RdfLiteral "true" (TypeAny xsd_boolean)))];
  [q3 (blank "other0") "#nested" (blank "2"); q3 (blank "2") "#egg" (int "2")]].
Proof. vm_compute. reflexivity. Qed.

(** ** C102 applies *)
Lemma next_name n : nth_name next 0 n = TmBlank (nat_string n).
Proof.
  assert (E : forall n, nth_state next 0 n = n) by (clear n; induction n as [|n IH]; [reflexivity|cbn [nth_state]; rewrite IH; reflexivity]).
  unfold nth_name. rewrite E. reflexivity.
Qed.
Example farm_names : good_names next 0 farm_documents.
Proof.
  assert (I0 : (forall i, exists b, first_input i = TmBlank b) /\ (forall i j, first_input i = first_input j -> i = j) /\
    (forall i n, first_input i <> nth_name next 0 n)).
  { split; [intro i; eexists; reflexivity|]. split.
    - intros i j [= H]. now apply nat_string_inj.
    - intros i n. rewrite next_name. intros [= H]. unfold nat_string in H. destruct (Nat.to_uint n); discriminate. }
  assert (I1 : (forall i, exists b, other_input i = TmBlank b) /\ (forall i j, other_input i = other_input j -> i = j) /\
    (forall i n, other_input i <> nth_name next 0 n)).
  { split; [intro i; eexists; reflexivity|]. split.
    - intros i j [= H]. now apply nat_string_inj.
    - intros i n. rewrite next_name. intros [= H]. unfold nat_string in H. destruct (Nat.to_uint n); discriminate. }
  split; [intro n; rewrite next_name; eauto|]. split.
  - intros n m. rewrite !next_name. intros [= H]. now apply nat_string_inj.
  - intros d [<-|[<-|[<-|[]]]]; assumption.
Qed.

Example farm_tree : tree_registry farm_reg.
Proof.
  assert (ONE : forall k p r, tree_layout farm_reg (record_layout [] [(key k, Link p false r)])).
  { intros k p r. apply tl_record.
    - repeat constructor.
    - intros ? ? ? _ _ [].
    - intros ? ? ? ? ? [[= <- <-]|[]] [[= <- <-]|[]] _ _. reflexivity.
    - intros ? ? [F|[]]. discriminate. }
  refine (layouts_get_all _ _ _). repeat apply Forall_cons; try apply Forall_nil; cbn [snd]; try apply ONE.
  - apply (tl_data _ KNumber xsd_integer). vm_compute. reflexivity.
  - apply (tl_data _ KBoolean xsd_boolean). reflexivity.
Qed.
Example farm_no_blank : forall r l b, farm_reg r = Some l -> ~ mentions l (TmBlank b).
Proof.
  intros r l b E H. apply bt_get_In in E. unfold farm in E. simpl in E.
  repeat (destruct E as [E|E]; [injection E as _ <-|]); [..|contradiction]; no_blank_tac H.
Qed.
Lemma farm_not_id r h p pat : farm_reg r <> Some (IdL h p pat).
Proof.
  intro H. apply bt_get_In in H. unfold farm, record_layout in H. simpl in H.
  repeat (destruct H as [H|H]; [discriminate H|]). contradiction.
Qed.
Lemma nested_readable z input : readable farm_reg (Document (iri "nestedResult") (nested_value z) input).
Proof.
  split; [|split]; cbn [d_layout d_value].
  - eapply pr_record; [reflexivity|sorted_keys|]. fields. eapply pr_record; [reflexivity|sorted_keys|]. fields. apply pr_leaf. exact Logic.I.
  - intros ids H. apply (nothing_identified _ farm_not_id) in H as ->. constructor.
  - intros ids i H. apply (nothing_identified _ farm_not_id) in H as ->. intros [].
Qed.
Lemma unnested_readable input : readable farm_reg (Document (iri "unnestedResult") unnested_value input).
Proof.
  split; [|split]; cbn [d_layout d_value].
  - eapply pr_record; [reflexivity|sorted_keys|]. fields. eapply pr_record; [reflexivity|sorted_keys|]. fields. apply pr_leaf. exact Logic.I.
  - intros ids H. apply (nothing_identified _ farm_not_id) in H as ->. constructor.
  - intros ids i H. apply (nothing_identified _ farm_not_id) in H as ->. intros [].
Qed.
Lemma farm_owns_nested p : Owns farm_reg (iri "nestedResult") p -> p = iri "#nested".
Proof.
  intro H. apply (record_owns _ _ nested_fields) in H; [|reflexivity|intros k r' [F|[]]; discriminate].
  destruct H as (k & b & r' & [F|[]]). injection F as _ <- _ _. reflexivity.
Qed.
Lemma farm_owns_unnested p : Owns farm_reg (iri "unnestedResult") p -> p = iri "#unnested".
Proof.
  intro H. apply (record_owns _ _ unnested_fields) in H; [|reflexivity|intros k r' [F|[]]; discriminate].
  destruct H as (k & b & r' & [F|[]]). injection F as _ <- _ _. reflexivity.
Qed.
Definition farm_dataset := list_dataset (combined farm_results).

Example farm_read_back : length (combined farm_results) = 6 /\
  forall i d r, nth_error farm_documents i = Some d -> nth_error farm_results i = Some r ->
  exists tv N, (forall fuel, N <= fuel -> hydrate farm_dataset farm_reg fuel (d_layout d) (snd r) = Ok tv) /\ into_untyped tv = d_value d.
Proof.
  split; [vm_compute; reflexivity|].
  apply (C102_combined_equal_partial farm_reg farm_no_blank same same_perm farm_tree 10 next 0).
  - intros r h it H. apply bt_get_In in H. unfold farm in H. simpl in H. repeat (destruct H as [H|H]; [discriminate H|]). contradiction.
  - exact farm_names.
  - intros d [<-|[<-|[<-|[]]]]; [apply nested_readable|apply unnested_readable|apply nested_readable].
  - exact integers_read_back.
  - exact farm_ran.
  - assert (NI : forall d i, ~ identifies farm_reg d i).
    { intros d i (ids & H & Hi). apply (nothing_identified _ farm_not_id) in H as ->. destruct Hi. }
    intros i j d d' r r' NE Hd Hr Hd' Hr'. split; [intros x Hx; now elim (NI d x)|].
    intros t p Ht Ht' HO HO'.
    destruct i as [|[|[|i]]]; [| | |destruct i; discriminate Hd]; injection Hd as <-; injection Hr as <-; vm_compute in Ht; destruct Ht as [<-|[]];
    (destruct j as [|[|[|j]]]; [| | |destruct j; discriminate Hd']; injection Hd' as <-; injection Hr' as <-; vm_compute in Ht'; destruct Ht' as [F|[]];
      try discriminate F; try (now elim NE); cbn [d_layout] in HO, HO').
    + apply farm_owns_nested in HO. apply farm_owns_unnested in HO'. subst p. discriminate HO'.
    + apply farm_owns_unnested in HO. apply farm_owns_nested in HO'. subst p. discriminate HO'.
  - apply list_dataset_enumerates. vm_compute. repeat constructor; simpl; intuition discriminate.
Qed.

(** The two documents about the same node do share it, and only it. *)
Example farm_shared : (forall b, has_blank (nth 0 farm_results ([], [])) b -> has_blank (nth 1 farm_results ([], [])) b ->
    exists n, TmBlank b = first_input n) /\
  has_blank (nth 0 farm_results ([], [])) "input0" /\ has_blank (nth 1 farm_results ([], [])) "input0".
Proof.
  split; [|split; left; vm_compute; now left].
  intros b Hb Hb'.
  destruct (C102_shared_blanks farm_reg farm_no_blank same same_perm 10 next 0 farm_documents farm_results 0 1
    (Document (iri "nestedResult") (nested_value 1) first_input) (Document (iri "unnestedResult") unnested_value first_input)
    (nth 0 farm_results ([], [])) (nth 1 farm_results ([], [])) b) as [[_ E] _]; auto.
  - exact farm_names.
Qed.

(** The third layout of layouts/examples/combine.rs reads the two documents at once. *)
Definition final_layouts : layouts term := (farm ++ [
  (iri "final", ProductL no_header [
    (key "bird", Field (Item 2 (VFormat (iri "bird") [PVar 2] None)
      [Quad (PVar 0) (PRes (iri "#unnested")) (PVar 1) None; Quad (PVar 1) (PRes (iri "#bird")) (PVar 2) None]) false);
    (key "nested", Field (prop "#nested" (iri "nested")) false)])])%list.
Example combined_reading : exists tv,
  hydrate farm_dataset (layouts_get final_layouts) 10 (iri "final") [blank "input0"] = Ok tv /\
  into_untyped tv = VMap [(key "bird", VLit (LBool true)); (key "nested", VMap [(key "egg", vint 1)])].
Proof. eexists. split; [vm_compute; reflexivity|]. vm_compute. reflexivity. Qed.

(** ** Counter-examples *)

(** Without a common generator (here, each document is dehydrated with [Options::default], but for the names of the inputs): the nodes created for
    the two documents have the same names, and the first document is not read back. *)
Theorem C102_separate_generators_refuted : exists reg d d' ds vals ds' vals',
  tree_registry reg /\ readable reg d /\ readable reg d' /\
  dehydrate same reg 10 (d_value d) (d_layout d) (Options None (d_input d) 0 next) = Ok (ds, vals) /\
  dehydrate same reg 10 (d_value d') (d_layout d') (Options None (d_input d') 0 next) = Ok (ds', vals') /\
  compatible reg d (ds, vals) d' (ds', vals') /\
  enumerates (list_dataset (combined [(ds, vals); (ds', vals')])) (fun q => In q (combined [(ds, vals); (ds', vals')])) /\
  forall fuel tv, hydrate (list_dataset (combined [(ds, vals); (ds', vals')])) reg fuel (d_layout d) vals <> Ok tv.
Proof.
  exists farm_reg, (Document (iri "nestedResult") (nested_value 1) first_input), (Document (iri "nestedResult") (nested_value 2) other_input).
  do 4 eexists. split; [exact farm_tree|]. split; [apply nested_readable|]. split; [apply nested_readable|].
  split; [vm_compute; reflexivity|]. split; [vm_compute; reflexivity|]. split; [|split].
  - split.
    + intros i (ids & H & Hi) _. apply (nothing_identified _ farm_not_id) in H as ->. destruct Hi.
    + intros t p [<-|[]] [F|[]]. discriminate F.
  - apply list_dataset_enumerates. vm_compute. repeat constructor; simpl; intuition discriminate.
  - intros fuel tv H. eapply (hydrate_result _ _ 20) in H; [|vm_compute; reflexivity|discriminate]. discriminate H.
Qed.

(** With a common generator, but two documents of the same layout about the same node. *)
Theorem C102_same_subject_refuted : exists reg docs rs d r,
  tree_registry reg /\ good_names next 0 docs /\ (forall d, In d docs -> readable reg d) /\
  dehydrate_all same reg 10 next 0 docs = Ok rs /\
  enumerates (list_dataset (combined rs)) (fun q => In q (combined rs)) /\
  nth_error docs 0 = Some d /\ nth_error rs 0 = Some r /\
  forall fuel tv, hydrate (list_dataset (combined rs)) reg fuel (d_layout d) (snd r) <> Ok tv.
Proof.
  exists farm_reg, [Document (iri "nestedResult") (nested_value 1) first_input; Document (iri "nestedResult") (nested_value 2) first_input].
  do 3 eexists. split; [exact farm_tree|]. split.
  { destruct farm_names as (G1 & G2 & G3). split; [exact G1|]. split; [exact G2|].
    intros d [<-|[<-|[]]]; apply (G3 (Document (iri "nestedResult") (nested_value 1) first_input)); now left. }
  split; [intros d [<-|[<-|[]]]; apply nested_readable|]. split; [vm_compute; reflexivity|]. split.
  { apply list_dataset_enumerates. vm_compute. repeat constructor; simpl; intuition discriminate. }
  split; [reflexivity|]. split; [reflexivity|].
  intros fuel tv H. eapply (hydrate_result _ _ 20) in H; [|vm_compute; reflexivity|discriminate]. discriminate H.
Qed.

Print Assumptions C102_each_alone.
Print Assumptions C102_shared_blanks.
Print Assumptions C102_combined_partial.
Print Assumptions C102_combined_equal_partial.
Print Assumptions C102_separate_generators_refuted.
Print Assumptions C102_same_subject_refuted.
Print Assumptions C30_round_trip_elsewhere_partial.
