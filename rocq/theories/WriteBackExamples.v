(** * Cases of C100, and counter-examples out of its hypotheses *)

From Coq Require Import String List Bool Arith NArith ZArith QArith Qcanon Permutation Sorted Lia.
Import ListNotations.
From Verif Require Import Base BaseProofs Orders PatternModel MatchingModel MatchingSpec MatchingProofs ValueModel LayoutModel LayoutSpec HydrateModel HydrateSpec
  HydrateProperties TermModel HydrateExamples DehydrateModel DehydrateSpec DehydrateFinish DehydrateProperties DehydrateExamples RoundTripSpec RoundTripProperties
  RoundTripExamples RegistryProperties OtherDataProperties RenameProperties OtherDataExamples DehydrateUnique DehydrateUniqueProperties DehydrateUniqueExamples
  WriteBackSpec WriteBackProofs WriteBackProperties.
Open Scope list_scope.
Open Scope nat_scope.
Open Scope string_scope.

(** No blank node in a concrete layout. *)
Ltac no_blank_tac H :=
  inversion H as [? p ? PO QN|? vf p ? FO IN NA|? vf ? FO GR| | | |]; subst;
  [inversion PO; subst|inversion FO; subst|inversion FO; subst|..]; cbn in *;
  repeat match goal with
  | A : _ \/ _ |- _ => destruct A
  | A : False |- _ => destruct A
  | A : (_, _) = (_, _) |- _ => injection A as ? ?
  end; subst; cbn in *; unfold quad_names, names in *; cbn in *;
  repeat match goal with
  | A : _ \/ _ |- _ => destruct A
  | A : False |- _ => destruct A
  end; subst; cbn in *; try discriminate.

Ltac used := intros x [L1 L2]; cbn in L1, L2;
  first [exfalso; lia
        |first [assert (x = 1) as -> by lia|assert (x = 3) as -> by lia]; eexists; split; [cbn; left; reflexivity|unfold qvar_of, pvar_of; cbn; eauto]].

Lemma team_plain : plain_registry team_reg.
Proof.
  intros r l H. apply team_In in H. unfold team in H. simpl in H.
  repeat (destruct H as [H|H]; [injection H as _ <-|]); [..|contradiction]; cbn [plain_layout].
  - split; [intros x L; cbn in L; lia|]. intros k f H. simpl in H.
    repeat (destruct H as [H|H]; [injection H as _ <-|]); [..|contradiction]; split; try (left; reflexivity); used.
  - intros x L. cbn in L. lia.
  - split; [intros x L; cbn in L; lia|]. split; [used|now left].
  - split; [intros x L; cbn in L; lia|]. intros k f H. simpl in H.
    repeat (destruct H as [H|H]; [injection H as _ <-|]); [..|contradiction]; split; try (left; reflexivity); used.
  - split; [intros x L; cbn in L; lia|]. split; [used|now left].
  - split; [intros x L; cbn in L; lia|]. intros it H. simpl in H.
    repeat (destruct H as [H|H]; [subst it|]); [..|contradiction]; split; try (left; reflexivity); used.
  - intros x L. cbn in L. lia.
  - intros x L. cbn in L. lia.
Qed.

(** A dataset that was not written by [dehydrate]: the members are IRIs, an age is not in normal form, the cells of the list have names, and there
    are other data. *)
Definition team_data : list (quad term) := [
  q3 (iri "http://team") "name" (text "A");
  q3 (iri "http://team") "member" (iri "http://alice");
  q3 (iri "http://team") "member" (iri "http://bob");
  q3 (iri "http://alice") "type" (iri "Person");
  q3 (iri "http://alice") "type" (iri "Robot");
  q3 (iri "http://alice") "age" (int "042");
  q3 (iri "http://alice") "name" (text "Alice");
  q3 (iri "http://alice") "knows" (iri "http://bob");
  q3 (iri "http://bob") "type" (iri "Person");
  q3 (iri "http://bob") "name" (text "Bob");
  q3 (iri "http://team") "todo" (blank "list");
  q3 (blank "list") "first" (text "read");
  q3 (blank "list") "rest" (iri "http://cell");
  q3 (iri "http://cell") "first" (text "prove");
  q3 (iri "http://cell") "rest" (iri "nil")].

Definition team_back : list (quad term) * list term :=
  match hydrate (list_dataset team_data) team_reg 10 (iri "team") [iri "http://team"] with
  | Ok tv => match dehydrate same team_reg 10 (into_untyped tv) (iri "team") default_options with Ok r => r | _ => ([], []) end
  | _ => ([], [])
  end.

(** C100 applies: thirteen quads are written, with new names and "42". *)
Example team_written_back :
  length (fst team_back) = 13 /\ (exists b, In (q3 b "age" (int "42")) (fst team_back)) /\
  exists f, renames_blanks f /\
    (forall q, In q (fst team_back) -> exists q0, In q0 team_data /\ normal_quad (rename_quad f q) q0) /\
    Forall2 normal_term (map f (snd team_back)) [iri "http://team"].
Proof.
  destruct (hydrate (list_dataset team_data) team_reg 10 (iri "team") [iri "http://team"]) as [tv|e|w|] eqn:EH;
    [|vm_compute in EH; discriminate..].
  destruct (dehydrate same team_reg 10 (into_untyped tv) (iri "team") default_options) as [[ds vals]|e|w|] eqn:ED.
  2-4: vm_compute in EH; injection EH as <-; vm_compute in ED; discriminate.
  assert (EB : team_back = (ds, vals)) by (unfold team_back; rewrite EH, ED; reflexivity).
  split; [vm_compute; reflexivity|]. split; [eexists; vm_compute; eauto 20|].
  destruct (C100_written_back_partial team_reg team_plain team_sorted team_no_blank same same_perm default_options default_blank default_options_fresh
    (fun q => In q team_data) (list_dataset team_data) 10 10 (iri "team") [iri "http://team"] tv ds vals) as (f & F1 & F2 & F3).
  - apply list_dataset_enumerates. unfold team_data. repeat constructor; simpl; intuition discriminate.
  - exact EH.
  - exact ED.
  - exists f. rewrite EB. cbn [fst snd]. split; [exact F1|]. split; [exact F2|]. apply F3.
    assert (length (snd team_back) = 1) as L by (vm_compute; reflexivity). rewrite EB in L. exact L.
Qed.

(** The terms of this dataset are in normal form, but the age. *)
Lemma iri_normal i : is_normal (iri i).
Proof. intros t H. inversion H. reflexivity. Qed.
Lemma blank_normal b : is_normal (blank b).
Proof. intros t H. inversion H. reflexivity. Qed.
Lemma text_normal s : is_normal (text s).
Proof. intros t H. inversion H as [|l l' N]; subst; [reflexivity|]. inversion N as [| | |? ? ? ? E]; subst; [reflexivity|]. vm_compute in E. discriminate. Qed.
Lemma integer_reduced z : this (Qc_of_Z z) = inject_Z z.
Proof.
  unfold Qc_of_Z, Q2Qc, Qred, inject_Z. cbn [this]. pose proof (Z.ggcd_gcd z 1) as G1. pose proof (Z.ggcd_correct_divisors z 1) as G2.
  destruct (Z.ggcd z 1) as [g [a b]]. cbn [fst snd] in *. rewrite Z.gcd_1_r in G1. subst g. destruct G2 as [G2 G3]. rewrite Z.mul_1_l in G2, G3. subst. reflexivity.
Qed.
Lemma int_normal z : is_normal (int (integer_print z)).
Proof.
  intros t H. inversion H as [|l l' N]; subst; [reflexivity|]. inversion N as [| | |? ? ? n E P1 P2]; subst; [reflexivity|].
  assert (n = Qc_of_Z z) as ->.
  { cbn [decimal_parse xsd_integers] in P2. rewrite integer_parse_print in P2. cbn [option_map] in P2. congruence. }
  cbn [decimal_print xsd_integers] in P1. rewrite integer_reduced in P1. unfold inject_Z in P1. cbn [Qden Qnum] in P1.
  unfold int. congruence.
Qed.

(** With the age in normal form, what is written back is a part of the dataset. *)
Definition tidy_data : list (quad term) := [
  q3 (iri "http://alice") "type" (iri "Person");
  q3 (iri "http://alice") "age" (int (integer_print 42));
  q3 (iri "http://alice") "age of" (iri "http://team");
  q3 (iri "http://alice") "name" (text "Alice")].
Example tidy_written_back : exists tv ds vals,
  hydrate (list_dataset tidy_data) team_reg 10 (iri "member") [iri "http://alice"] = Ok tv /\
  dehydrate same team_reg 10 (into_untyped tv) (iri "member") default_options = Ok (ds, vals) /\ length ds = 3 /\
  exists f, renames_blanks f /\ (forall q, In q ds -> In (rename_quad f q) tidy_data) /\ map f vals = [iri "http://alice"].
Proof.
  do 3 eexists. split; [vm_compute; reflexivity|]. split; [vm_compute; reflexivity|]. split; [reflexivity|].
  edestruct (C100_part_of_dataset_partial team_reg team_plain team_sorted team_no_blank same same_perm default_options default_blank default_options_fresh
    (fun q => In q tidy_data) (list_dataset tidy_data) 10 10 (iri "member") [iri "http://alice"]) as (f & F1 & F2 & F3).
  - intros q t Hq Ht. unfold tidy_data in Hq. unfold term_of_quad in Ht.
    repeat (destruct Hq as [<-|Hq]; [cbn [q3 q_s q_p q_o q_g] in Ht; destruct Ht as [<-|[<-|[<-|H]]];
      first [discriminate|apply iri_normal|apply int_normal|apply text_normal]|]). destruct Hq.
  - constructor; [apply iri_normal|constructor].
  - apply list_dataset_enumerates. vm_compute. repeat constructor; simpl; intuition discriminate.
  - vm_compute. reflexivity.
  - vm_compute. reflexivity.
  - exists f. split; [exact F1|]. split; [exact F2|]. apply F3. reflexivity.
Qed.

(** A choice between a number, one of two constants and a record. *)
Definition answer : registry term := fun r =>
  if eqb r (iri "answer") then Some (SumL no_header [
      Variant "n" (self (VFormat (iri "number") [PVar 0] None));
      Variant "yes" (self (VFormat (iri "yes") [PVar 0] None));
      Variant "no" (self (VFormat (iri "no") [PVar 0] None));
      Variant "m" (self (VFormat (iri "member") [PVar 0] None))])
  else if eqb r (iri "yes") then Some (UnitL (Header 1 0 [Quad (PVar 0) (PRes (iri "is")) (PRes (iri "Yes")) None]) (vtext "yes"))
  else if eqb r (iri "no") then Some (UnitL (Header 1 0 [Quad (PVar 0) (PRes (iri "is")) (PRes (iri "No")) None]) (vtext "no"))
  else team_reg r.
Lemma answer_plain : plain_registry answer.
Proof.
  intros r l H. unfold answer in H.
  destruct (eqb r (iri "answer")); [injection H as <-|destruct (eqb r (iri "yes")); [injection H as <-|destruct (eqb r (iri "no")); [injection H as <-|]]].
  - cbn [plain_layout]. split; [intros x L; cbn in L; lia|]. split.
    + intros va Hva. simpl in Hva. repeat (destruct Hva as [<-|Hva]; [split; [intros x L; cbn in L; lia|now left]|]). destruct Hva.
    + intros i j vi vj li lj v N Hi Hj El El' T T'.
      destruct i as [|[|[|[|i]]]]; [..|destruct i; discriminate Hi]; injection Hi as <-; vm_compute in El; injection El as <-;
      (destruct j as [|[|[|[|j]]]]; [..|destruct j; discriminate Hj]; injection Hj as <-; vm_compute in El'; injection El' as <-);
      try (now elim N); cbn [takes] in T, T'; repeat match goal with H : exists _, _ |- _ => destruct H end; subst; discriminate.
  - intros x L. cbn in L. lia.
  - intros x L. cbn in L. lia.
  - pose proof (team_plain r l H) as P. destruct l; try exact P. exfalso.
    apply team_In in H. unfold team in H. simpl in H. repeat (destruct H as [H|H]; [discriminate H|]). destruct H.
Qed.
Lemma answer_sorted : registry_sorted answer.
Proof.
  intros r l H. unfold answer in H.
  destruct (eqb r (iri "answer")); [injection H as <-; exact Logic.I|destruct (eqb r (iri "yes")); [injection H as <-; exact Logic.I|destruct (eqb r (iri "no")); [injection H as <-; exact Logic.I|]]].
  exact (team_sorted r l H).
Qed.
Lemma answer_no_blank r l b : answer r = Some l -> ~ mentions l (TmBlank b).
Proof.
  intro H. unfold answer in H.
  destruct (eqb r (iri "answer")); [injection H as <-|destruct (eqb r (iri "yes")); [injection H as <-|destruct (eqb r (iri "no")); [injection H as <-|exact (team_no_blank r l b H)]]].
  all: intro M; no_blank_tac M.
Qed.

Definition answer_data : list (quad term) := [
  q3 (iri "http://alice") "type" (iri "Person");
  q3 (iri "http://alice") "name" (text "Alice");
  q3 (iri "http://q") "is" (iri "No")].
Lemma answer_enumerates : enumerates (list_dataset answer_data) (fun q => In q answer_data).
Proof. apply list_dataset_enumerates. vm_compute. repeat constructor; simpl; intuition discriminate. Qed.
Example record_chosen : exists tv ds vals,
  hydrate (list_dataset answer_data) answer 10 (iri "answer") [iri "http://alice"] = Ok tv /\
  dehydrate same answer 10 (into_untyped tv) (iri "answer") default_options = Ok (ds, vals) /\ length ds = 2 /\
  exists f, renames_blanks f /\ (forall q, In q ds -> exists q0, In q0 answer_data /\ normal_quad (rename_quad f q) q0).
Proof.
  do 3 eexists. split; [vm_compute; reflexivity|]. split; [vm_compute; reflexivity|]. split; [reflexivity|].
  edestruct (C100_written_back_partial answer answer_plain answer_sorted answer_no_blank same same_perm default_options default_blank default_options_fresh
    (fun q => In q answer_data) (list_dataset answer_data) 10 10 (iri "answer") [iri "http://alice"]) as (f & F1 & F2 & _).
  - exact answer_enumerates.
  - vm_compute. reflexivity.
  - vm_compute. reflexivity.
  - exists f. split; [exact F1|exact F2].
Qed.
Example constant_chosen : exists tv ds vals,
  hydrate (list_dataset answer_data) answer 10 (iri "answer") [iri "http://q"] = Ok tv /\
  dehydrate same answer 10 (into_untyped tv) (iri "answer") default_options = Ok (ds, vals) /\ length ds = 1 /\
  exists f, renames_blanks f /\ (forall q, In q ds -> exists q0, In q0 answer_data /\ normal_quad (rename_quad f q) q0).
Proof.
  do 3 eexists. split; [vm_compute; reflexivity|]. split; [vm_compute; reflexivity|]. split; [reflexivity|].
  edestruct (C100_written_back_partial answer answer_plain answer_sorted answer_no_blank same same_perm default_options default_blank default_options_fresh
    (fun q => In q answer_data) (list_dataset answer_data) 10 10 (iri "answer") [iri "http://q"]) as (f & F1 & F2 & _).
  - exact answer_enumerates.
  - vm_compute. reflexivity.
  - vm_compute. reflexivity.
  - exists f. split; [exact F1|exact F2].
Qed.

(** ** Out of the class *)

(** What C100 says of a registry, a layout, a dataset and inputs. *)
Definition written_back (reg : registry term) (ref : term) (data : list (quad term)) (inputs : list term) : Prop :=
  forall tv ds vals, hydrate (list_dataset data) reg 10 ref inputs = Ok tv ->
    dehydrate same reg 10 (into_untyped tv) ref default_options = Ok (ds, vals) ->
    exists f, renames_blanks f /\ (forall q, In q ds -> exists q0, In q0 data /\ normal_quad (rename_quad f q) q0).
(** The hypotheses of C100, but [plain_registry]. *)
Definition fine (reg : registry term) : Prop :=
  registry_sorted reg /\ forall r l b, reg r = Some l -> ~ mentions l (TmBlank b).

Lemma normal_iri t i : normal_term t (TmIri i) -> t = TmIri i.
Proof. intro H. inversion H. reflexivity. Qed.

(** A variable that is introduced by the record but only used in the fields stands for a node in each field; [dehydrate] writes one node. *)
Definition shared : registry term := fun r =>
  if eqb r (iri "shared") then Some (ProductL (Header 1 1 [])
    [(key "a", Field (Item 1 (VFormat (iri "text") [PVar 2] None) [Quad (PVar 1) (PRes (iri "a")) (PVar 2) None]) true);
     (key "b", Field (Item 1 (VFormat (iri "text") [PVar 2] None) [Quad (PVar 1) (PRes (iri "b")) (PVar 2) None]) true)])
  else if eqb r (iri "text") then Some (DataL (KTextString None) no_header (PVar 0) (iri xsd_string))
  else None.
Lemma shared_fine : fine shared.
Proof.
  split; intros r l; [|intro i]; intro H; unfold shared in H; (destruct (eqb r (iri "shared")); [injection H as <-|destruct (eqb r (iri "text")); [injection H as <-|discriminate H]]).
  - cbn. repeat constructor.
  - exact Logic.I.
  - intro M. no_blank_tac M.
  - intro M. no_blank_tac M.
Qed.
Definition shared_data : list (quad term) := [q3 (iri "http://x") "a" (text "1"); q3 (iri "http://y") "b" (text "2")].
Theorem C100_shared_refuted : fine shared /\ ~ written_back shared (iri "shared") shared_data [iri "http://z"].
Proof.
  split; [exact shared_fine|]. intro W. unfold written_back in W.
  edestruct W as (f & RB & F); [vm_compute; reflexivity|vm_compute; reflexivity|]. clear W.
  edestruct F as (q0 & H0 & N0 & N1 & _ ); [left; reflexivity|].
  edestruct F as (q1 & H1 & M0 & M1 & _ ); [right; left; reflexivity|].
  unfold rename_quad in *. cbn in *. rewrite RB in N1, M1 by discriminate.
  destruct H0 as [<-|[<-|[]]], H1 as [<-|[<-|[]]]; cbn in *; apply normal_iri in N0, M0, N1, M1; congruence.
Qed.

(** A value that is read in a named graph is written in the default graph. *)
Definition framed : registry term := fun r =>
  if eqb r (iri "framed") then Some (ProductL no_header
    [(key "a", Field (Item 1 (VFormat (iri "named") [PVar 1] (Some (Some (PRes (iri "g"))))) [Quad (PVar 0) (PRes (iri "a")) (PVar 1) None]) true)])
  else if eqb r (iri "named") then Some (ProductL no_header [(key "name", Field (prop "name" (iri "text")) true)])
  else if eqb r (iri "text") then Some (DataL (KTextString None) no_header (PVar 0) (iri xsd_string))
  else None.
Lemma framed_fine : fine framed.
Proof.
  split; intros r l; [|intro i]; intro H; unfold framed in H;
    (destruct (eqb r (iri "framed")); [injection H as <-|destruct (eqb r (iri "named")); [injection H as <-|destruct (eqb r (iri "text")); [injection H as <-|discriminate H]]]).
  - cbn. repeat constructor.
  - cbn. repeat constructor.
  - exact Logic.I.
  - intro M. no_blank_tac M.
  - intro M. no_blank_tac M.
  - intro M. no_blank_tac M.
Qed.
Definition framed_data : list (quad term) :=
  [q3 (iri "http://x") "a" (iri "http://y"); Quad (iri "http://y") (iri "name") (text "y") (Some (iri "g"))].
Theorem C100_graph_refuted : fine framed /\ ~ written_back framed (iri "framed") framed_data [iri "http://x"].
Proof.
  split; [exact framed_fine|]. intro W. unfold written_back in W.
  edestruct W as (f & RB & F); [vm_compute; reflexivity|vm_compute; reflexivity|]. clear W.
  edestruct F as (q0 & H0 & _ & N1 & _ & N3); [right; left; reflexivity|].
  unfold rename_quad in *. cbn in *. rewrite RB in N1 by discriminate.
  destruct H0 as [<-|[<-|[]]]; cbn in *; [apply normal_iri in N1; discriminate|inversion N3].
Qed.

(** The variants that refuse the value leave the quads of their header. *)
Definition choices : registry term := fun r =>
  if eqb r (iri "choice") then Some (SumL no_header [
      Variant "a" (self (VFormat (iri "A") [PVar 0] None));
      Variant "b" (self (VFormat (iri "B") [PVar 0] None))])
  else if eqb r (iri "A") then Some (ProductL (Header 1 0 [Quad (PVar 0) (PRes (iri "type")) (PRes (iri "A")) None])
    [(key "a", Field (prop "a" (iri "text")) true)])
  else if eqb r (iri "B") then Some (ProductL (Header 1 0 [Quad (PVar 0) (PRes (iri "type")) (PRes (iri "B")) None])
    [(key "b", Field (prop "b" (iri "text")) true)])
  else if eqb r (iri "text") then Some (DataL (KTextString None) no_header (PVar 0) (iri xsd_string))
  else None.
Lemma choices_fine : fine choices.
Proof.
  split; intros r l; [|intro i]; intro H; unfold choices in H;
    (destruct (eqb r (iri "choice")); [injection H as <-|destruct (eqb r (iri "A")); [injection H as <-|destruct (eqb r (iri "B")); [injection H as <-|
     destruct (eqb r (iri "text")); [injection H as <-|discriminate H]]]]).
  - exact Logic.I.
  - cbn. repeat constructor.
  - cbn. repeat constructor.
  - exact Logic.I.
  - intro M. no_blank_tac M.
  - intro M. no_blank_tac M.
  - intro M. no_blank_tac M.
  - intro M. no_blank_tac M.
Qed.
Definition choices_data : list (quad term) := [q3 (iri "http://x") "type" (iri "B"); q3 (iri "http://x") "b" (text "1")].
Theorem C100_choice_refuted : fine choices /\ ~ written_back choices (iri "choice") choices_data [iri "http://x"].
Proof.
  split; [exact choices_fine|]. intro W. unfold written_back in W.
  edestruct W as (f & RB & F); [vm_compute; reflexivity|vm_compute; reflexivity|]. clear W.
  edestruct F as (q0 & H0 & _ & N1 & N2 & _); [left; reflexivity|].
  unfold rename_quad in *. cbn in *. rewrite RB in N1, N2 by discriminate.
  destruct H0 as [<-|[<-|[]]]; cbn in *; apply normal_iri in N1; [apply normal_iri in N2|]; discriminate.
Qed.

Print Assumptions C100_written_back_partial.
Print Assumptions C100_part_of_dataset_partial.
Print Assumptions C100_shared_refuted.
Print Assumptions C100_graph_refuted.
Print Assumptions C100_choice_refuted.
