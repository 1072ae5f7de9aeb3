(** * C118: examples of the errors of hydration *)

From Coq Require Import String List Bool Arith NArith ZArith QArith Qcanon Lia.
Import ListNotations.
From Verif Require Import Base BaseProofs Orders PatternModel MatchingModel MatchingSpec
  MatchingProofs ValueModel LayoutModel HydrateModel HydrateSpec HydrateSound FaultSpec FaultProofs FaultProperties
  TermModel HydrateExamples.
Open Scope list_scope.
Open Scope nat_scope.
Open Scope string_scope.

(** The registry of [HydrateExamples.v], with data where something is wrong two or three layouts away from the
    layout asked for. *)
Definition base_quads : list (quad term) := [
  Quad (iri "alice") (iri "name") (text "Alice") None;
  Quad (iri "alice") (iri "knows") (iri "bob") None;
  Quad (iri "alice") (iri "todo") (TmBlank "l1") None;
  Quad (TmBlank "l1") (iri "first") (text "read") None;
  Quad (TmBlank "l1") (iri "rest") (TmBlank "l2") None].

Definition run (qs : list (quad term)) : outcome (hy_error term) (typed_value term) :=
  hydrate (list_dataset qs) people_reg 10 (iri "person") [iri "alice"].

(** Bob has no name. *)
Example bob_unnamed : run base_quads = Err (MissingData (FKey (iri "friend") (key "name"))).
Proof. vm_compute. reflexivity. Qed.

Definition with_bob : list (quad term) := Quad (iri "bob") (iri "name") (text "Bob") None :: base_quads.

(** The list of tasks stops before its end. *)
Example list_broken : run with_bob = Err (MissingData (FOrderedListNode (iri "tasks") (TmBlank "l2") (iri "nil"))).
Proof. vm_compute. reflexivity. Qed.

(** The first node of the list has two next nodes. *)
Example list_forked : run (Quad (TmBlank "l1") (iri "rest") (iri "nil") None :: with_bob) =
  Err (DataAmbiguity (FOrderedListNode (iri "tasks") (TmBlank "l1") (iri "nil"))).
Proof. vm_compute. reflexivity. Qed.

(** A task that is not a text. *)
Example task_number : run (Quad (TmBlank "l2") (iri "rest") (iri "nil") None :: Quad (TmBlank "l2") (iri "first") (int "1") None :: with_bob) =
  Err NoMatchingLiteral.
Proof. vm_compute. reflexivity. Qed.

(** Two ages. *)
Example two_ages : run (Quad (iri "alice") (iri "age") (int "1") None :: Quad (iri "alice") (iri "age") (int "2") None :: with_bob) =
  Err (DataAmbiguity (FKey (iri "person") (key "age"))).
Proof. vm_compute. reflexivity. Qed.

(** What the theorems say of the first: there is a friend without name among the places asked for. *)
Example base_enumerates : enumerates (list_dataset base_quads) (fun q => In q base_quads).
Proof. apply list_dataset_enumerates. unfold base_quads. no_dup. Qed.

Example bob_told : exists g' ref' inputs',
  Asked (fun q => In q base_quads) people_reg None (iri "person") [iri "alice"] g' ref' inputs' /\
  Wrong (fun q => In q base_quads) people_reg g' ref' inputs' (MissingData (FKey (iri "friend") (key "name"))).
Proof. exact (C118_tells _ _ base_enumerates people_reg 10 None (iri "person") [iri "alice"] _ bob_unnamed). Qed.

(** And conversely, found by hand: the place of Bob, two steps away. *)
Example bob_place :
  Asked (fun q => In q base_quads) people_reg None (iri "person") [iri "alice"] None (iri "friend") [iri "bob"] /\
  Wrong (fun q => In q base_quads) people_reg None (iri "friend") [iri "bob"] (MissingData (FKey (iri "friend") (key "name"))).
Proof.
  assert (L1 : layout_for people_reg (iri "person") [iri "alice"] (ProductL no_header [
      (key "age", Field (prop "age" (iri "number")) false);
      (key "friends", Field (self (VFormat (iri "friends") [PVar 0] None)) true);
      (key "name", Field (prop "name" (iri "string")) true);
      (key "todo", Field (prop "todo" (iri "tasks")) false)])) by (split; [reflexivity|intros n [= <-]; reflexivity]).
  assert (L2 : layout_for people_reg (iri "friends") [iri "alice"] (UnorderedL no_header (prop "knows" (iri "friend"))))
    by (split; [reflexivity|intros n [= <-]; reflexivity]).
  assert (L3 : layout_for people_reg (iri "friend") [iri "bob"] (ProductL no_header [(key "name", Field (prop "name" (iri "string")) true)]))
    by (split; [reflexivity|intros n [= <-]; reflexivity]).
  assert (H : forall r, header_sol (fun q => In q base_quads) None no_header [r] [Some r]).
  { intros r. apply (the_solution_by_stream _ _ _ _ _ _ base_enumerates). reflexivity. }
  split.
  - eapply As_step; [|eapply As_step; [|apply As_here]].
    + eapply (Co_field _ _ _ _ _ None (iri "friends") [iri "alice"] no_header _ [Some (iri "alice")]).
      * split; [exact L1|]. exists no_header. split; [reflexivity|apply H].
      * right. now left.
      * apply (the_solution_by_stream _ _ _ _ _ _ base_enumerates). vm_compute. reflexivity.
      * split; [reflexivity|]. split; [|reflexivity]. repeat constructor.
    + eapply (Co_item _ _ _ _ _ None (iri "friend") [iri "bob"] no_header _ [Some (iri "alice")] [Some (iri "alice"); Some (iri "bob")]).
      * split; [exact L2|]. exists no_header. split; [reflexivity|apply H].
      * refine (stream_sound (list_dataset base_quads) _ base_enumerates _ _ _ _). vm_compute. now left.
      * split; [reflexivity|]. split; [|reflexivity]. repeat constructor.
  - eapply (W_required _ _ _ _ _ no_header _ [Some (iri "bob")] _ (Field (prop "name" (iri "string")) true)).
    + split; [exact L3|]. exists no_header. split; [reflexivity|apply H].
    + now left.
    + reflexivity.
    + apply (no_solution_by_stream (list_dataset base_quads) _ _ _ _ base_enumerates). vm_compute. reflexivity.
Qed.

(** Nothing is wrong with the data of [HydrateExamples.v]. *)
Example people_fine g' ref' inputs' e :
  Asked (fun q => In q people_quads) people_reg None (iri "person") [iri "alice"] g' ref' inputs' ->
  ~ Wrong (fun q => In q people_quads) people_reg g' ref' inputs' e.
Proof.
  destruct (hydrate people_data people_reg 10 (iri "person") [iri "alice"]) as [v|e'|w|] eqn:E; [|exfalso; vm_compute in E; discriminate E..].
  exact (C118_value _ _ people_enumerates people_reg 10 None (iri "person") [iri "alice"] v people_sorted E g' ref' inputs' e).
Qed.

(** A sum whose variant may be understood in two ways; the failure of its second variant, which is not defined,
    is not the error. *)
Definition choice : layouts term := [
  (iri "choice", SumL (Header 1 1 []) [
     Variant "a" (Item 0 (VFormat (iri "missing") [PVar 1] None) [Quad (PVar 0) (PRes (iri "p")) (PVar 1) None]);
     Variant "b" (Item 0 (VFormat (iri "string") [PVar 1] None) [Quad (PVar 0) (PRes (iri "q")) (PVar 1) None])])].
Definition choice_quads : list (quad term) := [
  Quad (iri "x") (iri "p") (text "0") None; Quad (iri "x") (iri "q") (text "1") None; Quad (iri "x") (iri "q") (text "2") None].
Example choice_runs : hydrate (list_dataset choice_quads) (layouts_get choice) 10 (iri "choice") [iri "x"] = Err (DataAmbiguity (FVariant (iri "choice") "b")).
Proof. vm_compute. reflexivity. Qed.
Example choice_told : Wrong (fun q => In q choice_quads) (layouts_get choice) None (iri "choice") [iri "x"] (DataAmbiguity (FVariant (iri "choice") "b")).
Proof.
  refine (C118_sum (list_dataset choice_quads) _ _ (layouts_get choice) 10 None (iri "choice") [iri "x"] _ _ _ _ choice_runs).
  - apply list_dataset_enumerates. unfold choice_quads. no_dup.
  - reflexivity.
Qed.

Print Assumptions C118_tells.
Print Assumptions C118_value.
Print Assumptions C118_reported.
Print Assumptions C118_sum.
