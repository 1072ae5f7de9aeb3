(** * Witnesses for the properties of registries (C49, C50, C51) *)

From Coq Require Import String List Bool Arith NArith Sorted.
Import ListNotations.
From Verif Require Import Base BaseProofs PatternModel ValueModel LayoutModel LayoutSpec
  RegistryProperties.
Open Scope list_scope.

(** Two registries defining the reference 1 differently; 2 and 3 are defined by one only. *)
Definition reg_a : registry nat := layouts_get [(1, Always); (2, Never)].
Definition reg_b : registry nat := layouts_get [(1, Never); (3, Always)].

Example C49_witness :
  map (union_get (reg_with reg_a reg_b)) [1; 2; 3; 4] =
  [Some Always; Some Never; Some Always; None].
Proof. reflexivity. Qed.

(** A history giving two definitions to the reference 2. *)
Definition history : list (nat * layout nat) :=
  [(2, Always); (1, Never); (2, Never); (3, Always)].

Example C50_witness :
  insertions history [] =
  ([(1, Never); (2, Never); (3, Always)], [None; None; Some Always; None]) /\
  latest history 2 (Some Never) /\ latest history 4 None.
Proof.
  split; [reflexivity|]. split.
  - apply (latest_some _ _ [(2, Always); (1, Never)] Never [(3, Always)]); [reflexivity|].
    cbn. intros [H|[]]. discriminate H.
  - constructor. cbn. intros [H|[H|[H|[H|[]]]]]; discriminate H.
Qed.

(** A tuple using the references 5, 2 and 5. *)
Definition item_of (r : nat) : item_layout nat := Item 1 (VFormat r [PVar 1] None) [].
Definition tuple_layout : layout nat :=
  SizedL (Header 1 0 []) [item_of 5; item_of 2; item_of 5].

Example C51_witness : dependencies tuple_layout = [2; 5] /\ uses tuple_layout 5.
Proof.
  split; [reflexivity|]. apply (U_tuple _ _ (item_of 5)). now left.
Qed.

Print Assumptions C49_union_get.
Print Assumptions C49_union_contains.
Print Assumptions C49_optional.
Print Assumptions C49_chain.
Print Assumptions C50_insert.
Print Assumptions C50_history.
Print Assumptions C50_returned.
Print Assumptions C50_iter.
Print Assumptions C51_dependencies_sorted.
Print Assumptions C51_dependencies_exact.
