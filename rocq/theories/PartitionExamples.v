(** * Partitions of the states of an automaton: cases and assumptions (C113) *)

From Coq Require Import String List Bool Arith NArith Lia Sorted Relations.
Import ListNotations.
From Verif Require Import Base BaseProofs Orders CharModel AutomatonModel AutomatonSpec AutomatonProofs AutomatonMap AutomatonMin AutomatonProperties AutomatonExamples
  PartitionModel PartitionProperties.
Open Scope list_scope.

Definition final_of (d : dfa nat nat) (q : nat) : bool := mem q (d_final d).

(** Four states, two of them equivalent; and a cycle. *)
Definition classes4 : list (bool * list nat) := [(false, [0; 1; 2]); (true, [3])].
Example partition4 : partition 100 dfa4 (final_of dfa4) = Ok classes4 /\ blocks classes4 = part4.
Proof. split; vm_compute; reflexivity. Qed.
Example partition_cycle : partition 100 (dfa_add_final_state 1 (dfa_add 1 0 0 (dfa_add 0 0 1 (dfa_new 0)))) (fun q => q) = Ok [(0, [0]); (1, [1])].
Proof. vm_compute. reflexivity. Qed.
Example minimize4 : minimize 100 dfa4 (blocks classes4) = Ok min4 /\
  forall w, d_accepts (fun l c => l = c) dfa4 w <->
    exists b, d_run (fun l c => l = c) min4 (d_initial min4) w b /\ exists q, In q b /\ In q (d_final dfa4).
Proof.
  assert (E : minimize 100 dfa4 (blocks classes4) = Ok min4) by (vm_compute; reflexivity). split; [exact E|].
  apply (C113_minimize_partial dfa4 dfa4_wf (final_of dfa4) (fun l c => l = c) 100 100 classes4 min4 (proj1 partition4) E dfa4_det).
  intros q r F I. apply mem_In in I. apply mem_In. unfold final_of in F. congruence.
Qed.

(** The error of a state that can be reached; the state 9 cannot be. *)
Example partition_error : try_partition 100 (dfa_add 9 0 0 dfa4) (fun q => if q =? 2 then inl "two"%string else inr true) = Err "two"%string.
Proof. vm_compute. reflexivity. Qed.
Example partition_no_error : try_partition 100 (dfa_add 9 0 0 dfa4) (fun q => if q =? 9 then inl "nine"%string else inr true) = Ok [(true, [0; 1; 2; 3])].
Proof. vm_compute. reflexivity. Qed.

(** [partition] only has the reachable states, [minimize] needs the sources of all the transitions: with the classes of the former, the latter
    panics on an automaton with a transition that cannot be reached. *)
Theorem C113_unreachable_refuted : exists (d : dfa nat nat) m,
  dfa_wf d /\ deterministic (fun l c => l = c) d /\ partition 100 d (final_of d) = Ok m /\
  minimize 100 d (blocks m) = Panic "minimize: map[q]" /\ forall fuel mini, minimize fuel d (blocks m) <> Ok mini.
Proof.
  pose (d := dfa_add 9 0 0 dfa4). assert (W : dfa_wf d) by (now apply dfa_add_wf, dfa4_wf).
  exists d, classes4. split; [exact W|]. split.
  { intros q l l' q' q'' c H1 H2 E1 E2. assert (E : l' = l) by congruence. rewrite E in H2. split; [now symmetry|]. exact (edge_fun d W q l q' q'' H1 H2). }
  assert (P : partition 100 d (final_of d) = Ok classes4) by (vm_compute; reflexivity). split; [exact P|]. split; [vm_compute; reflexivity|].
  intros fuel mini M. assert (R : d_reaches d (d_initial d) 9).
  { apply (proj1 (C113_minimize_succeeds d W (final_of d) 100 classes4 P)) with (l := 0) (r := 0); [eauto|].
    apply dfa_add_edge; [apply dfa4_wf|]. left. auto. }
  apply (po_cover _ _ (proj1 (C113_partition d W (final_of d) 100 classes4 P))) in R as (b & [<-|[<-|[]]] & X); vm_compute in X; intuition discriminate.
Qed.

Print Assumptions C113_classes.
Print Assumptions C113_fails.
Print Assumptions C113_total.
Print Assumptions C113_partition.
Print Assumptions C113_partition_total.
Print Assumptions C113_minimize_succeeds.
Print Assumptions C113_minimize_partial.
Print Assumptions C113_unreachable_refuted.
