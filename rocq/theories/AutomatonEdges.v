(** * Building automata: the transitions and states added (C65) *)

From Coq Require Import List Bool NArith.
Import ListNotations.
From Verif Require Import Base BaseProofs Orders CharModel CharSpec CharProofs AutomatonModel AutomatonSpec AutomatonProofs AutomatonTerm
  AutomatonMap AutomatonProperties.
Open Scope list_scope.

Section Edges.
Context {Q : Type} {CQ : Cmp Q} {LQ : CmpLaws Q}.

Lemma entry_cases {K V} `{CmpLaws K} (k : K) (d : V) m : entry k d m = d \/ In (k, entry k d m) m.
Proof. unfold entry. destruct (bt_get k m) as [v|] eqn:E; [right; now apply bt_get_In|now left]. Qed.

Lemma edge_entry (a : nfa Q) p l q : nfa_wf a ->
  (n_edge a p l q <-> In q (entry l [] (entry p [] (n_transitions a)))).
Proof.
  intros [W1 W2]. split.
  - intros (ts & qs & H1 & H2 & H3). rewrite (entry_In _ _ _ _ W1 H1). now rewrite (entry_In _ _ _ _ (proj1 (W2 _ _ H1)) H2).
  - intro H. destruct (entry_cases p [] (n_transitions a)) as [E|E]; [rewrite E in H; destruct H|].
    destruct (entry_cases l [] (entry p [] (n_transitions a))) as [E'|E']; [rewrite E' in H; destruct H|].
    exists (entry p [] (n_transitions a)), (entry l [] (entry p [] (n_transitions a))). auto.
Qed.

Lemma entry_insert {K V} `{CmpLaws K} (k k' : K) (d v : V) m :
  entry k d (bt_insert k' v m) = if eqb k k' then v else entry k d m.
Proof. unfold entry. rewrite bt_insert_get. now destruct (eqb k k'). Qed.

Lemma declare_entry (a : nfa Q) p q : entry p [] (n_transitions (declare_state q a)) = entry p [] (n_transitions a).
Proof. cbn [declare_state n_transitions]. rewrite entry_insert. destruct (eqb_spec p q) as [->|N]; reflexivity. Qed.

Lemma nfa_add_edge (a : nfa Q) s l t p l' q : nfa_wf a ->
  (In q (entry l' [] (entry p [] (n_transitions (nfa_add s l t a)))) <->
   In q (entry l' [] (entry p [] (n_transitions a))) \/ (p = s /\ l' = l /\ q = t)).
Proof.
  intro W. unfold nfa_add. cbn [n_transitions]. rewrite entry_insert. destruct (eqb_spec p s) as [->|N].
  - rewrite entry_insert. rewrite declare_entry. destruct (eqb_spec l' l) as [->|N].
    + rewrite set_insert_In. intuition congruence.
    + intuition congruence.
  - rewrite declare_entry. intuition congruence.
Qed.
End Edges.

(** ** C65 — the construction API adds exactly what it is asked to *)
Section C65.
Context {Q : Type} {CQ : Cmp Q} {LQ : CmpLaws Q}.

Theorem C65_new p l (q : Q) : ~ n_edge nfa_new p l q.
Proof. intros (ts & qs & [] & _). Qed.

Theorem C65_declare_state (a : nfa Q) s p l q : nfa_wf a -> (n_edge (declare_state s a) p l q <-> n_edge a p l q).
Proof. intro W. rewrite (edge_entry _ _ _ _ W), (edge_entry _ _ _ _ (declare_wf s a W)), declare_entry. reflexivity. Qed.

(** A transition is added, the others are kept. *)
Theorem C65_add (a : nfa Q) s l t p l' q : nfa_wf a -> (forall c, l = Some c -> cs_good c) ->
  (n_edge (nfa_add s l t a) p l' q <-> n_edge a p l' q \/ (p = s /\ l' = l /\ q = t)).
Proof.
  intros W G. rewrite (edge_entry _ _ _ _ W), edge_entry; [now apply nfa_add_edge|].
  destruct (C33_well_formed (Q := Q)) as (_ & _ & A & _). now apply A.
Qed.

(** Both ends of the transition are states of the automaton. *)
Theorem C65_add_states (a : nfa Q) s l t q : nfa_wf a ->
  (In q (keys (n_transitions (nfa_add s l t a))) <-> In q (keys (n_transitions a)) \/ q = s \/ q = t).
Proof.
  intro W. unfold nfa_add. cbn [n_transitions]. rewrite bt_insert_keys. cbn [declare_state n_transitions]. rewrite bt_insert_keys. tauto.
Qed.

Theorem C65_initial_final (a : nfa Q) q r :
  (In r (n_initial (add_initial_state q a)) <-> r = q \/ In r (n_initial a)) /\
  (In r (n_final (add_final_state q a)) <-> r = q \/ In r (n_final a)) /\
  n_final (add_initial_state q a) = n_final a /\ n_initial (add_final_state q a) = n_initial a /\
  (forall p l t, n_edge (add_initial_state q a) p l t <-> n_edge a p l t) /\
  (forall p l t, n_edge (add_final_state q a) p l t <-> n_edge a p l t) /\
  (forall s l t, n_initial (nfa_add s l t a) = n_initial a /\ n_final (nfa_add s l t a) = n_final a).
Proof.
  split; [apply set_insert_In|]. split; [apply set_insert_In|]. split; [reflexivity|]. split; [reflexivity|].
  split; [intros; reflexivity|]. split; [intros; reflexivity|]. split; reflexivity.
Qed.

(** In a deterministic automaton, a transition replaces the one of the same label. *)
Context {L : Type} {CL : Cmp L} {LL : CmpLaws L}.
Theorem C65_det_add (d : dfa Q L) s l t p l' q : dfa_wf d ->
  dfa_wf (dfa_add s l t d) /\
  (d_edge (dfa_add s l t d) p l' q <-> (p = s /\ l' = l /\ q = t) \/ (~ (p = s /\ l' = l) /\ d_edge d p l' q)).
Proof. intro W. split; [now apply dfa_add_wf|]. now apply dfa_add_edge. Qed.
End C65.

(** Witness: two transitions of the same label from the same state. *)
Definition fork : nfa nat := nfa_add 0 (Some (cs_char 97)) 2 (nfa_add 0 (Some (cs_char 97)) 1 nfa_new).
Example C65_example :
  nfa_wf fork /\ n_edge fork 0 (Some (cs_char 97)) 1 /\ n_edge fork 0 (Some (cs_char 97)) 2 /\ keys (n_transitions fork) = [0; 1; 2].
Proof.
  destruct (C33_well_formed (Q := nat)) as (W0 & _ & A & _).
  assert (G : forall c, Some (cs_char 97) = Some c -> cs_good c) by (intros c [= <-]; now apply cs_char_good).
  assert (W1 := A nfa_new 0 (Some (cs_char 97)) 1 W0 G). split; [exact (A _ 0 _ 2 W1 G)|]. split; [|split; [|vm_compute; reflexivity]].
  - apply (C65_add _ _ _ _ _ _ _ W1 G). left. apply (C65_add _ _ _ _ _ _ _ W0 G). now right.
  - apply (C65_add _ _ _ _ _ _ _ W1 G). now right.
Qed.

Print Assumptions C65_add.
Print Assumptions C65_det_add.
