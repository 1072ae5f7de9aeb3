(** * Languages of automata *)

From Coq Require Import List Bool NArith Relations Sorted.
Import ListNotations.
From Verif Require Import Base BaseProofs CharModel CharSpec AutomatonModel.
Open Scope list_scope.

Section Nfa.
Context {Q : Type}.

(** There is a transition from [q] to [q'] labelled by [l] ([None]: epsilon). *)
Definition n_edge (a : nfa Q) (q : Q) (l : option charset) (q' : Q) : Prop :=
  exists ts qs, In (q, ts) (n_transitions a) /\ In (l, qs) ts /\ In q' qs.

Inductive n_run (a : nfa Q) : Q -> list N -> Q -> Prop :=
| nr_nil q : n_run a q [] q
| nr_epsilon q q' w r : n_edge a q None q' -> n_run a q' w r -> n_run a q w r
| nr_char q s c q' w r :
    n_edge a q (Some s) q' -> cs_mem c s = true -> n_run a q' w r -> n_run a q (c :: w) r.

Definition n_accepts (a : nfa Q) (w : list N) : Prop :=
  exists i f, In i (n_initial a) /\ In f (n_final a) /\ n_run a i w f.

(** The steps of a run: [Some c] reads a character, [None] follows an epsilon transition. *)
Inductive n_trace (a : nfa Q) : Q -> list (option N) -> Q -> Prop :=
| nt_nil q : n_trace a q [] q
| nt_epsilon q q' t r : n_edge a q None q' -> n_trace a q' t r -> n_trace a q (None :: t) r
| nt_char q s c q' t r :
    n_edge a q (Some s) q' -> cs_mem c s = true -> n_trace a q' t r -> n_trace a q (Some c :: t) r.

Definition n_accepts_trace (a : nfa Q) (t : list (option N)) : Prop :=
  exists i f, In i (n_initial a) /\ In f (n_final a) /\ n_trace a i t f.

(** The word read by these steps. *)
Fixpoint letters (t : list (option N)) : list N :=
  match t with [] => [] | None :: t => letters t | Some c :: t => c :: letters t end.

Context {CQ : Cmp Q}.

(** Well formed: the maps are maps, the ranges are not empty.  All the automata built through
    the API are. *)
Definition nfa_wf (a : nfa Q) : Prop :=
  bt_wf (n_transitions a) /\
  forall q ts, In (q, ts) (n_transitions a) ->
    bt_wf ts /\ forall s qs r, In (Some s, qs) ts -> In r s -> (fst r <= snd r)%N.

(** The labels are values of the type [RangeSet<char>]. *)
Definition labels_good (a : nfa Q) : Prop :=
  forall q ts s qs, In (q, ts) (n_transitions a) -> In (Some s, qs) ts -> cs_good s.

Definition epsilon_free (a : nfa Q) : Prop := forall q q', ~ n_edge a q None q'.
End Nfa.

Section Dfa.
Context {Q L C : Type}.
(** [has l c]: the label [l] contains the symbol [c]. *)
Variable has : L -> C -> Prop.

Definition d_edge (d : dfa Q L) (q : Q) (l : L) (q' : Q) : Prop :=
  exists ts, In (q, ts) (d_transitions d) /\ In (l, q') ts.

Inductive d_run (d : dfa Q L) : Q -> list C -> Q -> Prop :=
| dr_nil q : d_run d q [] q
| dr_char q l c q' w r : d_edge d q l q' -> has l c -> d_run d q' w r -> d_run d q (c :: w) r.

Definition d_accepts (d : dfa Q L) (w : list C) : Prop :=
  exists f, In f (d_final d) /\ d_run d (d_initial d) w f.

(** The labels of the transitions out of a state are disjoint. *)
Definition deterministic (d : dfa Q L) : Prop :=
  forall q l l' q' q'' c, d_edge d q l q' -> d_edge d q l' q'' -> has l c -> has l' c ->
    l = l' /\ q' = q''.

Context {CQ : Cmp Q} {CL : Cmp L}.
Definition dfa_wf (d : dfa Q L) : Prop :=
  bt_wf (d_transitions d) /\ forall q ts, In (q, ts) (d_transitions d) -> bt_wf ts.

(** Reachability *)
Definition d_reaches (d : dfa Q L) : Q -> Q -> Prop :=
  clos_refl_trans Q (fun q q' => exists l, d_edge d q l q').
End Dfa.

(** The label [r] of a determinized automaton contains the character [c]. *)
Definition range_has (r : N * N) (c : N) : Prop := (fst r <= c <= snd r)%N.

(** The table of the results of successive calls of a stateful function ([FnMut]): the keys it was called
    with and the values it returned, from the state [t] to the state [t']. *)
Inductive calls {E K V T : Type} (f : K -> T -> outcome E (V * T)) : T -> list (K * V) -> T -> Prop :=
| calls_nil t : calls f t [] t
| calls_cons k v t t1 m t2 : f k t = Ok (v, t1) -> calls f t1 m t2 -> calls f t ((k, v) :: m) t2.

(** ** Automata whose labels are read as strings ([compress]) *)
Section Strings.
Context {Q M C : Type}.
(** [reads m w]: the label [m] contains the string [w]. *)
Variable reads : M -> list C -> Prop.

Inductive s_run (c : dfa Q M) : Q -> list C -> Q -> Prop :=
| sr_nil q : s_run c q [] q
| sr_label q m q' w w' r : d_edge c q m q' -> reads m w -> s_run c q' w' r -> s_run c q (w ++ w') r.

Definition s_accepts (c : dfa Q M) (w : list C) : Prop :=
  exists f, In f (d_final c) /\ s_run c (d_initial c) w f.
End Strings.

(** ** Partitions of the states *)
Section Partition.
Context {Q L : Type} {CQ : Cmp Q}.

(** [p] is a partition of the states that satisfy [u]: non-empty sets of states, any two of them disjoint. *)
Record partition_of (u : Q -> Prop) (p : list (list Q)) : Prop := {
  po_sets : forall b, In b p -> StronglySorted lt b;
  po_ne : forall b, In b p -> b <> [];
  po_disjoint : forall b b' x, In b p -> In b' p -> In x b -> In x b' -> b = b';
  po_cover : forall x, u x <-> exists b, In b p /\ In x b
}.

(** The state [r] is reached from [q] by the labels [w]. *)
Definition label_run (d : dfa Q L) : Q -> list L -> Q -> Prop := d_run (fun l c => l = c) d.

(** No sequence of labels distinguishes [x] from [y], looking only at the block that is reached. *)
Definition indistinguishable (d : dfa Q L) (p : list (list Q)) (x y : Q) : Prop :=
  forall w b, In b p -> ((exists r, label_run d x w r /\ In r b) <-> (exists r, label_run d y w r /\ In r b)).
End Partition.
