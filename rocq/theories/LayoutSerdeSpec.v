(** * Specification of the round trip of compiled layouts through serde (C106) *)

From Coq Require Import String List Bool Arith NArith ZArith QArith Qcanon Sorting.Sorted.
Import ListNotations.
From Verif Require Import Base BaseProofs Orders PatternModel ValueModel LayoutModel HydrateModel JsonModel JsonSpec
  JsonProperties AutomatonModel AutomatonSpec LayoutSerdeModel.
Open Scope list_scope.
Open Scope nat_scope.

(** ** What is in a layout *)
Section Parts.
Context {R : Type}.

Definition header_of (l : layout R) : option (header R) :=
  match l with
  | Never | Always => None
  | UnitL h _ | DataL _ h _ _ | IdL h _ _ | ProductL h _ | SumL h _ | UnorderedL h _ | OrderedL h _ _ _ | SizedL h _ => Some h
  end.

Definition items_of (l : layout R) : list (item_layout R) :=
  match l with
  | Never | Always | UnitL _ _ | DataL _ _ _ _ | IdL _ _ _ => []
  | ProductL _ fields => map (fun e => f_item (snd e)) fields
  | SumL _ variants => map va_item variants
  | UnorderedL _ it | OrderedL _ it _ _ => [it]
  | SizedL _ items => items
  end.

(** The values written in the layout: constants and keys. *)
Definition values_of (l : layout R) : list value :=
  match l with
  | UnitL _ c => [c]
  | ProductL _ fields => map fst fields
  | _ => []
  end.

(** The regular expressions, compiled. *)
Definition automata_of (l : layout R) : list (det_automaton nat) :=
  match l with
  | DataL (KTextString (Some d)) _ _ _ | IdL _ _ (Some d) => [d]
  | _ => []
  end.

(** The patterns outside of the datasets. *)
Definition patterns_of (l : layout R) : list (pattern R) :=
  match l with
  | DataL _ _ p _ | IdL _ p _ => [p]
  | OrderedL _ _ head tail => [head; tail]
  | _ => []
  end ++
  flat_map (fun it => vf_input (it_value it) ++
                      match vf_graph (it_value it) with Some (Some p) => [p] | _ => [] end) (items_of l).

Definition datasets_of (l : layout R) : list (list (qpat R)) :=
  match header_of l with Some h => [h_dataset h] | None => [] end ++ map it_dataset (items_of l).

(** The numbers of inputs and of variables introduced. *)
Definition counts_of (l : layout R) : list nat :=
  match header_of l with Some h => [h_input h; h_intro h] | None => [] end ++ map it_intro (items_of l).
End Parts.

(** ** Values of the types of the code *)

(** An automaton: its sets and maps are sorted, its states are [usize]s. *)
Definition automaton_ok (d : det_automaton nat) : Prop :=
  StronglySorted lt (da_final d) /\
  dfa_wf (Dfa (da_initial d) (da_final d) (da_transitions d)) /\
  (forall q, q = da_initial d \/ In q (da_final d) -> (Z.of_nat q < 2 ^ 64)%Z) /\
  (forall q l r, d_edge (Dfa (da_initial d) (da_final d) (da_transitions d)) q l r ->
     (Z.of_nat q < 2 ^ 64)%Z /\ (Z.of_nat r < 2 ^ 64)%Z).

Section Layouts.
Context {R F : Type} {CR : Cmp R} {SE : SerdeExternal R F} (to_f64 : Qc -> F) (from_f64 : F -> option Qc).
(** The lists that are datasets. *)
Variable is_dataset : list (qpat R) -> Prop.

(** The external implementations read what they write. *)
Definition faithful : Prop :=
  (forall r : R, get_resource (put_resource r) = Ok r) /\
  (forall r : range, get_range (put_range r) = Ok r) /\
  (forall d, is_dataset d -> get_dataset (put_dataset d) = Ok d).

(** The numbers of a layout are [u32]s; its maps are sorted; the numbers in its constants and its keys are read back
    (see [C68_serde_round_trip_partial]); only layouts with a structure have extra properties. *)
Record writable (l : layout R) (extra : list (R * R)) : Prop := {
  wr_counts : forall n, In n (counts_of l) -> (Z.of_nat n < 2 ^ 32)%Z;
  wr_vars : forall x, In (PVar x) (patterns_of l) -> (Z.of_nat x < 2 ^ 32)%Z;
  wr_datasets : forall d, In d (datasets_of l) -> is_dataset d;
  wr_values : forall v, In v (values_of l) -> value_wf v /\ Numbers (native_exact to_f64 from_f64) v;
  wr_fields : forall h fields, l = ProductL h fields -> bt_wf fields;
  wr_automata : forall d, In d (automata_of l) -> automaton_ok d;
  wr_extra : bt_wf extra;
  wr_none : l = Never \/ l = Always -> extra = []
}.
End Layouts.

(** ** Comparing layouts

    [same graph automaton l l']: the layouts are the same, except that the graphs of their formats are in the relation
    [graph] and their automata in the relation [automaton]. *)
Section Same.
Context {R : Type}.
Variable graph : option (option (pattern R)) -> option (option (pattern R)) -> Prop.
Variable automaton : det_automaton nat -> det_automaton nat -> Prop.

Definition same_format (f f' : vformat R) : Prop :=
  vf_layout f = vf_layout f' /\ vf_input f = vf_input f' /\ graph (vf_graph f) (vf_graph f').
Definition same_item (i i' : item_layout R) : Prop :=
  it_intro i = it_intro i' /\ same_format (it_value i) (it_value i') /\ it_dataset i = it_dataset i'.
Definition same_field (f f' : value * field R) : Prop :=
  fst f = fst f' /\ same_item (f_item (snd f)) (f_item (snd f')) /\ f_required (snd f) = f_required (snd f').
Definition same_variant (v v' : variant R) : Prop :=
  va_name v = va_name v' /\ same_item (va_item v) (va_item v').
Definition same_pattern (p p' : option (det_automaton nat)) : Prop :=
  match p, p' with
  | None, None => True
  | Some d, Some d' => automaton d d'
  | _, _ => False
  end.

Inductive same : layout R -> layout R -> Prop :=
| same_never : same Never Never
| same_always : same Always Always
| same_unit h c : same (UnitL h c) (UnitL h c)
| same_data k h r d : (forall p, k <> KTextString p) -> same (DataL k h r d) (DataL k h r d)
| same_text p p' h r d : same_pattern p p' -> same (DataL (KTextString p) h r d) (DataL (KTextString p') h r d)
| same_id h r p p' : same_pattern p p' -> same (IdL h r p) (IdL h r p')
| same_product h fs fs' : Forall2 same_field fs fs' -> same (ProductL h fs) (ProductL h fs')
| same_sum h vs vs' : Forall2 same_variant vs vs' -> same (SumL h vs) (SumL h vs')
| same_unordered h i i' : same_item i i' -> same (UnorderedL h i) (UnorderedL h i')
| same_ordered h i i' a b : same_item i i' -> same (OrderedL h i a b) (OrderedL h i' a b)
| same_sized h l l' : Forall2 same_item l l' -> same (SizedL h l) (SizedL h l').
End Same.

(** The graph, with the default graph forgotten: "in the default graph" has become "in the current graph". *)
Definition without_default {R} (g g' : option (option (pattern R))) : Prop :=
  match g with
  | Some None => g' = None
  | g => g' = g
  end.

(** The automata have the same initial state, final states and transitions, and so accept the same texts.  They may not be
    equal: a state without transitions may be declared or not. *)
Definition same_language (d d' : det_automaton nat) : Prop :=
  da_initial d' = da_initial d /\ da_final d' = da_final d /\
  let dfa_of := fun d => Dfa (da_initial d) (da_final d) (da_transitions d) in
  (forall q l r, d_edge (dfa_of d') q l r <-> d_edge (dfa_of d) q l r) /\
  (forall w, d_accepts range_has (dfa_of d') w <-> d_accepts range_has (dfa_of d) w).
