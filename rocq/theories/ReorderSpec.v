(** * Layouts that differ by the order of their patterns (C107)

    Only the data types of the model are used. *)

From Coq Require Import String List Bool Arith.
Import ListNotations.
From Verif Require Import Base PatternModel ValueModel LayoutModel.
Open Scope list_scope.
Open Scope nat_scope.

Section Reordered.
Context {R : Type}.

(** The same patterns, in another order and repeated or not. *)
Definition same_patterns (ps ps' : list (qpat R)) : Prop := forall p, In p ps <-> In p ps'.

Definition reordered_header (h h' : header R) : Prop :=
  h_input h = h_input h' /\ h_intro h = h_intro h' /\ same_patterns (h_dataset h) (h_dataset h').

Definition reordered_item (i i' : item_layout R) : Prop :=
  it_intro i = it_intro i' /\ it_value i = it_value i' /\ same_patterns (it_dataset i) (it_dataset i').

Definition reordered_field (f f' : value * field R) : Prop :=
  fst f = fst f' /\ reordered_item (f_item (snd f)) (f_item (snd f')) /\
  f_required (snd f) = f_required (snd f').

Definition reordered_variant (v v' : variant R) : Prop :=
  va_name v = va_name v' /\ reordered_item (va_item v) (va_item v').

(** The same layout, the patterns of its datasets being listed in another order. *)
Inductive reordered : layout R -> layout R -> Prop :=
| re_never : reordered Never Never
| re_always : reordered Always Always
| re_unit h h' c : reordered_header h h' -> reordered (UnitL h c) (UnitL h' c)
| re_data k h h' r d : reordered_header h h' -> reordered (DataL k h r d) (DataL k h' r d)
| re_id h h' r p : reordered_header h h' -> reordered (IdL h r p) (IdL h' r p)
| re_product h h' fs fs' : reordered_header h h' -> Forall2 reordered_field fs fs' ->
    reordered (ProductL h fs) (ProductL h' fs')
| re_sum h h' vs vs' : reordered_header h h' -> Forall2 reordered_variant vs vs' ->
    reordered (SumL h vs) (SumL h' vs')
| re_unordered h h' i i' : reordered_header h h' -> reordered_item i i' ->
    reordered (UnorderedL h i) (UnorderedL h' i')
| re_ordered h h' i i' a b : reordered_header h h' -> reordered_item i i' ->
    reordered (OrderedL h i a b) (OrderedL h' i' a b)
| re_sized h h' l l' : reordered_header h h' -> Forall2 reordered_item l l' ->
    reordered (SizedL h l) (SizedL h' l').

(** The same layouts under the same names, with their patterns in another order. *)
Definition reordered_registry (reg reg' : registry R) : Prop := forall r,
  match reg r, reg' r with
  | None, None => True
  | Some l, Some l' => reordered l l'
  | _, _ => False
  end.
End Reordered.
