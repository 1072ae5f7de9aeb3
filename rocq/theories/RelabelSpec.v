(** * Renaming layouts (C110): specification

    [N r r']: the reference [r] of the first registry and the reference [r'] of the second one name the same layout.  Any relation:
    not only a bijection.  Layouts are only related to layouts: the resources of the patterns are the same on both sides. *)

From Coq Require Import String List Bool Arith NArith Permutation.
Import ListNotations.
From Verif Require Import Base PatternModel ValueModel LayoutModel LayoutSpec HydrateModel TermModel DehydrateModel.
Open Scope list_scope.
Open Scope nat_scope.

Section Rename.
Context {R : Type} (N : R -> R -> Prop).

(** ** Layouts *)
Definition renamed_format (f f' : vformat R) : Prop :=
  N (vf_layout f) (vf_layout f') /\ vf_input f = vf_input f' /\ vf_graph f = vf_graph f'.
Definition renamed_item (i i' : item_layout R) : Prop :=
  it_intro i = it_intro i' /\ renamed_format (it_value i) (it_value i') /\ it_dataset i = it_dataset i'.
Definition renamed_field (f f' : value * field R) : Prop :=
  fst f = fst f' /\ renamed_item (f_item (snd f)) (f_item (snd f')) /\ f_required (snd f) = f_required (snd f').
Definition renamed_variant (v v' : variant R) : Prop := va_name v = va_name v' /\ renamed_item (va_item v) (va_item v').

Inductive renamed_layout : layout R -> layout R -> Prop :=
| rl_never : renamed_layout Never Never
| rl_always : renamed_layout Always Always
| rl_unit h c : renamed_layout (UnitL h c) (UnitL h c)
| rl_data k h res dt : renamed_layout (DataL k h res dt) (DataL k h res dt)
| rl_id h res pat : renamed_layout (IdL h res pat) (IdL h res pat)
| rl_product h fs fs' : Forall2 renamed_field fs fs' -> renamed_layout (ProductL h fs) (ProductL h fs')
| rl_sum h vs vs' : Forall2 renamed_variant vs vs' -> renamed_layout (SumL h vs) (SumL h vs')
| rl_set h it it' : renamed_item it it' -> renamed_layout (UnorderedL h it) (UnorderedL h it')
| rl_list h n n' hd tl : renamed_item n n' -> renamed_layout (OrderedL h n hd tl) (OrderedL h n' hd tl)
| rl_tuple h its its' : Forall2 renamed_item its its' -> renamed_layout (SizedL h its) (SizedL h its').

(** Layouts with the same name have the same definition, up to the names. *)
Definition renamed_registry (reg reg' : registry R) : Prop :=
  forall r r', N r r' ->
    match reg r, reg' r' with
    | Some l, Some l' => renamed_layout l l'
    | None, None => True
    | _, _ => False
    end.

(** ** Values *)
Inductive renamed_literal : typed_literal R -> typed_literal R -> Prop :=
| rt_unit v r r' : N r r' -> renamed_literal (TUnit v r) (TUnit v r')
| rt_bool b r r' : N r r' -> renamed_literal (TBool b r) (TBool b r')
| rt_num n r r' : N r r' -> renamed_literal (TNum n r) (TNum n r')
| rt_bytes s r r' : N r r' -> renamed_literal (TBytes s r) (TBytes s r')
| rt_text s r r' : N r r' -> renamed_literal (TText s r) (TText s r')
| rt_id s r r' : N r r' -> renamed_literal (TId s r) (TId s r').

(** The same value, up to the names, and to the order of the items of the lists of the layouts [loose]. *)
Inductive renamed_value (loose : R -> Prop) : typed_value R -> typed_value R -> Prop :=
| rv_literal t t' : renamed_literal t t' -> renamed_value loose (TLit t) (TLit t')
| rv_variant v v' r r' i : renamed_value loose v v' -> N r r' -> renamed_value loose (TVariant v r i) (TVariant v' r' i)
| rv_record m m' r r' :
    Forall2 (fun e e' => fst e = fst e' /\ renamed_value loose (snd e) (snd e')) m m' -> N r r' ->
    renamed_value loose (TMap m r) (TMap m' r')
| rv_list l l' r r' : Forall2 (renamed_value loose) l l' -> N r r' -> renamed_value loose (TList l r) (TList l' r')
| rv_set l l1 l' r r' :
    loose r -> Permutation l l1 -> Forall2 (renamed_value loose) l1 l' -> N r r' ->
    renamed_value loose (TList l r) (TList l' r')
| rv_always v : renamed_value loose (TAlways v) (TAlways v).

(** ** Errors *)
Inductive renamed_fragment : fragment R -> fragment R -> Prop :=
| rf_discriminant r r' : N r r' -> renamed_fragment (FDiscriminant r) (FDiscriminant r')
| rf_variant r r' n : N r r' -> renamed_fragment (FVariant r n) (FVariant r' n)
| rf_key r r' k : N r r' -> renamed_fragment (FKey r k) (FKey r' k)
| rf_node r r' h t : N r r' -> renamed_fragment (FOrderedListNode r h t) (FOrderedListNode r' h t)
| rf_item r r' i : N r r' -> renamed_fragment (FSizedListItem r i) (FSizedListItem r' i).
Inductive renamed_hy_error : hy_error R -> hy_error R -> Prop :=
| rh_incompatible : renamed_hy_error IncompatibleLayout IncompatibleLayout
| rh_inputs e f : renamed_hy_error (InvalidInputCount e f) (InvalidInputCount e f)
| rh_ambiguity f f' : renamed_fragment f f' -> renamed_hy_error (DataAmbiguity f) (DataAmbiguity f')
| rh_missing f f' : renamed_fragment f f' -> renamed_hy_error (MissingData f) (MissingData f')
| rh_datatype i : renamed_hy_error (UnknownNumberDatatype i) (UnknownNumberDatatype i)
| rh_literal : renamed_hy_error NoMatchingLiteral NoMatchingLiteral
| rh_layout r r' : N r r' -> renamed_hy_error (LayoutNotFound r) (LayoutNotFound r').
Inductive renamed_de_error : de_error R -> de_error R -> Prop :=
| rd_incompatible : renamed_de_error DIncompatibleLayout DIncompatibleLayout
| rd_inputs e f : renamed_de_error (DInvalidInputCount e f) (DInvalidInputCount e f)
| rd_variable x : renamed_de_error (DUndeclaredVariable x) (DUndeclaredVariable x)
| rd_ambiguity : renamed_de_error DDataAmbiguity DDataAmbiguity
| rd_term a b : renamed_de_error (DTermAmbiguity a b) (DTermAmbiguity a b)
| rd_layout r r' : N r r' -> renamed_de_error (DLayoutNotFound r) (DLayoutNotFound r')
| rd_key r r' k m : N r r' -> renamed_de_error (DMissingRequiredKey r k m) (DMissingRequiredKey r' k m).
End Rename.

(** The same outcome, up to the errors and the results. *)
Definition renamed_outcome {E E' A A'} (PE : E -> E' -> Prop) (PA : A -> A' -> Prop) (o : outcome E A) (o' : outcome E' A') : Prop :=
  match o, o' with
  | Ok a, Ok a' => PA a a'
  | Err e, Err e' => PE e e'
  | Panic w, Panic w' => w = w'
  | OutOfFuel, OutOfFuel => True
  | _, _ => False
  end.

Section Sets.
Context {R : Type} (reg : registry R).

(** The layouts of the sets: the only ones whose items are not ordered by the data. *)
Definition is_set (r : R) : Prop := exists h it, reg r = Some (UnorderedL h it).

(** No set reached from [ref] has items that contain a variant of a sum. *)
Definition no_sum_in_sets (ref : R) : Prop :=
  forall r h it r', reaches reg ref r -> reg r = Some (UnorderedL h it) -> reaches reg (vf_layout (it_value it)) r' ->
  forall h' vs, reg r' <> Some (SumL h' vs).
End Sets.
