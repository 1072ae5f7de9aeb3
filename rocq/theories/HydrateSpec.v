(** * What it means for a dataset to be presented as a tree by a layout

    Declarative semantics of layouts, against which hydration is proved sound and complete.
    Only the data types of the model are used, and the notion of [solution] of
    [MatchingSpec.v].

    [Means g ref inputs v]: in the graph [g], for the given input resources, the layout [ref]
    presents the dataset as the tree [v].

    [Rejects g ref inputs]: the dataset contradicts the layout. A sum presents the tree of its
    only variant that is not contradicted, which is why both judgements are defined together.

    The items of an unordered list have no order. When [strict] is [false], one contradicted item is
    enough to reject the list. When [strict] is [true], all the items must moreover be either
    presentable or contradicted (no item is left without meaning, i.e. panics or diverges), so
    that the rejection does not depend on the order in which they are visited. *)

From Coq Require Import String List Bool Arith NArith Permutation Sorted Qcanon.
Import ListNotations.
From Verif Require Import Base BaseProofs Orders PatternModel MatchingModel MatchingSpec
  ValueModel LayoutModel HydrateModel.
Open Scope list_scope.
Open Scope nat_scope.

Section Spec.
Context {R : Type} {CR : Cmp R} {IR : Interp R} {X : Xsd}.
Variable G : quad R -> Prop.
Variable reg : registry R.
Variable strict : bool.

(** A layout pattern evaluated in the graph [g]. *)
Definition at_graph (g : option R) (p : qpat R) : qpat R :=
  match q_g p with
  | Some _ => p
  | None => Quad (q_s p) (q_p p) (q_o p) (match g with Some r => Some (PRes r) | None => None end)
  end.

(** Variables declared by a layout: its inputs, bound, then [n] unbound ones. *)
Definition fresh (s : subst R) (n : nat) : subst R := s ++ repeat None n.

Definition the_solution (g : option R) (s : subst R) (ps : list (qpat R)) (s' : subst R) : Prop :=
  solution G s (map (at_graph g) ps) s' /\
  forall s'', solution G s (map (at_graph g) ps) s'' -> s'' = s'.

Definition no_solution (g : option R) (s : subst R) (ps : list (qpat R)) : Prop :=
  forall s', ~ solution G s (map (at_graph g) ps) s'.

Definition several_solutions (g : option R) (s : subst R) (ps : list (qpat R)) : Prop :=
  exists s1 s2, s1 <> s2 /\ solution G s (map (at_graph g) ps) s1 /\
                solution G s (map (at_graph g) ps) s2.

(** The substitution in which the body of a layout is evaluated. *)
Definition header_sol (g : option R) (h : header R) (inputs : list R) (s : subst R) : Prop :=
  the_solution g (fresh (map Some inputs) (h_intro h)) (h_dataset h) s.

Definition header_bad (g : option R) (h : header R) (inputs : list R) : Prop :=
  no_solution g (fresh (map Some inputs) (h_intro h)) (h_dataset h) \/
  several_solutions g (fresh (map Some inputs) (h_intro h)) (h_dataset h).

Definition item_sol (g : option R) (s : subst R) (it : item_layout R) (s' : subst R) : Prop :=
  the_solution g (fresh s (it_intro it)) (it_dataset it) s'.

Definition item_none (g : option R) (s : subst R) (it : item_layout R) : Prop :=
  no_solution g (fresh s (it_intro it)) (it_dataset it).

Definition item_several (g : option R) (s : subst R) (it : item_layout R) : Prop :=
  several_solutions g (fresh s (it_intro it)) (it_dataset it).

(** Inputs and graph handed to a sub-layout. *)
Definition passes (g : option R) (s : subst R) (vf : vformat R) (inputs : list R) (g' : option R)
  : Prop :=
  Forall2 (pinst (binds s)) (vf_input vf) inputs /\
  match vf_graph vf with
  | None => g' = g
  | Some p => oinst (binds s) p g'
  end.

(** Number of inputs of a layout ([None]: any). *)
Definition arity (l : layout R) : option nat :=
  match l with
  | Never | Always => None
  | UnitL _ _ | DataL _ _ _ _ | IdL _ _ _ => Some 1
  | ProductL h _ | SumL h _ | UnorderedL h _ | OrderedL h _ _ _ | SizedL h _ => Some (h_input h)
  end.

Definition layout_for (ref : R) (inputs : list R) (l : layout R) : Prop :=
  reg ref = Some l /\ (forall n, arity l = Some n -> length inputs = n).

(** Lexical spaces. *)
Inductive boolean_lexical : string -> bool -> Prop :=
| bl_true : boolean_lexical "true" true
| bl_one : boolean_lexical "1" true
| bl_false : boolean_lexical "false" false
| bl_zero : boolean_lexical "0" false.

(** The literal of type [ty] and lexical value [v] presented by a data layout. *)
Inductive denotes (ref : R) : data_kind -> string -> string -> typed_literal R -> Prop :=
| den_boolean v b : boolean_lexical v b -> denotes ref KBoolean xsd_boolean v (TBool b ref)
| den_number ty v n :
    is_decimal_type ty = true -> decimal_parse v = Some n -> denotes ref KNumber ty v (TNum n ref)
| den_text p ty v : denotes ref (KTextString p) ty v (TText v ref).

Definition has_type (datatype : R) (l : rdf_literal) (ty : string) : Prop :=
  rl_type l = TypeAny ty /\ In ty (iris_of datatype).

Definition other_type (datatype : R) (l : rdf_literal) : Prop :=
  exists ty, rl_type l = TypeAny ty /\ ~ In ty (iris_of datatype).

Inductive Means : option R -> R -> list R -> typed_value R -> Prop :=
| M_always g ref inputs :
    layout_for ref inputs Always -> Means g ref inputs (TAlways (VLit LUnit))
| M_unit g ref inputs h c s :
    layout_for ref inputs (UnitL h c) -> header_sol g h inputs s ->
    Means g ref inputs (TLit (TUnit c ref))
| M_data g ref inputs k h res dt s r pre l post ty t :
    layout_for ref inputs (DataL k h res dt) -> header_sol g h inputs s ->
    pinst (binds s) res r ->
    literals_of r = pre ++ l :: post -> has_type dt l ty ->
    Forall (other_type dt) pre -> Forall (other_type dt) post ->
    denotes ref k ty (rl_value l) t ->
    Means g ref inputs (TLit t)
| M_id g ref inputs h res pat s r iri :
    layout_for ref inputs (IdL h res pat) -> header_sol g h inputs s ->
    pinst (binds s) res r -> iris_of r = [iri] ->
    Means g ref inputs (TLit (TId iri ref))
| M_product g ref inputs h fs s m :
    layout_for ref inputs (ProductL h fs) -> header_sol g h inputs s ->
    Fields g s fs m -> Means g ref inputs (TMap m ref)
| M_sum g ref inputs h vs s i v :
    layout_for ref inputs (SumL h vs) -> header_sol g h inputs s ->
    One g s 0 vs i v -> Means g ref inputs (TVariant v ref i)
| M_unordered g ref inputs h it s sols vals l :
    layout_for ref inputs (UnorderedL h it) -> header_sol g h inputs s ->
    NoDup sols ->
    (forall s', In s' sols <->
       solution G (fresh s (it_intro it)) (map (at_graph g) (it_dataset it)) s') ->
    Items g (it_value it) sols vals ->
    Permutation vals l -> StronglySorted le l ->
    Means g ref inputs (TList l ref)
| M_ordered g ref inputs h node hd tl s head tail l :
    layout_for ref inputs (OrderedL h node hd tl) -> header_sol g h inputs s ->
    pinst (binds s) hd head -> pinst (binds s) tl tail ->
    Nodes g s node head tail l -> Means g ref inputs (TList l ref)
| M_sized g ref inputs h its s l :
    layout_for ref inputs (SizedL h its) -> header_sol g h inputs s ->
    Tuple g s its l -> Means g ref inputs (TList l ref)

with Rejects : option R -> R -> list R -> Prop :=
| R_undefined g ref inputs : reg ref = None -> Rejects g ref inputs
| R_arity g ref inputs l n :
    reg ref = Some l -> arity l = Some n -> length inputs <> n -> Rejects g ref inputs
| R_never g ref inputs : layout_for ref inputs Never -> Rejects g ref inputs
| R_header g ref inputs l h :
    layout_for ref inputs l ->
    match l with
    | Never | Always => False
    | UnitL h' _ | DataL _ h' _ _ | IdL h' _ _ | ProductL h' _ | SumL h' _ | UnorderedL h' _
    | OrderedL h' _ _ _ | SizedL h' _ => h = h'
    end ->
    header_bad g h inputs -> Rejects g ref inputs
| R_no_literal g ref inputs k h res dt s r :
    layout_for ref inputs (DataL k h res dt) -> header_sol g h inputs s ->
    pinst (binds s) res r -> Forall (other_type dt) (literals_of r) ->
    Rejects g ref inputs
| R_number g ref inputs h res dt s r pre l post ty :
    layout_for ref inputs (DataL KNumber h res dt) -> header_sol g h inputs s ->
    pinst (binds s) res r ->
    literals_of r = pre ++ l :: post -> has_type dt l ty -> is_decimal_type ty = false ->
    (* at most one literal of the datatype before, and it is a number *)
    (Forall (other_type dt) pre \/
     exists pre1 l1 pre2 ty1 t1, pre = pre1 ++ l1 :: pre2 /\
       Forall (other_type dt) pre1 /\ Forall (other_type dt) pre2 /\
       has_type dt l1 ty1 /\ denotes ref KNumber ty1 (rl_value l1) t1) ->
    Rejects g ref inputs
| R_product g ref inputs h fs s :
    layout_for ref inputs (ProductL h fs) -> header_sol g h inputs s ->
    FieldsRej g s fs -> Rejects g ref inputs
| R_sum g ref inputs h vs s :
    layout_for ref inputs (SumL h vs) -> header_sol g h inputs s ->
    VariantsRej g s false vs -> Rejects g ref inputs
| R_unordered g ref inputs h it s s' :
    layout_for ref inputs (UnorderedL h it) -> header_sol g h inputs s ->
    solution G (fresh s (it_intro it)) (map (at_graph g) (it_dataset it)) s' ->
    VRejects g s' (it_value it) ->
    (strict = true -> forall s'',
       solution G (fresh s (it_intro it)) (map (at_graph g) (it_dataset it)) s'' ->
       VDecided g s'' (it_value it)) ->
    Rejects g ref inputs
| R_ordered g ref inputs h node hd tl s head tail :
    layout_for ref inputs (OrderedL h node hd tl) -> header_sol g h inputs s ->
    pinst (binds s) hd head -> pinst (binds s) tl tail ->
    NodesRej g s node head tail -> Rejects g ref inputs
| R_sized g ref inputs h its s :
    layout_for ref inputs (SizedL h its) -> header_sol g h inputs s ->
    TupleRej g s its -> Rejects g ref inputs

(** A sub-value. *)
with VMeans : option R -> subst R -> vformat R -> typed_value R -> Prop :=
| VM g s vf inputs g' v :
    passes g s vf inputs g' -> Means g' (vf_layout vf) inputs v -> VMeans g s vf v
with VRejects : option R -> subst R -> vformat R -> Prop :=
| VR g s vf inputs g' :
    passes g s vf inputs g' -> Rejects g' (vf_layout vf) inputs -> VRejects g s vf
with VDecided : option R -> subst R -> vformat R -> Prop :=
| VD_means g s vf v : VMeans g s vf v -> VDecided g s vf
| VD_rejects g s vf : VRejects g s vf -> VDecided g s vf

(** Fields of a record: present with their value, or absent if they are not required. *)
with Fields : option R -> subst R -> list (value * field R) -> list (value * typed_value R) -> Prop :=
| F_nil g s : Fields g s [] []
| F_present g s k f fs s' v m :
    item_sol g s (f_item f) s' -> VMeans g s' (it_value (f_item f)) v ->
    Fields g s fs m -> Fields g s ((k, f) :: fs) ((k, v) :: m)
| F_absent g s k f fs m :
    item_none g s (f_item f) -> f_required f = false ->
    Fields g s fs m -> Fields g s ((k, f) :: fs) m
with FieldsRej : option R -> subst R -> list (value * field R) -> Prop :=
| FR_several g s k f fs : item_several g s (f_item f) -> FieldsRej g s ((k, f) :: fs)
| FR_missing g s k f fs :
    item_none g s (f_item f) -> f_required f = true -> FieldsRej g s ((k, f) :: fs)
| FR_value g s k f fs s' :
    item_sol g s (f_item f) s' -> VRejects g s' (it_value (f_item f)) ->
    FieldsRej g s ((k, f) :: fs)
| FR_later_present g s k f fs s' v :
    item_sol g s (f_item f) s' -> VMeans g s' (it_value (f_item f)) v ->
    FieldsRej g s fs -> FieldsRej g s ((k, f) :: fs)
| FR_later_absent g s k f fs :
    item_none g s (f_item f) -> f_required f = false ->
    FieldsRej g s fs -> FieldsRej g s ((k, f) :: fs)

(** Items of a tuple. *)
with Tuple : option R -> subst R -> list (item_layout R) -> list (typed_value R) -> Prop :=
| T_nil g s : Tuple g s [] []
| T_cons g s it its s' v vs :
    item_sol g s it s' -> VMeans g s' (it_value it) v -> Tuple g s its vs ->
    Tuple g s (it :: its) (v :: vs)
with TupleRej : option R -> subst R -> list (item_layout R) -> Prop :=
| TR_several g s it its : item_several g s it -> TupleRej g s (it :: its)
| TR_none g s it its : item_none g s it -> TupleRej g s (it :: its)
| TR_value g s it its s' :
    item_sol g s it s' -> VRejects g s' (it_value it) -> TupleRej g s (it :: its)
| TR_later g s it its s' v :
    item_sol g s it s' -> VMeans g s' (it_value it) v -> TupleRej g s its ->
    TupleRej g s (it :: its)

(** Items of a set. *)
with Items : option R -> vformat R -> list (subst R) -> list (typed_value R) -> Prop :=
| I_nil g vf : Items g vf [] []
| I_cons g vf s sols v vs :
    VMeans g s vf v -> Items g vf sols vs -> Items g vf (s :: sols) (v :: vs)

(** Nodes of a linked list from [head] to [tail]: the node patterns have two more
    variables, the current node (bound) and the next one. *)
with Nodes : option R -> subst R -> item_layout R -> R -> R -> list (typed_value R) -> Prop :=
| N_nil g s node tail : Nodes g s node tail tail []
| N_cons g s node head tail s' v next vs :
    head <> tail ->
    the_solution g (fresh (s ++ [Some head]) (1 + it_intro node)) (it_dataset node) s' ->
    VMeans g s' (it_value node) v ->
    binds s' (length s + 1) next ->
    Nodes g s node next tail vs ->
    Nodes g s node head tail (v :: vs)
with NodesRej : option R -> subst R -> item_layout R -> R -> R -> Prop :=
| NR_several g s node head tail :
    head <> tail ->
    several_solutions g (fresh (s ++ [Some head]) (1 + it_intro node)) (it_dataset node) ->
    NodesRej g s node head tail
| NR_none g s node head tail :
    head <> tail ->
    no_solution g (fresh (s ++ [Some head]) (1 + it_intro node)) (it_dataset node) ->
    NodesRej g s node head tail
| NR_value g s node head tail s' :
    head <> tail ->
    the_solution g (fresh (s ++ [Some head]) (1 + it_intro node)) (it_dataset node) s' ->
    VRejects g s' (it_value node) -> NodesRej g s node head tail
| NR_later g s node head tail s' v next :
    head <> tail ->
    the_solution g (fresh (s ++ [Some head]) (1 + it_intro node)) (it_dataset node) s' ->
    VMeans g s' (it_value node) v ->
    binds s' (length s + 1) next ->
    NodesRej g s node next tail -> NodesRej g s node head tail

(** A variant that does not apply. *)
with Excluded : option R -> subst R -> variant R -> Prop :=
| E_none g s va : item_none g s (va_item va) -> Excluded g s va
| E_value g s va s' :
    item_sol g s (va_item va) s' -> VRejects g s' (it_value (va_item va)) -> Excluded g s va
with NoVariant : option R -> subst R -> list (variant R) -> Prop :=
| NV_nil g s : NoVariant g s []
| NV_cons g s va vs : Excluded g s va -> NoVariant g s vs -> NoVariant g s (va :: vs)
(** Exactly one variant applies: [i] is the index of the first variant of the list,
    [j] the index of the variant that applies. *)
with One : option R -> subst R -> nat -> list (variant R) -> nat -> typed_value R -> Prop :=
| O_here g s i va vs s' v :
    item_sol g s (va_item va) s' -> VMeans g s' (it_value (va_item va)) v ->
    NoVariant g s vs -> One g s i (va :: vs) i v
| O_later g s i va vs j v :
    Excluded g s va -> One g s (S i) vs j v -> One g s i (va :: vs) j v
(** A variant is ambiguous, at most one variant before it applies ([sel]: one already does). *)
with VariantsRej : option R -> subst R -> bool -> list (variant R) -> Prop :=
| VRej_here g s sel va vs : item_several g s (va_item va) -> VariantsRej g s sel (va :: vs)
| VRej_excluded g s sel va vs :
    Excluded g s va -> VariantsRej g s sel vs -> VariantsRej g s sel (va :: vs)
| VRej_applies g s va vs s' v :
    item_sol g s (va_item va) s' -> VMeans g s' (it_value (va_item va)) v ->
    VariantsRej g s true vs -> VariantsRej g s false (va :: vs).

End Spec.

(** Invariant of the [BTreeMap] of fields: sorted by key. *)
Definition fields_sorted {R} (l : layout R) : Prop :=
  match l with
  | ProductL _ fs => StronglySorted lt (map fst fs)
  | _ => True
  end.
Definition registry_sorted {R} (reg : registry R) : Prop :=
  forall ref l, reg ref = Some l -> fields_sorted l.

(** The patterns of a layout only use the variables it declares.  (The variables
    introduced by a variant of a sum are not declared when its patterns are matched.) *)
Section Scoping.
Context {R : Type}.
Definition below_vars (n : nat) (ps : list (qpat R)) : Prop := forall x, var_of ps x -> x < n.

Definition patterns_scoped (l : layout R) : Prop :=
  match l with
  | Never | Always => True
  | UnitL h _ | DataL _ h _ _ | IdL h _ _ => below_vars (1 + h_intro h) (h_dataset h)
  | ProductL h fs =>
      below_vars (h_input h + h_intro h) (h_dataset h) /\
      forall k f, In (k, f) fs ->
        below_vars (h_input h + h_intro h + it_intro (f_item f)) (it_dataset (f_item f))
  | SumL h vs =>
      below_vars (h_input h + h_intro h) (h_dataset h) /\
      forall v, In v vs ->
        below_vars (h_input h + h_intro h) (it_dataset (va_item v))
  | UnorderedL h it =>
      below_vars (h_input h + h_intro h) (h_dataset h) /\
      below_vars (h_input h + h_intro h + it_intro it) (it_dataset it)
  | OrderedL h node _ _ =>
      below_vars (h_input h + h_intro h) (h_dataset h) /\
      below_vars (h_input h + h_intro h + 2 + it_intro node) (it_dataset node)
  | SizedL h its =>
      below_vars (h_input h + h_intro h) (h_dataset h) /\
      forall it, In it its ->
        below_vars (h_input h + h_intro h + it_intro it) (it_dataset it)
  end.
Definition registry_scoped (reg : registry R) : Prop :=
  forall ref l, reg ref = Some l -> patterns_scoped l.
End Scoping.
