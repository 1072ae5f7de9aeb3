(** * What is wrong with a dataset, and where

    The places of a hydration and what may be wrong at one of them, against which the errors of hydration are
    compared (C118).  Only the data types of the model and the notions of [HydrateSpec.v] on the solutions of
    patterns are used.

    A place is a graph, a layout and the resources given to it.  [Asked] says which places are asked for: the
    one of the call, then those of the fields, items and nodes of the lists.  The variants of a sum are left
    out: what goes wrong in a variant only says that this variant is not the right one.

    [Wrong g ref inputs e]: at this place, what the error [e] says is the case. *)

From Coq Require Import String List Bool Arith NArith.
Import ListNotations.
From Verif Require Import Base BaseProofs Orders PatternModel MatchingModel MatchingSpec
  ValueModel LayoutModel HydrateModel HydrateSpec.
Open Scope list_scope.
Open Scope nat_scope.

Section Faults.
Context {R : Type} {CR : Cmp R} {IR : Interp R} {X : Xsd}.
Variable G : quad R -> Prop.
Variable reg : registry R.

(** The patterns of a layout itself. *)
Definition own_header (l : layout R) : option (header R) :=
  match l with
  | Never | Always => None
  | UnitL h _ | DataL _ h _ _ | IdL h _ _ | ProductL h _ | SumL h _ | UnorderedL h _ | OrderedL h _ _ _
  | SizedL h _ => Some h
  end.

(** The layout [ref] is [l], it is given the right number of resources, and [s] is the only solution of its
    patterns. *)
Definition opened (g : option R) (ref : R) (inputs : list R) (l : layout R) (s : subst R) : Prop :=
  layout_for reg ref inputs l /\ exists h, own_header l = Some h /\ header_sol G g h inputs s.

(** The variables of the node [head] of a list: those of the list, the node, the next node and its own. *)
Definition node_vars (s : subst R) (node : item_layout R) (head : R) : subst R :=
  fresh (s ++ [Some head]) (1 + it_intro node).

(** [Visited g s node tail head n]: from the node [head], the links lead to the node [n], without going through
    the end [tail]. *)
Inductive Visited (g : option R) (s : subst R) (node : item_layout R) (tail : R) : R -> R -> Prop :=
| Vis_here n : Visited g s node tail n n
| Vis_next head s' next n :
    head <> tail -> the_solution G g (node_vars s node head) (it_dataset node) s' ->
    binds s' (length s + 1) next -> Visited g s node tail next n -> Visited g s node tail head n.

(** The value of a format is asked for at the place [g' ref' inputs']. *)
Definition hands (g : option R) (s : subst R) (vf : vformat R) (g' : option R) (ref' : R) (inputs' : list R) : Prop :=
  ref' = vf_layout vf /\ passes g s vf inputs' g'.

(** One step: from a place to the place of one of its components. *)
Inductive Component (g : option R) (ref : R) (inputs : list R) (g' : option R) (ref' : R) (inputs' : list R) : Prop :=
| Co_field h fs s k f s' :
    opened g ref inputs (ProductL h fs) s -> In (k, f) fs -> item_sol G g s (f_item f) s' ->
    hands g s' (it_value (f_item f)) g' ref' inputs' -> Component g ref inputs g' ref' inputs'
| Co_item h it s s' :
    opened g ref inputs (UnorderedL h it) s ->
    solution G (fresh s (it_intro it)) (map (at_graph g) (it_dataset it)) s' ->
    hands g s' (it_value it) g' ref' inputs' -> Component g ref inputs g' ref' inputs'
| Co_node h node hd tl s head tail n s' :
    opened g ref inputs (OrderedL h node hd tl) s -> pinst (binds s) hd head -> pinst (binds s) tl tail ->
    Visited g s node tail head n -> n <> tail -> the_solution G g (node_vars s node n) (it_dataset node) s' ->
    hands g s' (it_value node) g' ref' inputs' -> Component g ref inputs g' ref' inputs'
| Co_sized h its s it s' :
    opened g ref inputs (SizedL h its) s -> In it its -> item_sol G g s it s' ->
    hands g s' (it_value it) g' ref' inputs' -> Component g ref inputs g' ref' inputs'.

Inductive Asked (g : option R) (ref : R) (inputs : list R) : option R -> R -> list R -> Prop :=
| As_here : Asked g ref inputs g ref inputs
| As_step g1 ref1 inputs1 g2 ref2 inputs2 :
    Component g ref inputs g1 ref1 inputs1 -> Asked g1 ref1 inputs1 g2 ref2 inputs2 ->
    Asked g ref inputs g2 ref2 inputs2.

(** Patterns without solution, or with several, and the error that says it for the part [f] of the data. *)
Inductive says (g : option R) (s : subst R) (ps : list (qpat R)) (f : fragment R) : hy_error R -> Prop :=
| says_missing : no_solution G g s ps -> says g s ps f (MissingData f)
| says_ambiguous : several_solutions G g s ps -> says g s ps f (DataAmbiguity f).

Inductive Wrong (g : option R) (ref : R) (inputs : list R) : hy_error R -> Prop :=
(** The layout is not defined. *)
| W_undefined : reg ref = None -> Wrong g ref inputs (LayoutNotFound ref)
(** The layout expects another number of resources. *)
| W_arity l n : reg ref = Some l -> arity l = Some n -> length inputs <> n ->
    Wrong g ref inputs (InvalidInputCount n (length inputs))
(** The layout that nothing satisfies. *)
| W_never : reg ref = Some Never -> Wrong g ref inputs IncompatibleLayout
(** The data of the layout itself. *)
| W_header l h e : layout_for reg ref inputs l -> own_header l = Some h ->
    says g (fresh (map Some inputs) (h_intro h)) (h_dataset h) (FDiscriminant ref) e -> Wrong g ref inputs e
(** A required field is missing. *)
| W_required h fs s k f : opened g ref inputs (ProductL h fs) s -> In (k, f) fs -> f_required f = true ->
    item_none G g s (f_item f) -> Wrong g ref inputs (MissingData (FKey ref k))
(** A field has several values. *)
| W_field h fs s k f : opened g ref inputs (ProductL h fs) s -> In (k, f) fs ->
    item_several G g s (f_item f) -> Wrong g ref inputs (DataAmbiguity (FKey ref k))
(** A variant may be understood in several ways. *)
| W_variant h vs s va : opened g ref inputs (SumL h vs) s -> In va vs ->
    item_several G g s (va_item va) -> Wrong g ref inputs (DataAmbiguity (FVariant ref (va_name va)))
(** A node of a list, between its head and its end. *)
| W_node h node hd tl s head tail n e :
    opened g ref inputs (OrderedL h node hd tl) s -> pinst (binds s) hd head -> pinst (binds s) tl tail ->
    Visited g s node tail head n -> n <> tail ->
    says g (node_vars s node n) (it_dataset node) (FOrderedListNode ref n tail) e -> Wrong g ref inputs e
(** An item of a tuple. *)
| W_sized h its s i it e : opened g ref inputs (SizedL h its) s -> nth_error its i = Some it ->
    says g (fresh s (it_intro it)) (it_dataset it) (FSizedListItem ref i) e -> Wrong g ref inputs e
(** No literal of the datatype of the layout. *)
| W_literal k h res dt s r : opened g ref inputs (DataL k h res dt) s -> pinst (binds s) res r ->
    Forall (other_type dt) (literals_of r) -> Wrong g ref inputs NoMatchingLiteral
(** A number in a datatype that is not one of numbers. *)
| W_number h res dt s r l ty : opened g ref inputs (DataL KNumber h res dt) s -> pinst (binds s) res r ->
    In l (literals_of r) -> has_type dt l ty -> is_decimal_type ty = false ->
    Wrong g ref inputs (UnknownNumberDatatype ty).

End Faults.
