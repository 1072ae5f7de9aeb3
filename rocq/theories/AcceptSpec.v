(** * Which values a layout takes (C119)

    Two judgements on values alone: [Takes ref n v], the layout [ref] with [n] inputs takes the value [v]; and
    [Refuses ref n v e], it refuses it, and what the error [e] says is the case for the value or one of its
    parts.  Neither speaks of the inputs (except their number), of the graph, or of the data written. *)

From Coq Require Import String List Bool Arith NArith.
Import ListNotations.
From Verif Require Import Base BaseProofs Orders PatternModel MatchingSpec ValueModel LayoutModel HydrateModel DehydrateModel.
Open Scope list_scope.
Open Scope nat_scope.

Section Accept.
Context {Q : Type} {IS : IriSyntax}.
Variable reg : registry Q.

(** The number of inputs of a layout ([None]: any). *)
Definition expects (l : layout Q) : option nat :=
  match l with
  | Never | Always => None
  | UnitL _ _ | DataL _ _ _ _ | IdL _ _ _ => Some 1
  | ProductL h _ | SumL h _ | UnorderedL h _ | OrderedL h _ _ _ | SizedL h _ => Some (h_input h)
  end.

Definition header_of (l : layout Q) : option (header Q) :=
  match l with
  | Never | Always => None
  | UnitL h _ | DataL _ h _ _ | IdL h _ _ | ProductL h _ | SumL h _ | UnorderedL h _ | OrderedL h _ _ _ | SizedL h _ => Some h
  end.

(** The kind of a literal. *)
Definition of_kind (k : data_kind) (v : literal) : Prop :=
  match k, v with
  | KBoolean, LBool _ | KNumber, LNum _ | KByteString, LBytes _ | KTextString _, LText _ => True
  | _, _ => False
  end.

(** The value is of the right kind: the constant, a literal of the kind of the layout, an IRI, a record with no other
    keys than the fields, a list, a list of as many values as there are items. *)
Definition right_kind (l : layout Q) (v : value) : Prop :=
  match l with
  | Never => False
  | Always | SumL _ _ => True
  | UnitL _ c => v = c
  | DataL k _ _ _ => exists x, v = VLit x /\ of_kind k x
  | IdL _ _ _ => exists s, v = VLit (LText s) /\ is_iri s = true
  | ProductL _ fs => exists m, v = VMap m /\ forall k, In k (map fst m) -> In k (map fst fs)
  | UnorderedL _ _ | OrderedL _ _ _ _ => exists vs, v = VList vs
  | SizedL _ its => exists vs, v = VList vs /\ length vs = length its
  end.

(** The variables of the layout itself that the value makes it look at: those of its patterns, of its resource, of the
    head of a list, and of the end of a list that is not empty. *)
Definition own_var (l : layout Q) (v : value) (x : nat) : Prop :=
  (exists h, header_of l = Some h /\ var_of (h_dataset h) x) \/
  match l with
  | DataL _ _ r _ | IdL _ r _ => r = PVar x
  | OrderedL _ _ hd tl => hd = PVar x \/ (tl = PVar x /\ v <> VList [])
  | _ => False
  end.

(** The variables of a value format. *)
Definition format_var (vf : vformat Q) (x : nat) : Prop :=
  In (PVar x) (vf_input vf) \/ vf_graph vf = Some (Some (PVar x)).

(** The parts of a value: the item [it] presents [w], and [n] variables are declared before its own. *)
Inductive part : layout Q -> value -> nat -> item_layout Q -> value -> Prop :=
| part_field h fs m k f w : In (k, f) fs -> In (k, w) m ->
    part (ProductL h fs) (VMap m) (h_input h + h_intro h) (f_item f) w
| part_item h it vs w : In w vs -> part (UnorderedL h it) (VList vs) (h_input h + h_intro h) it w
| part_node h node hd tl vs w : In w vs ->
    part (OrderedL h node hd tl) (VList vs) (h_input h + h_intro h + 2) node w
| part_sized h its vs i it w : nth_error its i = Some it -> nth_error vs i = Some w ->
    part (SizedL h its) (VList vs) (h_input h + h_intro h) it w.

(** The variables declared by the layout itself. *)
Definition own_count (l : layout Q) : nat :=
  match header_of l, expects l with Some h, Some n => n + h_intro h | _, _ => 0 end.

Definition simple (l : layout Q) : Prop := match l with SumL _ _ | Never | Always => False | _ => True end.

Inductive Takes : Q -> nat -> value -> Prop :=
| T_anything ref n v : reg ref = Some Always -> Takes ref n v
| T_layout ref n v l : reg ref = Some l -> simple l -> expects l = Some n ->
    (forall x, own_var l v x -> x < own_count l) ->
    right_kind l v ->
    (forall h fs m k f, l = ProductL h fs -> v = VMap m -> In (k, f) fs -> f_required f = true -> In k (map fst m)) ->
    (forall d it w x, part l v d it w ->
       var_of (it_dataset it) x \/ format_var (it_value it) x -> x < d + it_intro it) ->
    (forall d it w, part l v d it w -> Takes (vf_layout (it_value it)) (length (vf_input (it_value it))) w) ->
    Takes ref n v
(** Exactly one variant takes the value. *)
| T_choice ref n v h vs i va : reg ref = Some (SumL h vs) -> n = h_input h ->
    (forall x, var_of (h_dataset h) x -> x < n + h_intro h) ->
    (forall vb x, In vb vs -> var_of (it_dataset (va_item vb)) x -> x < n + h_intro h + it_intro (va_item vb)) ->
    nth_error vs i = Some va ->
    Variant_takes (n + h_intro h) (va_item va) v ->
    (forall j vb, nth_error vs j = Some vb -> j <> i -> Variant_refuses (n + h_intro h) (va_item vb) v) ->
    Takes ref n v
with Variant_takes : nat -> item_layout Q -> value -> Prop :=
| VT d it v : (forall x, format_var (it_value it) x -> x < d + it_intro it) ->
    Takes (vf_layout (it_value it)) (length (vf_input (it_value it))) v -> Variant_takes d it v
with Variant_refuses : nat -> item_layout Q -> value -> Prop :=
| VR_var d it v x : format_var (it_value it) x -> d + it_intro it <= x -> Variant_refuses d it v
| VR_value d it v e : Refuses (vf_layout (it_value it)) (length (vf_input (it_value it))) v e -> Variant_refuses d it v
with Refuses : Q -> nat -> value -> de_error Q -> Prop :=
| R_undefined ref n v : reg ref = None -> Refuses ref n v (DLayoutNotFound ref)
| R_count ref n v l k : reg ref = Some l -> expects l = Some k -> k <> n -> Refuses ref n v (DInvalidInputCount k n)
| R_kind ref n v l : reg ref = Some l -> ~ right_kind l v -> Refuses ref n v DIncompatibleLayout
| R_own ref n v l x : reg ref = Some l -> own_var l v x -> own_count l <= x -> Refuses ref n v (DUndeclaredVariable x)
| R_required ref n h fs m k f : reg ref = Some (ProductL h fs) -> In (k, f) fs -> f_required f = true -> ~ In k (map fst m) ->
    Refuses ref n (VMap m) (DMissingRequiredKey ref k m)
| R_part_var ref n v l d it w x : reg ref = Some l -> part l v d it w ->
    var_of (it_dataset it) x \/ format_var (it_value it) x -> d + it_intro it <= x -> Refuses ref n v (DUndeclaredVariable x)
| R_part ref n v l d it w e : reg ref = Some l -> part l v d it w ->
    Refuses (vf_layout (it_value it)) (length (vf_input (it_value it))) w e -> Refuses ref n v e
| R_variant_var ref n v h vs va x : reg ref = Some (SumL h vs) -> In va vs -> var_of (it_dataset (va_item va)) x ->
    h_input h + h_intro h + it_intro (va_item va) <= x -> Refuses ref n v (DUndeclaredVariable x)
| R_no_variant ref n v h vs : reg ref = Some (SumL h vs) ->
    (forall va, In va vs -> Variant_refuses (h_input h + h_intro h) (va_item va) v) -> Refuses ref n v DIncompatibleLayout
| R_several ref n v h vs i j va vb : reg ref = Some (SumL h vs) -> i <> j -> nth_error vs i = Some va -> nth_error vs j = Some vb ->
    Variant_takes (h_input h + h_intro h) (va_item va) v -> Variant_takes (h_input h + h_intro h) (va_item vb) v ->
    Refuses ref n v DDataAmbiguity.

End Accept.

Scheme Takes_mut := Minimality for Takes Sort Prop
with Variant_takes_mut := Minimality for Variant_takes Sort Prop
with Variant_refuses_mut := Minimality for Variant_refuses Sort Prop
with Refuses_mut := Minimality for Refuses Sort Prop.
Combined Scheme accept_ind from Takes_mut, Variant_takes_mut, Variant_refuses_mut, Refuses_mut.
