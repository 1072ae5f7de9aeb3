(** * The layouts and the values that survive a round trip (C30)

    Specification vocabulary for "dehydrate then hydrate".  Only the data types of the model are
    used.

    A layout of the class describes a node of a tree: it has one input (the node), and either states nothing and reads the
    literal or the IRI of the node ([leaf]), or states constant properties of the node and
    gives its components, or states which variant of a choice it is.  A component is linked to the node by a property, or is about the
    node itself (its identifier, the set of the values of a property...). *)

From Coq Require Import String List Bool Arith NArith Qcanon Permutation Sorted.
Import ListNotations.
From Verif Require Import Base BaseProofs Orders PatternModel ValueModel LayoutModel HydrateModel TermModel
  DehydrateModel DehydrateSpec DehydrateFinish.
Open Scope list_scope.
Open Scope nat_scope.

(** ** The shapes *)

(** Constant properties of the node: [node p o]. *)
Definition statements (ps : list (term * term)) : list (qpat term) :=
  map (fun po => Quad (PVar 0) (PRes (fst po)) (PRes (snd po)) None) ps.
Definition about (ps : list (term * term)) : header term := Header 1 0 (statements ps).

(** [node p x], and the layout [r] on [x]. *)
Definition linked (p r : term) : item_layout term :=
  Item 1 (VFormat r [PVar 1] None) [Quad (PVar 0) (PRes p) (PVar 1) None].
(** The layout [r] on the node. *)
Definition same_node (r : term) : item_layout term := Item 0 (VFormat r [PVar 0] None) [].
(** [cell first x], [cell rest next], and the layout [r] on [x]. *)
Definition cell (first rest r : term) : item_layout term :=
  Item 1 (VFormat r [PVar 3] None)
    [Quad (PVar 1) (PRes first) (PVar 3) None; Quad (PVar 1) (PRes rest) (PVar 2) None].

Inductive component : Type :=
| Own (r : term)
| Link (p : term) (required : bool) (r : term).
Definition field_of (c : component) : field term :=
  match c with
  | Own r => Field (same_node r) true
  | Link p b r => Field (linked p r) b
  end.
Definition fields_of (fs : list (value * component)) : list (value * field term) :=
  map (fun kc => (fst kc, field_of (snd kc))) fs.
Definition record_layout (ps : list (term * term)) (fs : list (value * component)) : layout term :=
  ProductL (about ps) (fields_of fs).
Definition tuple_layout ps (its : list (term * term)) : layout term :=
  SizedL (about ps) (map (fun pr => linked (fst pr) (snd pr)) its).
Definition set_layout ps (p r : term) : layout term := UnorderedL (about ps) (linked p r).
Definition list_layout ps (first rest nil r : term) : layout term :=
  OrderedL (about ps) (cell first rest r) (PVar 0) (PRes nil).
Definition choice_layout (vs : list (string * term)) : layout term :=
  SumL (about []) (map (fun v => Variant (fst v) (same_node (snd v))) vs).
(** A choice where each variant gives its own value, the tag, to a property of the node: [node p tag], and the layout of
    the variant on the node. *)
Definition tagged (p tag r : term) : item_layout term :=
  Item 0 (VFormat r [PVar 0] None) [Quad (PVar 0) (PRes p) (PRes tag) None].
Definition tagged_layout ps (p : term) (vs : list (string * (term * term))) : layout term :=
  SumL (about ps) (map (fun v => Variant (fst v) (tagged p (fst (snd v)) (snd (snd v)))) vs).
Definition data_layout (k : data_kind) (ty : string) : layout term :=
  DataL k (about []) (PVar 0) (TmIri ty).

(** Data that can be written with the datatype [ty]. *)
Definition data_type {X : Xsd} (k : data_kind) (ty : string) : Prop :=
  match k with
  | KBoolean => ty = xsd_boolean
  | KNumber => is_decimal_type ty = true
  | KByteString => False
  | KTextString _ => True
  end.

Section Class.
Context {X : Xsd}.
Variable reg : registry term.

(** [Owns r p]: the layout [r] uses the property [p] of the node. *)
Inductive Owns : term -> term -> Prop :=
| ow_unit r ps c p : reg r = Some (UnitL (about ps) c) -> In p (map fst ps) -> Owns r p
| ow_record r ps fs p : reg r = Some (record_layout ps fs) -> In p (map fst ps) -> Owns r p
| ow_own r ps fs k r' p :
    reg r = Some (record_layout ps fs) -> In (k, Own r') fs -> Owns r' p -> Owns r p
| ow_link r ps fs k p b r' :
    reg r = Some (record_layout ps fs) -> In (k, Link p b r') fs -> Owns r p
| ow_tuple r ps its p :
    reg r = Some (tuple_layout ps its) -> In p (map fst ps) \/ In p (map fst its) -> Owns r p
| ow_set r ps q r' p :
    reg r = Some (set_layout ps q r') -> In p (map fst ps) \/ p = q -> Owns r p
| ow_list r ps first rest nil r' p :
    reg r = Some (list_layout ps first rest nil r') ->
    In p (map fst ps) \/ p = first \/ p = rest -> Owns r p
| ow_tag r ps q vs p :
    reg r = Some (tagged_layout ps q vs) -> In p (map fst ps) \/ p = q -> Owns r p
| ow_variant r ps q vs n tag r' p :
    reg r = Some (tagged_layout ps q vs) -> In (n, (tag, r')) vs -> Owns r' p -> Owns r p.

Definition component_owns (c : component) (p : term) : Prop :=
  match c with Own r => Owns r p | Link q _ _ => p = q end.

(** The variants state nothing. *)
Definition untagged (vs : list (variant term)) : bool :=
  forallb (fun v => match it_dataset (va_item v) with [] => true | _ => false end) vs.

(** The layouts that give no property to the node. *)
Definition leaf (r : term) : Prop :=
  match reg r with
  | Some (DataL _ _ _ _) | Some (IdL _ _ _) => True
  | Some (SumL _ vs) => untagged vs = true
  | _ => False
  end.

(** A layout that gives properties to the node. *)
Definition node_layout (r : term) : Prop :=
  match reg r with
  | Some (UnitL _ _) | Some (ProductL _ _) | Some (SizedL _ _) | Some (UnorderedL _ _) | Some (OrderedL _ _ _ _) => True
  | Some (SumL _ vs) => untagged vs = false
  | _ => False
  end.

(** A layout about the node itself: it must not make the node a literal. *)
Definition describes_node (r : term) : Prop :=
  (exists h p pat, reg r = Some (IdL h p pat)) \/ node_layout r.

Inductive tree_layout : layout term -> Prop :=
| tl_data k ty : data_type k ty -> tree_layout (data_layout k ty)
| tl_id pat : tree_layout (IdL (about []) (PVar 0) pat)
| tl_choice vs tys :
    (* data of pairwise different datatypes *)
    Forall2 (fun v ty => exists k, reg (snd v) = Some (data_layout k ty) /\ data_type k ty) vs tys ->
    NoDup tys -> tree_layout (choice_layout vs)
| tl_unit ps c : tree_layout (UnitL (about ps) c)
| tl_record ps fs :
    StronglySorted lt (map fst fs) ->
    (* no property is used twice *)
    (forall k c p, In (k, c) fs -> component_owns c p -> ~ In p (map fst ps)) ->
    (forall k c k' c' p, In (k, c) fs -> In (k', c') fs -> component_owns c p -> component_owns c' p ->
       k = k') ->
    (forall k r, In (k, Own r) fs -> describes_node r) ->
    tree_layout (record_layout ps fs)
| tl_tuple ps its :
    NoDup (map fst its) -> (forall p, In p (map fst its) -> ~ In p (map fst ps)) ->
    tree_layout (tuple_layout ps its)
| tl_set ps p r : ~ In p (map fst ps) -> tree_layout (set_layout ps p r)
| tl_list ps first rest nil r :
    first <> rest -> ~ In first (map fst ps) -> ~ In rest (map fst ps) ->
    tree_layout (list_layout ps first rest (TmIri nil) r)
| tl_tagged ps p vs :
    vs <> [] -> NoDup (map (fun v => fst (snd v)) vs) -> ~ In p (map fst ps) ->
    (* the property of the tag and the constant properties are not used by the variants *)
    (forall n tag r q, In (n, (tag, r)) vs -> Owns r q -> q <> p /\ ~ In q (map fst ps)) ->
    (forall n tag r, In (n, (tag, r)) vs -> node_layout r) ->
    tree_layout (tagged_layout ps p vs).

Definition tree_registry : Prop := forall r l, reg r = Some l -> tree_layout l.

(** ** The values *)

(** [Refuses r v]: from the shape of [v], or its first key, it is not a value of the layout [r].  Then the variant
    [r] of a choice writes nothing before failing. *)
Inductive Refuses : term -> value -> Prop :=
| rf_unit r h c v : reg r = Some (UnitL h c) -> v <> c -> Refuses r v
| rf_record r h fs v : reg r = Some (ProductL h fs) -> (forall m, v <> VMap m) -> Refuses r v
| rf_key r fs k v m :
    reg r = Some (record_layout [] fs) -> ~ In k (map fst fs) -> Refuses r (VMap ((k, v) :: m))
| rf_empty r fs k p r' :
    reg r = Some (record_layout [] fs) -> In (k, Link p true r') fs -> Refuses r (VMap [])
| rf_tuple r h its v : reg r = Some (SizedL h its) -> (forall l, v <> VList l) -> Refuses r v
| rf_set r h it v : reg r = Some (UnorderedL h it) -> (forall l, v <> VList l) -> Refuses r v
| rf_list r h it hd tl v : reg r = Some (OrderedL h it hd tl) -> (forall l, v <> VList l) -> Refuses r v
| rf_tagged r p vs v :
    reg r = Some (tagged_layout [] p vs) -> (forall n tag r', In (n, (tag, r')) vs -> Refuses r' v) -> Refuses r v.

(** [Proper r v]: in [v], the keys of the maps are sorted (this is the invariant of [BTreeMap]), the ordered
    lists are not empty, the sets of literals and IRIs have no duplicates, and for the choices only one variant does not
    refuse the value. *)
Inductive Proper : term -> value -> Prop :=
| pr_leaf r v : leaf r -> Proper r v
| pr_unit r h c : reg r = Some (UnitL h c) -> Proper r c
| pr_record r h fs m :
    reg r = Some (ProductL h fs) -> StronglySorted lt (map fst m) ->
    (forall k v f, In (k, v) m -> In (k, f) fs -> Proper (vf_layout (it_value (f_item f))) v) ->
    Proper r (VMap m)
| pr_tuple r h its l :
    reg r = Some (SizedL h its) ->
    (forall i it v, nth_error its i = Some it -> nth_error l i = Some v ->
       Proper (vf_layout (it_value it)) v) ->
    Proper r (VList l)
| pr_set r h it l :
    reg r = Some (UnorderedL h it) ->
    (forall v, In v l -> Proper (vf_layout (it_value it)) v) ->
    (leaf (vf_layout (it_value it)) -> NoDup l) ->
    Proper r (VList l)
| pr_list r h node hd tl l :
    reg r = Some (OrderedL h node hd tl) ->
    (forall v, In v l -> Proper (vf_layout (it_value node)) v) -> l <> [] ->
    Proper r (VList l)
| pr_tagged r ps p vs n tag r' v :
    reg r = Some (tagged_layout ps p vs) -> In (n, (tag, r')) vs -> Proper r' v ->
    (forall n1 tag1 r1, In (n1, (tag1, r1)) vs -> tag1 <> tag -> Refuses r1 v) ->
    Proper r v.

(** [Identifiers r v ids]: the IRIs that [v] gives to its own nodes, in order. *)
Inductive Identifiers : term -> value -> list string -> Prop :=
| is_leaf r v : leaf r -> Identifiers r v []
| is_unit r h c : reg r = Some (UnitL h c) -> Identifiers r c []
| is_record r h fs m ids :
    reg r = Some (ProductL h fs) -> IdentifiersE fs m ids -> Identifiers r (VMap m) ids
| is_tuple r h its l ids :
    reg r = Some (SizedL h its) ->
    IdentifiersL (map (fun it => vf_layout (it_value it)) its) l ids -> Identifiers r (VList l) ids
| is_set r h it l ids :
    reg r = Some (UnorderedL h it) ->
    IdentifiersL (repeat (vf_layout (it_value it)) (length l)) l ids -> Identifiers r (VList l) ids
| is_list r h node hd tl l ids :
    reg r = Some (OrderedL h node hd tl) ->
    IdentifiersL (repeat (vf_layout (it_value node)) (length l)) l ids -> Identifiers r (VList l) ids
| is_tagged r ps p vs n tag r' v ids :
    reg r = Some (tagged_layout ps p vs) -> In (n, (tag, r')) vs -> Identifiers r' v ids -> Identifiers r v ids
with IdentifiersE : list (value * field term) -> list (value * value) -> list string -> Prop :=
| ise_nil fs : IdentifiersE fs [] []
| ise_id fs k r h pat p s m ids :
    In (k, field_of (Own r)) fs -> reg r = Some (IdL h p pat) ->
    IdentifiersE fs m ids -> IdentifiersE fs ((k, VLit (LText s)) :: m) (s :: ids)
| ise_own fs k r v m ids1 ids2 :
    In (k, field_of (Own r)) fs -> ~ leaf r -> Identifiers r v ids1 ->
    IdentifiersE fs m ids2 -> IdentifiersE fs ((k, v) :: m) (ids1 ++ ids2)
| ise_link fs k p b r v m ids1 ids2 :
    In (k, field_of (Link p b r)) fs -> Identifiers r v ids1 ->
    IdentifiersE fs m ids2 -> IdentifiersE fs ((k, v) :: m) (ids1 ++ ids2)
with IdentifiersL : list term -> list value -> list string -> Prop :=
| isl_nil : IdentifiersL [] [] []
| isl_cons r rs v l ids1 ids2 :
    Identifiers r v ids1 -> IdentifiersL rs l ids2 -> IdentifiersL (r :: rs) (v :: l) (ids1 ++ ids2).

(** No two nodes of [v] have the same identifier. *)
Definition distinct_identifiers (r : term) (v : value) : Prop :=
  forall ids, Identifiers r v ids -> NoDup ids.

(** No node of [v] is identified by the resource that ends the lists. *)
Definition not_terminators (r : term) (v : value) : Prop :=
  forall ids i, Identifiers r v ids -> In i ids ->
    forall r' ps first rest r'', reg r' <> Some (list_layout ps first rest (TmIri i) r'').

(** [Same r v w]: [v] and [w] are equal up to the order of the items of the sets. *)
Inductive Same : term -> value -> value -> Prop :=
| sm_eq r v : Same r v v
| sm_record r h fs m m' :
    reg r = Some (ProductL h fs) -> SameE fs m m' -> Same r (VMap m) (VMap m')
| sm_tuple r h its l l' :
    reg r = Some (SizedL h its) ->
    SameL (map (fun it => vf_layout (it_value it)) its) l l' -> Same r (VList l) (VList l')
| sm_set r h it l l' l'' :
    reg r = Some (UnorderedL h it) ->
    SameL (repeat (vf_layout (it_value it)) (length l)) l l' -> Permutation l' l'' ->
    Same r (VList l) (VList l'')
| sm_list r h node hd tl l l' :
    reg r = Some (OrderedL h node hd tl) ->
    SameL (repeat (vf_layout (it_value node)) (length l)) l l' -> Same r (VList l) (VList l')
| sm_tagged r ps p vs n tag r' v w :
    reg r = Some (tagged_layout ps p vs) -> In (n, (tag, r')) vs -> Same r' v w -> Same r v w
with SameE : list (value * field term) -> list (value * value) -> list (value * value) -> Prop :=
| sme_nil fs : SameE fs [] []
| sme_cons fs k f v w m m' :
    In (k, f) fs -> Same (vf_layout (it_value (f_item f))) v w -> SameE fs m m' ->
    SameE fs ((k, v) :: m) ((k, w) :: m')
with SameL : list term -> list value -> list value -> Prop :=
| sml_nil : SameL [] [] []
| sml_cons r rs v w l l' :
    Same r v w -> SameL rs l l' -> SameL (r :: rs) (v :: l) (w :: l').

(** No layout is a set. *)
Definition no_sets : Prop := forall r h it, reg r <> Some (UnorderedL h it).

End Class.

(** The identifiers given to the inputs and to the nodes created are distinct blank node identifiers. *)
Definition blank_identifiers {Gn} (opts : options Gn) : Prop :=
  (forall i, exists b, o_input_term opts i = TmBlank b) /\
  (forall n, exists b, generated opts n = TmBlank b).

(** What is written with [decimal_print] is read by [decimal_parse]. *)
Definition decimals_read_back (X : Xsd) : Prop :=
  forall n s, decimal_print n = Some s -> decimal_parse s = Some n.
