(** * The derived types and the values that survive a round trip (C75)

    Specification vocabulary for "serialize then deserialize".  Only the data types of the model are
    used.

    A type of the class describes a node of a tree: it has one input (the node), it states constant
    properties of the node, and it gives the name of the node (an identifier or a literal) or its
    parts.  A part is linked to the node by a property, or is about the node itself.  These are the
    layouts given by the attributes of the macros, when the variables are the default ones. *)

From Coq Require Import String List Bool Arith ZArith QArith Qcanon Permutation.
Import ListNotations.
From Verif Require Import Base Orders PatternModel ValueModel LayoutModel HydrateModel TermModel
  GenDataModel GenDataSpec GenModel GenSpec.
Open Scope list_scope.
Open Scope nat_scope.

(** ** The interpretation

    The contract of the [rdf_types] interpretations.  [known i r]: the resource [r] belongs to the
    interpretation [i]. *)

Section Laws.
Context {R I : Type} {RT : Runtime R I} {RS : Resolver R I}.

(** [x] has the same lexical representations in [i] and in [i']. *)
Definition same_names (i i' : I) (x : R) : Prop :=
  rt_iris i' x = rt_iris i x /\ rt_blanks i' x = rt_blanks i x /\ rt_literals i' x = rt_literals i x.

(** [x] has no lexical representation in [i]. *)
Definition unnamed (i : I) (x : R) : Prop :=
  rt_iris i x = [] /\ rt_blanks i x = [] /\ rt_literals i x = [].

Class ResolverLaws (known : I -> R -> Prop) : Prop := {
  (* a new resource *)
  new_unknown : forall i, ~ known i (fst (rs_new i));
  new_known : forall i x, known (snd (rs_new i)) x <-> x = fst (rs_new i) \/ known i x;
  new_names : forall i x, same_names i (snd (rs_new i)) x;
  new_iris : forall i s, rs_iri (snd (rs_new i)) s = rs_iri i s;
  unknown_unnamed : forall i x, ~ known i x -> unnamed i x;
  (* the resource of an IRI *)
  iri_known : forall i s r, rs_iri i s = Some r -> known i r;
  interpret_iri : forall i s r, rs_iri i s = Some r -> rs_interpret s i = (r, i);
  (* assignments: nothing changes for the other resources and the other IRIs *)
  assign_iri_name : forall i r s, rt_iris i r = [] -> rt_iris (rt_assign_iri r s i) r = [s];
  assign_iri_others : forall i r s x, x <> r -> same_names i (rt_assign_iri r s i) x;
  assign_iri_iris : forall i r s s', s' <> s -> rs_iri (rt_assign_iri r s i) s' = rs_iri i s';
  assign_iri_known : forall i r s x, known i r -> (known (rt_assign_iri r s i) x <-> known i x);
  assign_blank_name : forall i r s, rt_blanks i r = [] ->
    rt_blanks (rt_assign_blank r s i) r = [s] /\ rt_iris (rt_assign_blank r s i) r = rt_iris i r;
  assign_blank_others : forall i r s x, x <> r -> same_names i (rt_assign_blank r s i) x;
  assign_blank_iris : forall i r s s', rs_iri (rt_assign_blank r s i) s' = rs_iri i s';
  assign_blank_known : forall i r s x, known i r -> (known (rt_assign_blank r s i) x <-> known i x);
  assign_literal_name : forall i r l, rt_literals i r = [] -> rt_literals (rt_assign_literal r l i) r = [l];
  assign_literal_others : forall i r l x, x <> r -> same_names i (rt_assign_literal r l i) x;
  assign_literal_iris : forall i r l s', rs_iri (rt_assign_literal r l i) s' = rs_iri i s';
  assign_literal_known : forall i r l x, known i r -> (known (rt_assign_literal r l i) x <-> known i x)
}.
End Laws.

(** ** The shapes *)

(** Constant properties of the node: [node p o]. *)
Definition statements (ps : list (string * string)) : list (qpat string) :=
  map (fun po => Quad (PVar 0) (PRes (fst po)) (PRes (snd po)) None) ps.
Definition about (ps : list (string * string)) : header string := Header 1 0 (statements ps).

(** [node p x], and the type [ty] on [x]: the attribute [#[tldr("p")]]. *)
Definition linked (p ty : string) : item_layout string :=
  Item 1 (VFormat ty [PVar 1] None) [Quad (PVar 0) (PRes p) (PVar 1) None].
(** Constant properties, and the type [ty] on the node: [#[tldr(intro(), input("_:self"), ..)]]. *)
Definition same_node (ps : list (string * string)) (ty : string) : item_layout string :=
  Item 0 (VFormat ty [PVar 0] None) (statements ps).
(** [cell first x], [cell rest next], and the type [ty] on [x]. *)
Definition cell (first rest ty : string) : item_layout string :=
  Item 1 (VFormat ty [PVar 3] None)
    [Quad (PVar 1) (PRes first) (PVar 3) None; Quad (PVar 1) (PRes rest) (PVar 2) None].

(** The fields of a structure. *)
Inductive component : Type :=
| Own (ty : string)
| Link (p : string) (required : bool) (ty : string).
Definition field_of (c : component) : field string :=
  match c with
  | Own ty => Field (same_node [] ty) true
  | Link p b ty => Field (linked p ty) b
  end.
Definition fields_of (fs : list (string * component)) : list (value * field string) :=
  map (fun kc => (VLit (LText (fst kc)), field_of (snd kc))) fs.

(** The variants of an enumeration: [node p o] and the type on the node, or [node p x] and the type on
    [x]. *)
Inductive choice : Type :=
| Tag (p o ty : string)
| Via (p ty : string).
Definition choice_item (c : choice) : item_layout string :=
  match c with
  | Tag p o ty => same_node [(p, o)] ty
  | Via p ty => linked p ty
  end.
Definition choice_type (c : choice) : string :=
  match c with Tag _ _ ty => ty | Via _ ty => ty end.
Definition variants_of (cs : list (string * choice)) : list (variant string) :=
  map (fun nc => Variant (fst nc) (choice_item (snd nc))) cs.

Definition id_layout ps pat : layout string := IdL (about ps) (PVar 0) pat.
Definition data_layout ps k datatype : layout string := DataL k (about ps) (PVar 0) datatype.
Definition unit_layout ps c : layout string := UnitL (about ps) c.
Definition record_layout ps fs : layout string := ProductL (about ps) (fields_of fs).
Definition choice_layout ps cs : layout string := SumL (about ps) (variants_of cs).
Definition tuple_layout ps (its : list (string * string)) : layout string :=
  SizedL (about ps) (map (fun pt => linked (fst pt) (snd pt)) its).
Definition set_layout ps (p ty : string) : layout string := UnorderedL (about ps) (linked p ty).
Definition list_layout ps (first rest nil ty : string) : layout string :=
  OrderedL (about ps) (cell first rest ty) (PVar 0) (PRes nil).

Section Class.
Variable types : program.

(** [Owns ty (Some p)]: the type [ty] uses the property [p] of the node; [Owns ty None]: it names the
    node. *)
Inductive Owns : string -> option string -> Prop :=
| ow_id ty : types ty = Some TyId -> Owns ty None
| ow_text ty : types ty = Some TyText -> Owns ty None
| ow_int ty ity : types ty = Some (TyInt ity) -> Owns ty None
| ow_derived_id ty ps pat inner s :
    types ty = Some (TyDerived (id_layout ps pat) inner) -> s = None \/ In s (map Some (map fst ps)) -> Owns ty s
| ow_data ty ps k datatype inner s :
    types ty = Some (TyDerived (data_layout ps k datatype) inner) -> s = None \/ In s (map Some (map fst ps)) ->
    Owns ty s
| ow_unit ty ps c inner p :
    types ty = Some (TyDerived (unit_layout ps c) inner) -> In p (map fst ps) -> Owns ty (Some p)
| ow_record ty ps fs inner p :
    types ty = Some (TyDerived (record_layout ps fs) inner) -> In p (map fst ps) -> Owns ty (Some p)
| ow_own ty ps fs inner k ty' s :
    types ty = Some (TyDerived (record_layout ps fs) inner) -> In (k, Own ty') fs -> Owns ty' s -> Owns ty s
| ow_link ty ps fs inner k p b ty' :
    types ty = Some (TyDerived (record_layout ps fs) inner) -> In (k, Link p b ty') fs -> Owns ty (Some p)
| ow_choice ty ps cs inner p :
    types ty = Some (TyDerived (choice_layout ps cs) inner) -> In p (map fst ps) -> Owns ty (Some p)
| ow_tag ty ps cs inner k p o ty' :
    types ty = Some (TyDerived (choice_layout ps cs) inner) -> In (k, Tag p o ty') cs -> Owns ty (Some p)
| ow_tagged ty ps cs inner k p o ty' s :
    types ty = Some (TyDerived (choice_layout ps cs) inner) -> In (k, Tag p o ty') cs -> Owns ty' s -> Owns ty s
| ow_via ty ps cs inner k p ty' :
    types ty = Some (TyDerived (choice_layout ps cs) inner) -> In (k, Via p ty') cs -> Owns ty (Some p)
| ow_tuple ty ps its inner p :
    types ty = Some (TyDerived (tuple_layout ps its) inner) -> In p (map fst ps) \/ In p (map fst its) ->
    Owns ty (Some p)
| ow_set ty ps q ty' inner p :
    types ty = Some (TyDerived (set_layout ps q ty') inner) -> In p (map fst ps) \/ p = q -> Owns ty (Some p)
| ow_list ty ps first rest nil ty' inner p :
    types ty = Some (TyDerived (list_layout ps first rest nil ty') inner) ->
    In p (map fst ps) \/ p = first \/ p = rest -> Owns ty (Some p).

Definition component_owns (c : component) (s : option string) : Prop :=
  match c with Own ty => Owns ty s | Link p _ _ => s = Some p end.

Definition choice_owns (c : choice) (s : option string) : Prop :=
  match c with
  | Tag p _ ty => s = Some p \/ Owns ty s
  | Via p _ => s = Some p
  end.

(** What is written for the variant [c'] is not read as the variant [c]. *)
Definition told_apart (c c' : choice) : Prop :=
  match c, c' with
  | Tag p o _, Tag p' o' ty' => (p = p' -> o <> o') /\ ~ Owns ty' (Some p)
  | Tag p _ _, Via p' _ => p <> p'
  | Via p _, _ => ~ choice_owns c' (Some p)
  end.

Inductive tree_type : rust_type -> Prop :=
| tt_id : tree_type TyId
| tt_text : tree_type TyText
| tt_int ity : tree_type (TyInt ity)
| tt_derived_id ps pat inner : tree_type (TyDerived (id_layout ps pat) inner)
| tt_data ps k datatype inner : tree_type (TyDerived (data_layout ps k datatype) inner)
| tt_unit ps c inner : tree_type (TyDerived (unit_layout ps c) inner)
| tt_record ps fs inner :
    NoDup (map fst fs) ->
    (* nothing is used twice *)
    (forall k c p, In (k, c) fs -> component_owns c (Some p) -> ~ In p (map fst ps)) ->
    (forall k c k' c' s, In (k, c) fs -> In (k', c') fs -> component_owns c s -> component_owns c' s -> k = k') ->
    tree_type (TyDerived (record_layout ps fs) inner)
| tt_choice ps cs inner :
    (forall k c p, In (k, c) cs -> choice_owns c (Some p) -> ~ In p (map fst ps)) ->
    (forall k p o ty, In (k, Tag p o ty) cs -> ~ Owns ty (Some p)) ->
    (forall m n nc nc', nth_error cs m = Some nc -> nth_error cs n = Some nc' -> m <> n ->
       told_apart (snd nc) (snd nc')) ->
    tree_type (TyDerived (choice_layout ps cs) inner)
| tt_tuple ps its inner :
    NoDup (map fst its) -> (forall p, In p (map fst its) -> ~ In p (map fst ps)) ->
    tree_type (TyDerived (tuple_layout ps its) inner)
| tt_set ps p ty inner : ~ In p (map fst ps) -> tree_type (TyDerived (set_layout ps p ty) inner)
| tt_list ps first rest nil ty inner :
    first <> rest -> ~ In first (map fst ps) -> ~ In rest (map fst ps) ->
    tree_type (TyDerived (list_layout ps first rest nil ty) inner).

Definition tree_program : Prop := forall ty t, types ty = Some t -> tree_type t.

(** The IRIs in the patterns of the program. *)
Definition program_iri (s : string) : Prop :=
  exists ty l inner, types ty = Some (TyDerived l inner) /\ In s (layout_iris l).

(** The ends of the lists. *)
Definition terminator (nil : string) : Prop :=
  exists ty ps first rest ty' inner, types ty = Some (TyDerived (list_layout ps first rest nil ty') inner).

(** ** The values *)

(** The values of the type in a newtype with a literal layout. *)
Inductive prim_value : prim -> rvalue -> Prop :=
| pv_bool b : prim_value PBool (RvBool b)
| pv_int ity z : int_range ity z -> prim_value (PInt ity) (RvInt z)
| pv_text s : prim_value PText (RvText s).

(** The identifiers of the value are not IRIs of the program. *)
Definition id_value (id : rdf_id) : Prop := forall s, id = IdIri s -> ~ program_iri s.

(** The values of a type.  The ordered lists are not empty; an [id] layout has IRIs only. *)
Inductive value_of : string -> rvalue -> Prop :=
| vo_id ty id : types ty = Some TyId -> id_value id -> value_of ty (RvId id)
| vo_text ty s : types ty = Some TyText -> value_of ty (RvText s)
| vo_int ty ity z : types ty = Some (TyInt ity) -> int_range ity z -> value_of ty (RvInt z)
| vo_derived_id ty ps pat inner s :
    types ty = Some (TyDerived (id_layout ps pat) inner) -> ~ program_iri s -> value_of ty (RvId (IdIri s))
| vo_data ty ps k datatype inner v :
    types ty = Some (TyDerived (data_layout ps k datatype) inner) -> prim_value inner v -> value_of ty v
| vo_unit ty ps c inner : types ty = Some (TyDerived (unit_layout ps c) inner) -> value_of ty RvUnit
| vo_record ty ps fs inner vs :
    types ty = Some (TyDerived (record_layout ps fs) inner) -> fields_value fs vs -> value_of ty (RvRecord vs)
| vo_choice ty ps cs inner k name c v :
    types ty = Some (TyDerived (choice_layout ps cs) inner) -> nth_error cs k = Some (name, c) ->
    value_of (choice_type c) v -> value_of ty (RvVariant k v)
| vo_tuple ty ps its inner vs :
    types ty = Some (TyDerived (tuple_layout ps its) inner) -> items_value (map snd its) vs ->
    value_of ty (RvTuple vs)
| vo_set ty ps p ty' inner vs :
    types ty = Some (TyDerived (set_layout ps p ty') inner) -> items_value (map (fun _ => ty') vs) vs ->
    value_of ty (RvVec vs)
| vo_list ty ps first rest nil ty' inner vs :
    types ty = Some (TyDerived (list_layout ps first rest nil ty') inner) ->
    items_value (map (fun _ => ty') vs) vs -> vs <> [] -> value_of ty (RvVec vs)
with fields_value : list (string * component) -> list (string * option rvalue) -> Prop :=
| fv_nil : fields_value [] []
| fv_own k ty v fs vs : value_of ty v -> fields_value fs vs -> fields_value ((k, Own ty) :: fs) ((k, Some v) :: vs)
| fv_link k p b ty v fs vs :
    value_of ty v -> fields_value fs vs -> fields_value ((k, Link p b ty) :: fs) ((k, Some v) :: vs)
| fv_absent k p ty fs vs : fields_value fs vs -> fields_value ((k, Link p false ty) :: fs) ((k, None) :: vs)
with items_value : list string -> list rvalue -> Prop :=
| iv_nil : items_value [] []
| iv_cons ty v tys vs : value_of ty v -> items_value tys vs -> items_value (ty :: tys) (v :: vs).

(** The same value of a type, up to the order of the items of the unordered lists. *)
Inductive alike : string -> rvalue -> rvalue -> Prop :=
| al_refl ty v : alike ty v v
| al_record ty ps fs inner vs vs' :
    types ty = Some (TyDerived (record_layout ps fs) inner) -> alike_fields fs vs vs' ->
    alike ty (RvRecord vs) (RvRecord vs')
| al_choice ty ps cs inner k name c v v' :
    types ty = Some (TyDerived (choice_layout ps cs) inner) -> nth_error cs k = Some (name, c) ->
    alike (choice_type c) v v' -> alike ty (RvVariant k v) (RvVariant k v')
| al_tuple ty ps its inner vs vs' :
    types ty = Some (TyDerived (tuple_layout ps its) inner) -> alike_items (map snd its) vs vs' ->
    alike ty (RvTuple vs) (RvTuple vs')
| al_set ty ps p ty' inner vs vs' vs'' :
    types ty = Some (TyDerived (set_layout ps p ty') inner) -> alike_items (map (fun _ => ty') vs) vs vs' ->
    Permutation vs' vs'' -> alike ty (RvVec vs) (RvVec vs'')
| al_list ty ps first rest nil ty' inner vs vs' :
    types ty = Some (TyDerived (list_layout ps first rest nil ty') inner) ->
    alike_items (map (fun _ => ty') vs) vs vs' -> alike ty (RvVec vs) (RvVec vs')
with alike_fields : list (string * component) -> list (string * option rvalue) -> list (string * option rvalue) -> Prop :=
| af_nil : alike_fields [] [] []
| af_own k ty v v' fs vs vs' :
    alike ty v v' -> alike_fields fs vs vs' ->
    alike_fields ((k, Own ty) :: fs) ((k, Some v) :: vs) ((k, Some v') :: vs')
| af_link k p b ty v v' fs vs vs' :
    alike ty v v' -> alike_fields fs vs vs' ->
    alike_fields ((k, Link p b ty) :: fs) ((k, Some v) :: vs) ((k, Some v') :: vs')
| af_absent k p b ty fs vs vs' :
    alike_fields fs vs vs' -> alike_fields ((k, Link p b ty) :: fs) ((k, None) :: vs) ((k, None) :: vs')
with alike_items : list string -> list rvalue -> list rvalue -> Prop :=
| ai_nil : alike_items [] [] []
| ai_cons ty v v' tys vs vs' :
    alike ty v v' -> alike_items tys vs vs' -> alike_items (ty :: tys) (v :: vs) (v' :: vs').

(** A program without unordered lists. *)
Definition without_sets : Prop :=
  forall ty h it inner, types ty <> Some (TyDerived (UnorderedL h it) inner).

Section Resolved.
Context {R I : Type} {RS : Resolver R I}.
Variable res : string -> R.

(** The interpretation gives the resource [res s] to each IRI [s] of the program. *)
Definition resolved (i : I) : Prop := forall s, program_iri s -> rs_iri i s = Some (res s).

(** Different IRIs of the program are different resources. *)
Definition distinct_iris : Prop :=
  forall s s', program_iri s -> program_iri s' -> res s = res s' -> s = s'.
End Resolved.
End Class.

(** ** Reading back *)
Section Back.
Context {R I : Type} {RT : Runtime R I} {RS : Resolver R I}.
Variable known : I -> R -> Prop.
Variable types : program.
Variable res : string -> R.

(** A resource that can hold a value: it belongs to the interpretation, it has no name yet, and it is not the
    end of a list. *)
Definition free_node (i : I) (x : R) : Prop :=
  known i x /\ unnamed i x /\ forall nil, terminator types nil -> x <> res nil.

(** [i2] comes after [i']: the resources of [i'] keep their names. *)
Definition later (i' i2 : I) : Prop :=
  (forall y, known i' y -> same_names i' i2 y) /\ resolved types res i2.

(** The quads in [other] are about resources of [i] other than [x]. *)
Definition elsewhere (i : I) (x : R) (other : quad R -> Prop) : Prop :=
  forall q, other q -> known i (q_s q) /\ q_s q <> x.
End Back.
