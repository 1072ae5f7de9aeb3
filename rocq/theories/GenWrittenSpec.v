(** * What a generated serializer must write (C90)

    Specification vocabulary.  Only the data types of the model are used. *)

From Coq Require Import String List Bool Arith ZArith.
Import ListNotations.
From Verif Require Import Base Orders PatternModel ValueModel LayoutModel HydrateModel TermModel
  GenDataModel GenDataSpec GenModel GenSpec GenSerSpec.
Open Scope list_scope.
Open Scope nat_scope.

(** ** The effects of a serialization: the resources created, the quads written, the names given. *)
Record effect (R : Type) : Type := Effect {
  created : list R;
  written : list (quad R);
  given : list (R * term)
}.
Arguments Effect {R} created written given.
Arguments created {R} e.
Arguments written {R} e.
Arguments given {R} e.

Definition nothing {R} : effect R := Effect [] [] [].
Definition after {R} (e e' : effect R) : effect R :=
  Effect (created e ++ created e') (written e ++ written e') (given e ++ given e').

(** ** The representation of a value *)

Section Written.
Context {R : Type}.
Variable types : program.
(** The resource of an IRI. *)
Variable iri_of : string -> R -> Prop.

Inductive stands (env : list R) : pattern string -> R -> Prop :=
| st_var x r : nth_error env x = Some r -> stands env (PVar x) r
| st_iri s r : iri_of s r -> stands env (PRes s) r.

Inductive stands_graph (env : list R) : option (pattern string) -> option R -> Prop :=
| sg_none : stands_graph env None None
| sg_some p r : stands env p r -> stands_graph env (Some p) (Some r).

Definition stands_quad (env : list R) (p : qpat string) (q : quad R) : Prop :=
  stands env (q_s p) (q_s q) /\ stands env (q_p p) (q_p q) /\ stands env (q_o p) (q_o q) /\
  stands_graph env (q_g p) (q_g q).

(** [n] resources are created, and the quads are written, once each. *)
Definition introduces (env : list R) (n : nat) (ps : list (qpat string)) (env' : list R) (e : effect R) : Prop :=
  exists rs Q, length rs = n /\ env' = env ++ rs /\ Forall2 (stands_quad env') ps Q /\ e = Effect rs Q [].

Definition id_term (id : rdf_id) : term :=
  match id with IdIri s => TmIri s | IdBlank b => TmBlank b end.

(** The lexical form of a value. *)
Inductive lexical_form : prim -> rvalue -> string -> Prop :=
| lx_true : lexical_form PBool (RvBool true) "true"
| lx_false : lexical_form PBool (RvBool false) "false"
| lx_int ty z : lexical_form (PInt ty) (RvInt z) (integer_print z)
| lx_text s : lexical_form PText (RvText s) s.

(** The value of the first field with this name. *)
Definition has_field (fs : list (string * option rvalue)) (name : string) (o : option rvalue) : Prop :=
  exists fs1 fs2, fs = fs1 ++ (name, o) :: fs2 /\ ~ In name (map fst fs1).

(** [Written ty v inputs e]: [e] represents the value [v] of the type [ty] at the resources [inputs]. *)
Inductive Written : string -> rvalue -> list R -> effect R -> Prop :=
| W_runtime_id ty id r :
    types ty = Some TyId -> Written ty (RvId id) [r] (Effect [] [] [(r, id_term id)])
| W_runtime_text ty s r :
    types ty = Some TyText ->
    Written ty (RvText s) [r] (Effect [] [] [(r, TmLit (RdfLiteral s (TypeAny xsd_string)))])
| W_runtime_int ty ity z r :
    types ty = Some (TyInt ity) ->
    Written ty (RvInt z) [r] (Effect [] [] [(r, TmLit (RdfLiteral (integer_print z) (TypeAny (int_datatype ity))))])
| W_unit ty h c inner r env e :
    types ty = Some (TyDerived (UnitL h c) inner) ->
    introduces [r] (h_intro h) (h_dataset h) env e ->
    Written ty RvUnit [r] e
| W_id ty h res pat inner id r env e :
    types ty = Some (TyDerived (IdL h res pat) inner) ->
    introduces [r] (h_intro h) (h_dataset h) env e ->
    Written ty (RvId id) [r] (after e (Effect [] [] [(r, id_term id)]))
| W_data ty k h res datatype inner v s r x env e :
    types ty = Some (TyDerived (DataL k h res datatype) inner) ->
    introduces [r] (h_intro h) (h_dataset h) env e ->
    lexical_form inner v s -> stands [r] res x ->
    Written ty v [r] (after e (Effect [] [] [(x, TmLit (RdfLiteral s (TypeAny datatype)))]))
| W_record ty h fields inner fs inputs env e e' :
    types ty = Some (TyDerived (ProductL h fields) inner) -> length inputs = h_input h ->
    introduces inputs (h_intro h) (h_dataset h) env e ->
    WrittenFields env fields fs e' ->
    Written ty (RvRecord fs) inputs (after e e')
| W_sum ty h vs inner k v va inputs env e e' :
    types ty = Some (TyDerived (SumL h vs) inner) -> length inputs = h_input h ->
    introduces inputs (h_intro h) (h_dataset h) env e ->
    nth_error vs k = Some va -> WrittenPart env (va_item va) v e' ->
    Written ty (RvVariant k v) inputs (after e e')
| W_set ty h it inner vs inputs env e e' :
    types ty = Some (TyDerived (UnorderedL h it) inner) -> length inputs = h_input h ->
    introduces inputs (h_intro h) (h_dataset h) env e ->
    WrittenItems env it vs e' ->
    Written ty (RvVec vs) inputs (after e e')
| W_list ty h node hd tl inner vs inputs env head e e' :
    types ty = Some (TyDerived (OrderedL h node hd tl) inner) -> length inputs = h_input h ->
    introduces inputs (h_intro h) (h_dataset h) env e ->
    stands env hd head -> WrittenNodes env node tl head vs e' ->
    Written ty (RvVec vs) inputs (after e e')
| W_tuple ty h its inner vs inputs env e e' :
    types ty = Some (TyDerived (SizedL h its) inner) -> length inputs = h_input h ->
    introduces inputs (h_intro h) (h_dataset h) env e ->
    WrittenTuple env its vs e' ->
    Written ty (RvTuple vs) inputs (after e e')

(** A field, a variant or an item: the graph of its format has no effect. *)
with WrittenPart : list R -> item_layout string -> rvalue -> effect R -> Prop :=
| WP env it v env' inputs e e' :
    introduces env (it_intro it) (it_dataset it) env' e ->
    Forall2 (stands env') (vf_input (it_value it)) inputs ->
    Written (vf_layout (it_value it)) v inputs e' ->
    WrittenPart env it v (after e e')

(** The fields of a structure, in the order of the layout; an absent optional field is not written. *)
with WrittenFields : list R -> list (value * field string) -> list (string * option rvalue) -> effect R -> Prop :=
| WF_nil env fs : WrittenFields env [] fs nothing
| WF_absent env name f fields fs e :
    has_field fs name None -> f_required f = false ->
    WrittenFields env fields fs e ->
    WrittenFields env ((VLit (LText name), f) :: fields) fs e
| WF_present env name f fields fs v e e' :
    has_field fs name (Some v) -> WrittenPart env (f_item f) v e ->
    WrittenFields env fields fs e' ->
    WrittenFields env ((VLit (LText name), f) :: fields) fs (after e e')

with WrittenItems : list R -> item_layout string -> list rvalue -> effect R -> Prop :=
| WI_nil env it : WrittenItems env it [] nothing
| WI_cons env it v vs e e' :
    WrittenPart env it v e -> WrittenItems env it vs e' -> WrittenItems env it (v :: vs) (after e e')

(** The nodes of a list, from [head]: a new node for each element but the last, linked to the tail. *)
with WrittenNodes : list R -> item_layout string -> pattern string -> R -> list rvalue -> effect R -> Prop :=
| WN_nil env node tl head : WrittenNodes env node tl head [] nothing
| WN_last env node tl head tail v e :
    stands env tl tail -> WrittenPart (env ++ [head; tail]) node v e ->
    WrittenNodes env node tl head [v] e
| WN_cons env node tl head rest v v' vs e e' :
    WrittenPart (env ++ [head; rest]) node v e -> WrittenNodes env node tl rest (v' :: vs) e' ->
    WrittenNodes env node tl head (v :: v' :: vs) (after (Effect [rest] [] []) (after e e'))

with WrittenTuple : list R -> list (item_layout string) -> list rvalue -> effect R -> Prop :=
| WT_nil env : WrittenTuple env [] [] nothing
| WT_cons env it its v vs e e' :
    WrittenPart env it v e -> WrittenTuple env its vs e' ->
    WrittenTuple env (it :: its) (v :: vs) (after e e').
End Written.

(** ** The values of a type, for a number of inputs *)

Section Typed.
Variable types : program.

(** The variables of a pattern are in scope. *)
Definition in_scope (n : nat) (p : pattern string) : Prop :=
  match p with PVar x => x < n | PRes _ => True end.
Definition quad_in_scope (n : nat) (q : qpat string) : Prop :=
  in_scope n (q_s q) /\ in_scope n (q_p q) /\ in_scope n (q_o q) /\
  match q_g q with Some g => in_scope n g | None => True end.
Definition scope (n k : nat) (ps : list (qpat string)) : Prop := Forall (quad_in_scope (n + k)) ps.

Inductive Typed : string -> rvalue -> nat -> Prop :=
| T_id ty id : types ty = Some TyId -> Typed ty (RvId id) 1
| T_text ty s : types ty = Some TyText -> Typed ty (RvText s) 1
| T_int ty ity z : types ty = Some (TyInt ity) -> Typed ty (RvInt z) 1
| T_derived_unit ty h c inner :
    types ty = Some (TyDerived (UnitL h c) inner) -> scope 1 (h_intro h) (h_dataset h) -> Typed ty RvUnit 1
| T_derived_id ty h res pat inner id :
    types ty = Some (TyDerived (IdL h res pat) inner) -> scope 1 (h_intro h) (h_dataset h) -> Typed ty (RvId id) 1
| T_data ty k h res datatype inner v s :
    types ty = Some (TyDerived (DataL k h res datatype) inner) -> scope 1 (h_intro h) (h_dataset h) ->
    lexical_form inner v s -> in_scope 1 res -> Typed ty v 1
| T_record ty h fields inner fs :
    types ty = Some (TyDerived (ProductL h fields) inner) -> scope (h_input h) (h_intro h) (h_dataset h) ->
    TypedFields (h_input h + h_intro h) fields fs -> Typed ty (RvRecord fs) (h_input h)
| T_sum ty h vs inner k v va :
    types ty = Some (TyDerived (SumL h vs) inner) -> scope (h_input h) (h_intro h) (h_dataset h) ->
    nth_error vs k = Some va -> TypedPart (h_input h + h_intro h) (va_item va) v ->
    Typed ty (RvVariant k v) (h_input h)
| T_set ty h it inner vs :
    types ty = Some (TyDerived (UnorderedL h it) inner) -> scope (h_input h) (h_intro h) (h_dataset h) ->
    TypedItems (h_input h + h_intro h) it vs -> Typed ty (RvVec vs) (h_input h)
| T_list ty h node hd tl inner vs :
    types ty = Some (TyDerived (OrderedL h node hd tl) inner) -> scope (h_input h) (h_intro h) (h_dataset h) ->
    in_scope (h_input h + h_intro h) hd -> in_scope (h_input h + h_intro h) tl ->
    TypedItems (h_input h + h_intro h + 2) node vs -> Typed ty (RvVec vs) (h_input h)
| T_tuple ty h its inner vs :
    types ty = Some (TyDerived (SizedL h its) inner) -> scope (h_input h) (h_intro h) (h_dataset h) ->
    TypedTuple (h_input h + h_intro h) its vs -> Typed ty (RvTuple vs) (h_input h)

with TypedPart : nat -> item_layout string -> rvalue -> Prop :=
| TP n it v :
    scope n (it_intro it) (it_dataset it) ->
    Forall (in_scope (n + it_intro it)) (vf_input (it_value it)) ->
    match vf_graph (it_value it) with Some (Some g) => in_scope (n + it_intro it) g | _ => True end ->
    Typed (vf_layout (it_value it)) v (length (vf_input (it_value it))) ->
    TypedPart n it v

with TypedFields : nat -> list (value * field string) -> list (string * option rvalue) -> Prop :=
| TF_nil n fs : TypedFields n [] fs
| TF_absent n name f fields fs :
    has_field fs name None -> f_required f = false -> TypedFields n fields fs ->
    TypedFields n ((VLit (LText name), f) :: fields) fs
| TF_present n name f fields fs v :
    has_field fs name (Some v) -> TypedPart n (f_item f) v -> TypedFields n fields fs ->
    TypedFields n ((VLit (LText name), f) :: fields) fs

with TypedItems : nat -> item_layout string -> list rvalue -> Prop :=
| TI_nil n it : TypedItems n it []
| TI_cons n it v vs : TypedPart n it v -> TypedItems n it vs -> TypedItems n it (v :: vs)

with TypedTuple : nat -> list (item_layout string) -> list rvalue -> Prop :=
| TT_nil n : TypedTuple n [] []
| TT_cons n it its v vs : TypedPart n it v -> TypedTuple n its vs -> TypedTuple n (it :: its) (v :: vs).
End Typed.

Scheme Typed_min := Minimality for Typed Sort Prop
  with TypedPart_min := Minimality for TypedPart Sort Prop
  with TypedFields_min := Minimality for TypedFields Sort Prop
  with TypedItems_min := Minimality for TypedItems Sort Prop
  with TypedTuple_min := Minimality for TypedTuple Sort Prop.
Combined Scheme Typed_mutind from Typed_min, TypedPart_min, TypedFields_min, TypedItems_min, TypedTuple_min.

(** The IRIs that a value contains as identifiers. *)
Inductive contains : rvalue -> string -> Prop :=
| co_id s : contains (RvId (IdIri s)) s
| co_field fs k v s : In (k, Some v) fs -> contains v s -> contains (RvRecord fs) s
| co_variant k v s : contains v s -> contains (RvVariant k v) s
| co_vec vs v s : In v vs -> contains v s -> contains (RvVec vs) s
| co_tuple vs v s : In v vs -> contains v s -> contains (RvTuple vs) s.

(** ** The interpretation *)

Section Laws.
Context {R I : Type} {RT : Runtime R I} {RS : Resolver R I}.

(** [t] is a name of [x]. *)
Definition named (i : I) (x : R) (t : term) : Prop :=
  match t with
  | TmIri s => In s (rt_iris i x)
  | TmBlank b => In b (rt_blanks i x)
  | TmLit l => In l (rt_literals i x)
  end.

(** More laws of the interpretations of [rdf_types] (see [ResolverLaws]): the resource of an IRI is
    allocated if needed; an assignment adds a name. *)
Class ResolverMore (known : I -> R -> Prop) : Prop := {
  interpret_resolves : forall i s, rs_iri (snd (rs_interpret s i)) s = Some (fst (rs_interpret s i));
  interpret_others : forall i s s', s' <> s -> rs_iri (snd (rs_interpret s i)) s' = rs_iri i s';
  interpret_known : forall i s x, known (snd (rs_interpret s i)) x <-> x = fst (rs_interpret s i) \/ known i x;
  interpret_names : forall i s x, known i x -> same_names i (snd (rs_interpret s i)) x;
  assign_iri_adds : forall i r s t, named (rt_assign_iri r s i) r t <-> t = TmIri s \/ named i r t;
  assign_blank_adds : forall i r b t, named (rt_assign_blank r b i) r t <-> t = TmBlank b \/ named i r t;
  assign_literal_adds : forall i r l t, named (rt_assign_literal r l i) r t <-> t = TmLit l \/ named i r t
}.
End Laws.
