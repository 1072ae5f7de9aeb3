(** * What dehydration must produce

    Specification vocabulary for dehydration.  Only the data types of the model are used. *)

From Coq Require Import String List Bool Arith NArith Qcanon Permutation.
Import ListNotations.
From Verif Require Import Base BaseProofs Orders PatternModel ValueModel LayoutModel HydrateModel TermModel
  LayoutSpec DehydrateModel.
Open Scope list_scope.
Open Scope nat_scope.

(** The quad pattern [p] appears in the layout [l]. *)
Inductive quad_pattern_of {Q} : layout Q -> qpat Q -> Prop :=
| qp_unit h c p : In p (h_dataset h) -> quad_pattern_of (UnitL h c) p
| qp_data k h r dt p : In p (h_dataset h) -> quad_pattern_of (DataL k h r dt) p
| qp_id h r pat p : In p (h_dataset h) -> quad_pattern_of (IdL h r pat) p
| qp_product h fs p : In p (h_dataset h) -> quad_pattern_of (ProductL h fs) p
| qp_field h fs k f p :
    In (k, f) fs -> In p (it_dataset (f_item f)) -> quad_pattern_of (ProductL h fs) p
| qp_sum h vs p : In p (h_dataset h) -> quad_pattern_of (SumL h vs) p
| qp_variant h vs va p :
    In va vs -> In p (it_dataset (va_item va)) -> quad_pattern_of (SumL h vs) p
| qp_unordered h it p : In p (h_dataset h) -> quad_pattern_of (UnorderedL h it) p
| qp_item h it p : In p (it_dataset it) -> quad_pattern_of (UnorderedL h it) p
| qp_ordered h node hd tl p : In p (h_dataset h) -> quad_pattern_of (OrderedL h node hd tl) p
| qp_node h node hd tl p : In p (it_dataset node) -> quad_pattern_of (OrderedL h node hd tl) p
| qp_sized h its p : In p (h_dataset h) -> quad_pattern_of (SizedL h its) p
| qp_sized_item h its it p :
    In it its -> In p (it_dataset it) -> quad_pattern_of (SizedL h its) p.

Section Instances.
Context {Q S : Type}.
Variable into : Q -> S.

(** [r] is the instance of the pattern in the environment [env]: the value of its variable, or
    the resource it names. *)
Inductive inst (env : list S) : pattern Q -> S -> Prop :=
| inst_res q : inst env (PRes q) (into q)
| inst_var x r : nth_error env x = Some r -> inst env (PVar x) r.

Inductive inst_opt (env : list S) : option (pattern Q) -> option S -> Prop :=
| inst_none : inst_opt env None None
| inst_some p r : inst env p r -> inst_opt env (Some p) (Some r).

Definition inst_quad (env : list S) (p : qpat Q) (q : quad S) : Prop :=
  inst env (q_s p) (q_s q) /\ inst env (q_p p) (q_p q) /\ inst env (q_o p) (q_o q) /\
  inst_opt env (q_g p) (q_g q).

(** Every pattern has an instance in the set [O]. *)
Definition stated (O : quad S -> Prop) (env : list S) (ps : list (qpat Q)) : Prop :=
  forall p, In p ps -> exists q, O q /\ inst_quad env p q.

(** The quad is an instance of a pattern of a layout of the registry. *)
Definition registry_instance (reg : registry Q) (q : quad S) : Prop :=
  exists ref l p env, reg ref = Some l /\ quad_pattern_of l p /\ inst_quad env p q.

End Instances.

(** The lexical forms produced for a literal: [literal_form k dt v l], where [dt ty] tells that [ty]
    is an IRI of the datatype. *)
Inductive literal_form {X : Xsd} (dt : string -> Prop) : data_kind -> literal -> rdf_literal -> Prop :=
| lf_true : dt xsd_boolean ->
    literal_form dt KBoolean (LBool true) (RdfLiteral "true" (TypeAny xsd_boolean))
| lf_false : dt xsd_boolean ->
    literal_form dt KBoolean (LBool false) (RdfLiteral "false" (TypeAny xsd_boolean))
| lf_number n s ty : dt ty -> is_decimal_type ty = true -> decimal_print n = Some s ->
    literal_form dt KNumber (LNum n) (RdfLiteral s (TypeAny ty))
| lf_text pat s ty : dt ty ->
    literal_form dt (KTextString pat) (LText s) (RdfLiteral s (TypeAny ty)).

Section Emits.
Context {S : Type} {X : Xsd} {IS : IriSyntax}.
Variable into : term -> S.
(** The set of quads and the terms denoting the resources. *)
Variable O : quad S -> Prop.
Variable A : S -> term -> Prop.
Variable reg : registry term.

(** The resources introduced, followed by the quads stated about them. *)
Definition opens (env : list S) (n : nat) (ps : list (qpat term)) (env' : list S) : Prop :=
  exists rs, length rs = n /\ env' = env ++ rs /\ stated into O env' ps.

Definition type_iri (dt : term) (ty : string) : Prop := dt = TmIri ty \/ A (into dt) (TmIri ty).

(** [Emits ref inputs v]: the quads [O] and the terms [A] represent the value [v] according to the layout
    [ref]. *)
Inductive Emits : term -> list S -> value -> Prop :=
| E_always ref inputs v : reg ref = Some Always -> Emits ref inputs v
| E_unit ref inputs h c env :
    reg ref = Some (UnitL h c) -> length inputs = 1 ->
    opens inputs (h_intro h) (h_dataset h) env ->
    Emits ref inputs c
| E_data ref inputs k h res dt env r v l :
    reg ref = Some (DataL k h res dt) -> length inputs = 1 ->
    opens inputs (h_intro h) (h_dataset h) env ->
    inst into env res r -> literal_form (type_iri dt) k v l -> A r (TmLit l) ->
    Emits ref inputs (VLit v)
| E_id ref inputs h res pat env r s :
    reg ref = Some (IdL h res pat) -> length inputs = 1 ->
    opens inputs (h_intro h) (h_dataset h) env ->
    inst into env res r -> is_iri s = true -> A r (TmIri s) ->
    Emits ref inputs (VLit (LText s))
| E_product ref inputs h fs env m :
    reg ref = Some (ProductL h fs) -> length inputs = h_input h ->
    opens inputs (h_intro h) (h_dataset h) env ->
    (forall k v, In (k, v) m -> EmitsEntry env fs k v) ->
    (forall k f, In (k, f) fs -> f_required f = true -> In k (map fst m)) ->
    Emits ref inputs (VMap m)
| E_sum ref inputs h vs env va v :
    reg ref = Some (SumL h vs) -> length inputs = h_input h ->
    opens inputs (h_intro h) (h_dataset h) env ->
    In va vs -> EmitsItem env (va_item va) v ->
    Emits ref inputs v
| E_unordered ref inputs h it env l :
    reg ref = Some (UnorderedL h it) -> length inputs = h_input h ->
    opens inputs (h_intro h) (h_dataset h) env ->
    (forall v, In v l -> EmitsItem env it v) ->
    Emits ref inputs (VList l)
| E_ordered ref inputs h node hd tl env head l :
    reg ref = Some (OrderedL h node hd tl) -> length inputs = h_input h ->
    opens inputs (h_intro h) (h_dataset h) env ->
    inst into env hd head ->
    EmitsNodes env node tl head l ->
    Emits ref inputs (VList l)
| E_sized ref inputs h its env l :
    reg ref = Some (SizedL h its) -> length inputs = h_input h ->
    opens inputs (h_intro h) (h_dataset h) env ->
    EmitsTuple env its l ->
    Emits ref inputs (VList l)

(** An entry of a record. *)
with EmitsEntry : list S -> list (value * field term) -> value -> value -> Prop :=
| EE env fs k f v : In (k, f) fs -> EmitsItem env (f_item f) v -> EmitsEntry env fs k v

(** A component (field, variant, item) of a layout. *)
with EmitsItem : list S -> item_layout term -> value -> Prop :=
| EI env it env' inputs v :
    opens env (it_intro it) (it_dataset it) env' ->
    Forall2 (inst into env') (vf_input (it_value it)) inputs ->
    Emits (vf_layout (it_value it)) inputs v ->
    EmitsItem env it v

(** The nodes of an ordered list, from [head]; the last one is linked to the tail. *)
with EmitsNodes : list S -> item_layout term -> pattern term -> S -> list value -> Prop :=
| EN_nil env node tl head : EmitsNodes env node tl head []
| EN_last env node tl head tail v :
    inst into env tl tail ->
    EmitsItem (env ++ [head; tail]) node v ->
    EmitsNodes env node tl head [v]
| EN_cons env node tl head rest v l :
    l <> [] ->
    EmitsItem (env ++ [head; rest]) node v ->
    EmitsNodes env node tl rest l ->
    EmitsNodes env node tl head (v :: l)

with EmitsTuple : list S -> list (item_layout term) -> list value -> Prop :=
| ET_nil env : EmitsTuple env [] []
| ET_cons env it its v l :
    EmitsItem env it v -> EmitsTuple env its l -> EmitsTuple env (it :: its) (v :: l).

End Emits.

Scheme Emits_min := Minimality for Emits Sort Prop
  with EmitsEntry_min := Minimality for EmitsEntry Sort Prop
  with EmitsItem_min := Minimality for EmitsItem Sort Prop
  with EmitsNodes_min := Minimality for EmitsNodes Sort Prop
  with EmitsTuple_min := Minimality for EmitsTuple Sort Prop.
Combined Scheme Emits_mutind from Emits_min, EmitsEntry_min, EmitsItem_min, EmitsNodes_min,
  EmitsTuple_min.

(** A quad with its resources replaced. *)
Definition quad_map {S S'} (f : S -> S') (q : quad S) : quad S' :=
  Quad (f (q_s q)) (f (q_p q)) (f (q_o q)) (option_map f (q_g q)).

(** The resources of an environment, outermost first. *)
Fixpoint env_list {S} (e : env S) : list S :=
  match e with
  | Root inputs => inputs
  | Child parent intros => env_list parent ++ intros
  end.

(** ** The calls made on the interpretation

    [traced ops] behaves as [ops] and records the resources created and the terms assigned. *)
Inductive event (S : Type) : Type :=
| ENew (r : S)
| EAssign (r : S) (t : term).
Arguments ENew {S} r.
Arguments EAssign {S} r t.

Definition traced {Q S I} (ops : interpretation Q S I)
  : interpretation Q S (I * list (event S)) := {|
  into := into ops;
  new_resource := fun il =>
    let (r, i) := new_resource ops (fst il) in (r, (i, snd il ++ [ENew r]));
  assign_iri := fun r s il => (assign_iri ops r s (fst il), snd il ++ [EAssign r (TmIri s)]);
  assign_literal := fun r l il => (assign_literal ops r l (fst il), snd il ++ [EAssign r (TmLit l)]);
  iris_in := fun il => iris_in ops (fst il)
|}.

(** The resources created. *)
Definition news {S} (log : list (event S)) : list S :=
  flat_map (fun e => match e with ENew r => [r] | EAssign _ _ => [] end) log.

(** The calls made by [dehydrate_with]. *)
Definition trace {Q S I} {CS : Cmp S} {X : Xsd} {IS : IriSyntax} (ops : interpretation Q S I)
  (reg : registry Q) fuel v g ref inputs (st : dstate S I) : list (event S) :=
  snd (ds_interp (snd (dehydrate_with (traced ops) reg fuel v g ref inputs
                         (DState (ds_interp st, []) (ds_output st))))).

(** A record layout with all its fields made optional. *)
Definition all_optional {Q} (fs : list (value * field Q)) : list (value * field Q) :=
  map (fun kf => (fst kf, Field (f_item (snd kf)) false)) fs.

(** [part v w]: [v] is [w] or appears in it. *)
Inductive part : value -> value -> Prop :=
| part_refl v : part v v
| part_entry v k w m : In (k, w) m -> part v w -> part v (VMap m)
| part_item v w l : In w l -> part v w -> part v (VList l).

(** The layouts of literals for which dehydration is implemented. *)
Definition supported {X : Xsd} (l : layout term) : Prop :=
  match l with
  | DataL KBoolean _ _ dt => dt = TmIri xsd_boolean
  | DataL KNumber _ _ dt => exists ty, dt = TmIri ty /\ is_decimal_type ty = true
  | DataL KByteString _ _ _ => False
  | DataL (KTextString _) _ _ dt => exists ty, dt = TmIri ty
  | _ => True
  end.

(** ** Trying the variants of a sum

    [attempt va]: the value is dehydrated as the component [va], its own quads apart.
    [Attempts vs st bs st']: the variants [vs] are tried one after the other from the state [st], each keeping the effects of
    the previous ones; [bs] tells which accept the value. *)
Section Attempts.
Context {Q S I : Type} {CS : Cmp S} {X : Xsd} {IS : IriSyntax}.
Variable ops : interpretation Q S I.
Variable reg : registry Q.

Definition attempt fuel (v : value) (g : option S) (e : env S) (va : variant Q)
  : M (Q := Q) (S := S) (I := I) (env S) :=
  bindM (env_intro ops e (it_intro (va_item va))) (fun e' =>
  bindM (dehydrate_sub_value ops (dehydrate_with ops reg fuel) v g (it_value (va_item va)) e') (fun _ =>
  ret e')).

Inductive Attempts fuel v g (e : env S)
  : list (variant Q) -> dstate S I -> list (option (env S)) -> dstate S I -> Prop :=
| At_nil st : Attempts fuel v g e [] st [] st
| At_accept va vs st e' st1 bs st2 :
    attempt fuel v g e va st = (Ok e', st1) -> Attempts fuel v g e vs st1 bs st2 ->
    Attempts fuel v g e (va :: vs) st (Some e' :: bs) st2
| At_reject va vs st err st1 bs st2 :
    attempt fuel v g e va st = (Err err, st1) -> Attempts fuel v g e vs st1 bs st2 ->
    Attempts fuel v g e (va :: vs) st (None :: bs) st2.
End Attempts.
