(** * Specification vocabulary on layouts and registries

    Only the data types of the model are used. *)

From Coq Require Import String List Bool Arith NArith Permutation Sorted Qcanon.
Import ListNotations.
From Verif Require Import Base BaseProofs Orders PatternModel MatchingModel MatchingSpec
  ValueModel ValueProofs LayoutModel.
Open Scope list_scope.
Open Scope nat_scope.

Section Spec.
Context {R : Type} {CR : Cmp R}.

(** [uses l r]: the layout [l] has a sub-layout referred to by [r]. *)
Inductive uses : layout R -> R -> Prop :=
| U_field h fs k f : In (k, f) fs -> uses (ProductL h fs) (vf_layout (it_value (f_item f)))
| U_variant h vs va : In va vs -> uses (SumL h vs) (vf_layout (it_value (va_item va)))
| U_set h it : uses (UnorderedL h it) (vf_layout (it_value it))
| U_list h node hd tl : uses (OrderedL h node hd tl) (vf_layout (it_value node))
| U_tuple h its it : In it its -> uses (SizedL h its) (vf_layout (it_value it)).

Variable reg : registry R.

(** [reaches r r']: [r'] is reached from [r] through the sub-layouts. *)
Inductive reaches : R -> R -> Prop :=
| reaches_refl r : reaches r r
| reaches_step r l r' r'' : reg r = Some l -> uses l r' -> reaches r' r'' -> reaches r r''.

(** Every sub-layout is defined. *)
Definition closed : Prop := forall r l r', reg r = Some l -> uses l r' -> reg r' <> None.

(** The shape of the values of a layout. *)
Inductive Conforms : R -> typed_value R -> Prop :=
| C_always ref : reg ref = Some Always -> Conforms ref (TAlways (VLit LUnit))
| C_unit ref h c : reg ref = Some (UnitL h c) -> Conforms ref (TLit (TUnit c ref))
| C_boolean ref h res dt b :
    reg ref = Some (DataL KBoolean h res dt) -> Conforms ref (TLit (TBool b ref))
| C_number ref h res dt n :
    reg ref = Some (DataL KNumber h res dt) -> Conforms ref (TLit (TNum n ref))
| C_text ref h pat res dt s :
    reg ref = Some (DataL (KTextString pat) h res dt) -> Conforms ref (TLit (TText s ref))
| C_id ref h res pat iri :
    reg ref = Some (IdL h res pat) -> Conforms ref (TLit (TId iri ref))
| C_record ref h fs m :
    reg ref = Some (ProductL h fs) ->
    NoDup (map fst m) ->
    (forall k v, In (k, v) m ->
       exists f, In (k, f) fs /\ Conforms (vf_layout (it_value (f_item f))) v) ->
    (forall k f, In (k, f) fs -> f_required f = true -> In k (map fst m)) ->
    Conforms ref (TMap m ref)
| C_variant ref h vs i va v :
    reg ref = Some (SumL h vs) -> nth_error vs i = Some va ->
    Conforms (vf_layout (it_value (va_item va))) v ->
    Conforms ref (TVariant v ref i)
| C_set ref h it l :
    reg ref = Some (UnorderedL h it) ->
    (forall v, In v l -> Conforms (vf_layout (it_value it)) v) ->
    StronglySorted le l ->
    Conforms ref (TList l ref)
| C_list ref h node hd tl l :
    reg ref = Some (OrderedL h node hd tl) ->
    (forall v, In v l -> Conforms (vf_layout (it_value node)) v) ->
    Conforms ref (TList l ref)
| C_tuple ref h its l :
    reg ref = Some (SizedL h its) -> length l = length its ->
    (forall i it v, nth_error its i = Some it -> nth_error l i = Some v ->
       Conforms (vf_layout (it_value it)) v) ->
    Conforms ref (TList l ref).

(** ** Variables bound by the patterns

    The value of a variable handed to a sub-layout (or read as a literal, or as the bounds of a
    list) must be fixed by the inputs or by the patterns.  *)
Definition fixes (n : nat) (ps : list (qpat R)) (x : nat) : Prop := x < n \/ var_of ps x.

Definition format_bound (B : nat -> Prop) (vf : vformat R) : Prop :=
  (forall x, In (PVar x) (vf_input vf) -> B x) /\
  (forall x, vf_graph vf = Some (Some (PVar x)) -> B x).

Definition item_bound (n : nat) (h : header R) (it : item_layout R) : Prop :=
  format_bound (fun x => fixes n (h_dataset h) x \/ var_of (it_dataset it) x) (it_value it).

Definition variables_bound (l : layout R) : Prop :=
  match l with
  | Never | Always | UnitL _ _ => True
  | DataL _ h res _ | IdL h res _ => forall x, res = PVar x -> fixes 1 (h_dataset h) x
  | ProductL h fs => forall k f, In (k, f) fs -> item_bound (h_input h) h (f_item f)
  | SumL h vs => forall va, In va vs -> item_bound (h_input h) h (va_item va)
  | UnorderedL h it => item_bound (h_input h) h it
  | OrderedL h node hd tl =>
      (forall x, hd = PVar x -> fixes (h_input h) (h_dataset h) x) /\
      (forall x, tl = PVar x -> fixes (h_input h) (h_dataset h) x) /\
      format_bound (fun x => fixes (h_input h) (h_dataset h) x \/
                             x = h_input h + h_intro h \/ var_of (it_dataset node) x)
                   (it_value node) /\
      var_of (it_dataset node) (h_input h + h_intro h + 1)
  | SizedL h its => forall it, In it its -> item_bound (h_input h) h it
  end.
Definition registry_bound : Prop := forall ref l, reg ref = Some l -> variables_bound l.

End Spec.

(** The resources named in the parts of a layout that are read as values belong to [U]. *)
Section Constants.
Context {R : Type}.
Variable U : R -> Prop.

Definition pattern_const (p : pattern R) : Prop := forall r, p = PRes r -> U r.
Definition format_const (vf : vformat R) : Prop := forall p, In p (vf_input vf) -> pattern_const p.

Definition constants_in (l : layout R) : Prop :=
  match l with
  | Never | Always | UnitL _ _ => True
  | DataL _ _ res _ | IdL _ res _ => pattern_const res
  | ProductL _ fs => forall k f, In (k, f) fs -> format_const (it_value (f_item f))
  | SumL _ vs => forall va, In va vs -> format_const (it_value (va_item va))
  | UnorderedL _ it => format_const (it_value it)
  | OrderedL _ node hd tl => pattern_const hd /\ pattern_const tl /\ format_const (it_value node)
  | SizedL _ its => forall it, In it its -> format_const (it_value it)
  end.

Definition quad_in (q : quad R) : Prop :=
  U (q_s q) /\ U (q_p q) /\ U (q_o q) /\ forall g, q_g q = Some g -> U g.
End Constants.

(** ** Variables out of scope

    [undeclared_in l x]: the layout [l] mentions the variable [x] at a place where it is not
    declared.  Literal layouts have one input. *)
Section Scope.
Context {R : Type}.

Definition header_undeclared (inputs : nat) (h : header R) (x : nat) : Prop :=
  var_of (h_dataset h) x /\ inputs + h_intro h <= x.

Definition item_undeclared (n : nat) (it : item_layout R) (x : nat) : Prop :=
  (var_of (it_dataset it) x \/ In (PVar x) (vf_input (it_value it)) \/
   vf_graph (it_value it) = Some (Some (PVar x))) /\
  n + it_intro it <= x.

Definition undeclared_in (l : layout R) (x : nat) : Prop :=
  match l with
  | Never | Always => False
  | UnitL h _ => header_undeclared 1 h x
  | DataL _ h res _ | IdL h res _ =>
      header_undeclared 1 h x \/ (res = PVar x /\ 1 + h_intro h <= x)
  | ProductL h fs =>
      header_undeclared (h_input h) h x \/
      exists k f, In (k, f) fs /\ item_undeclared (h_input h + h_intro h) (f_item f) x
  | SumL h vs =>
      header_undeclared (h_input h) h x \/
      exists va, In va vs /\ item_undeclared (h_input h + h_intro h) (va_item va) x
  | UnorderedL h it =>
      header_undeclared (h_input h) h x \/ item_undeclared (h_input h + h_intro h) it x
  | OrderedL h node hd tl =>
      header_undeclared (h_input h) h x \/
      ((hd = PVar x \/ tl = PVar x) /\ h_input h + h_intro h <= x) \/
      item_undeclared (h_input h + h_intro h + 2) node x
  | SizedL h its =>
      header_undeclared (h_input h) h x \/
      exists it, In it its /\ item_undeclared (h_input h + h_intro h) it x
  end.
End Scope.
