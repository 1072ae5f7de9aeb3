(** * Specification of the generated deserializers: what hydration says of the same layouts *)

From Coq Require Import String List Bool Arith ZArith QArith Qcanon Permutation.
Import ListNotations.
From Verif Require Import Base BaseProofs Orders PatternModel MatchingModel MatchingSpec ValueModel LayoutModel HydrateModel
  HydrateSpec TermModel
  GenDataModel GenModel.
Open Scope list_scope.
Open Scope nat_scope.

(** ** The IRIs of a layout *)

Definition pattern_iris (p : pattern string) : list string :=
  match p with
  | PRes iri => [iri]
  | PVar _ => []
  end.

Definition quad_iris (q : qpat string) : list string :=
  pattern_iris (q_s q) ++ pattern_iris (q_p q) ++ pattern_iris (q_o q) ++
  match q_g q with Some g => pattern_iris g | None => [] end.

Definition format_iris (vf : vformat string) : list string :=
  flat_map pattern_iris (vf_input vf) ++
  match vf_graph vf with Some (Some g) => pattern_iris g | _ => [] end.

Definition item_iris (it : item_layout string) : list string :=
  flat_map quad_iris (it_dataset it) ++ format_iris (it_value it).

Definition header_iris (h : header string) : list string := flat_map quad_iris (h_dataset h).

(** The IRIs in the patterns of a layout. *)
Definition layout_iris (l : layout string) : list string :=
  match l with
  | Never | Always => []
  | UnitL h _ => header_iris h
  | DataL _ h resource _ => header_iris h ++ pattern_iris resource
  | IdL h resource _ => header_iris h ++ pattern_iris resource
  | ProductL h fields =>
      header_iris h ++ flat_map (fun kf : value * field string => item_iris (f_item (snd kf))) fields
  | SumL h variants => header_iris h ++ flat_map (fun v => item_iris (va_item v)) variants
  | UnorderedL h it => header_iris h ++ item_iris it
  | OrderedL h node head tail => header_iris h ++ item_iris node ++ pattern_iris head ++ pattern_iris tail
  | SizedL h items => header_iris h ++ flat_map item_iris items
  end.

(** ** The layouts of a program, once their IRIs are given resources *)

Section Registry.
Context {R : Type}.
Variable res : string -> R.

Definition pattern_at (p : pattern string) : pattern R :=
  match p with
  | PRes iri => PRes (res iri)
  | PVar x => PVar x
  end.

Definition quad_at (q : qpat string) : qpat R :=
  Quad (pattern_at (q_s q)) (pattern_at (q_p q)) (pattern_at (q_o q)) (option_map pattern_at (q_g q)).

Definition format_at (vf : vformat string) : vformat R :=
  VFormat (res (vf_layout vf)) (map pattern_at (vf_input vf)) (option_map (option_map pattern_at) (vf_graph vf)).

Definition item_at (it : item_layout string) : item_layout R :=
  Item (it_intro it) (format_at (it_value it)) (map quad_at (it_dataset it)).

Definition header_at (h : header string) : header R :=
  Header (h_input h) (h_intro h) (map quad_at (h_dataset h)).

Definition field_at (kf : value * field string) : value * field R :=
  (fst kf, Field (item_at (f_item (snd kf))) (f_required (snd kf))).

Definition variant_at (v : variant string) : variant R := Variant (va_name v) (item_at (va_item v)).

Definition layout_at (l : layout string) : layout R :=
  match l with
  | Never => Never
  | Always => Always
  | UnitL h const => UnitL (header_at h) const
  | DataL k h resource datatype => DataL k (header_at h) (pattern_at resource) (res datatype)
  | IdL h resource pat => IdL (header_at h) (pattern_at resource) pat
  | ProductL h fields => ProductL (header_at h) (map field_at fields)
  | SumL h variants => SumL (header_at h) (map variant_at variants)
  | UnorderedL h it => UnorderedL (header_at h) (item_at it)
  | OrderedL h node head tail => OrderedL (header_at h) (item_at node) (pattern_at head) (pattern_at tail)
  | SizedL h items => SizedL (header_at h) (map item_at items)
  end.
End Registry.

(** The layouts of the types of the runtime: the input itself. *)
Definition this : header string := Header 1 0 [].
Definition type_layout (t : rust_type) : layout string :=
  match t with
  | TyId => IdL this (PVar 0) None
  | TyText => DataL (KTextString None) this (PVar 0) xsd_string
  | TyInt ty => DataL KNumber this (PVar 0) (int_datatype ty)
  | TyDerived l _ => l
  end.

(** The datatype of the literals read by a type. *)
Definition type_datatype (t : rust_type) : option string :=
  match type_layout t with
  | DataL _ _ _ datatype => Some datatype
  | _ => None
  end.

(** The values of the literals of a datatype that can be read as a primitive type. *)
Definition readings {IS : IntSyntax} (p : prim) (datatype : string) (ls : list rdf_literal) : list rvalue :=
  flat_map (fun l =>
    let iri := match rl_type l with TypeAny iri => iri | TypeLang _ => rdf_lang_string end in
    if string_dec iri datatype then
      match p with
      | PBool => match boolean_parse (rl_value l) with Some b => [RvBool b] | None => [] end
      | PInt ty => match int_parse ty (rl_value l) with Some z => [RvInt z] | None => [] end
      | PText => [RvText (rl_value l)]
      end
    else []) ls.

(** ** Programs *)

(** A layout for which [DeserializeLd] can be derived on the Rust type it is put on, and for which the
    Rust type of a literal is the one of its layout. *)
Definition fits `{Xsd} (l : layout string) (inner : prim) : Prop :=
  match l with
  | Never | Always => False
  | DataL KBoolean _ _ datatype => inner = PBool /\ datatype = xsd_boolean
  | DataL KNumber _ _ datatype => (exists ty, inner = PInt ty) /\ is_decimal_type datatype = true
  | DataL (KTextString _) _ _ _ => inner = PText
  | DataL KByteString _ _ _ => False
  | ProductL _ fields => bt_wf fields /\ forall kf, In kf fields -> exists name, fst kf = VLit (LText name)
  | SumL _ variants => forall v, In v variants -> it_intro (va_item v) = 0
  | _ => True
  end.

Definition program_fits `{Xsd} (types : program) : Prop :=
  forall ty l inner, types ty = Some (TyDerived l inner) -> fits l inner.

Definition without_sums (types : program) : Prop :=
  forall ty h vs inner, types ty <> Some (TyDerived (SumL h vs) inner).

(** The integers are decimals. *)
Definition integers_are_decimals `{Xsd} `{IntSyntax} : Prop :=
  (forall ty, is_decimal_type (int_datatype ty) = true) /\
  (forall ty s z, int_parse ty s = Some z -> decimal_parse s = Some (Q2Qc (inject_Z z))).

(** The interpretation seen by [hydrate]. *)
Definition seen {R I} {RT : Runtime R I} (i : I) : Interp R :=
  {| iris_of := rt_iris i; literals_of := rt_literals i |}.

Section Program.
Context {R I : Type} {RT : Runtime R I} {RS : Resolver R I} {IS : IntSyntax}.
Variable i : I.
Variable types : program.
Variable res : string -> R.

(** The registry of the layouts of the program. *)
Definition describes (reg : registry R) : Prop :=
  forall ty, reg (res ty) = option_map (fun t => layout_at res (type_layout t)) (types ty).

(** The IRIs of the program are known to the interpretation. *)
Definition interpreted : Prop :=
  (forall ty l inner iri, types ty = Some (TyDerived l inner) -> In iri (layout_iris l) ->
     rs_iri i iri = Some (res iri)) /\
  (forall ty t datatype, types ty = Some t -> type_datatype t = Some datatype ->
     rt_iris i (res datatype) = [datatype]).

(** Each resource has at most one literal of each datatype, and no language string. *)
Definition plain_literals : Prop :=
  forall r, NoDup (map rl_type (rt_literals i r)) /\
    forall l, In l (rt_literals i r) -> exists iri, rl_type l = TypeAny iri.

(** The literals read as integers are integers of the type. *)
Definition in_range : Prop :=
  forall ty t ity l r,
    types ty = Some t -> (t = TyInt ity \/ exists layout, t = TyDerived layout (PInt ity)) ->
    type_datatype t = Some (match rl_type l with TypeAny iri => iri | TypeLang _ => EmptyString end) ->
    In l (rt_literals i r) -> int_parse ity (rl_value l) <> None.

(** The enumerations are discriminated by the dataset [G]: once the inputs are given and the quads of the header
    found, the quads of two variants are never both there. *)
Definition discriminated (G : quad R -> Prop) : Prop :=
  forall ty h vs inner g inputs s n m v w s1 s2,
    types ty = Some (TyDerived (SumL h vs) inner) -> header_sol G g (header_at res h) inputs s ->
    nth_error vs n = Some v -> nth_error vs m = Some w ->
    solution G s (map (at_graph g) (it_dataset (item_at res (va_item v)))) s1 ->
    solution G s (map (at_graph g) (it_dataset (item_at res (va_item w)))) s2 -> n = m.

(** ** The tree of [hydrate] and the Rust value are the same *)

Inductive presents : string -> typed_value R -> rvalue -> Prop :=
| Ps_id ty s : types ty = Some TyId -> presents ty (TLit (TId s (res ty))) (RvId (IdIri s))
| Ps_text ty s : types ty = Some TyText -> presents ty (TLit (TText s (res ty))) (RvText s)
| Ps_int ty ity z :
    types ty = Some (TyInt ity) -> presents ty (TLit (TNum (Q2Qc (inject_Z z)) (res ty))) (RvInt z)
| Ps_unit ty h const inner :
    types ty = Some (TyDerived (UnitL h const) inner) -> presents ty (TLit (TUnit const (res ty))) RvUnit
| Ps_bool ty h resource datatype inner b :
    types ty = Some (TyDerived (DataL KBoolean h resource datatype) inner) ->
    presents ty (TLit (TBool b (res ty))) (RvBool b)
| Ps_number ty h resource datatype inner z :
    types ty = Some (TyDerived (DataL KNumber h resource datatype) inner) ->
    presents ty (TLit (TNum (Q2Qc (inject_Z z)) (res ty))) (RvInt z)
| Ps_string ty pat h resource datatype inner s :
    types ty = Some (TyDerived (DataL (KTextString pat) h resource datatype) inner) ->
    presents ty (TLit (TText s (res ty))) (RvText s)
| Ps_iri ty h resource pat inner s :
    types ty = Some (TyDerived (IdL h resource pat) inner) ->
    presents ty (TLit (TId s (res ty))) (RvId (IdIri s))
| Ps_record ty h fields inner m fs :
    types ty = Some (TyDerived (ProductL h fields) inner) -> presents_fields fields m fs ->
    presents ty (TMap m (res ty)) (RvRecord fs)
| Ps_variant ty h variants inner index variant tv v :
    types ty = Some (TyDerived (SumL h variants) inner) -> nth_error variants index = Some variant ->
    presents (vf_layout (it_value (va_item variant))) tv v ->
    presents ty (TVariant tv (res ty) index) (RvVariant index v)
| Ps_unordered ty h it inner l l' items :
    types ty = Some (TyDerived (UnorderedL h it) inner) -> Permutation l l' ->
    presents_all (map (fun _ => vf_layout (it_value it)) items) l' items ->
    presents ty (TList l (res ty)) (RvVec items)
| Ps_ordered ty h node head tail inner l items :
    types ty = Some (TyDerived (OrderedL h node head tail) inner) ->
    presents_all (map (fun _ => vf_layout (it_value node)) items) l items ->
    presents ty (TList l (res ty)) (RvVec items)
| Ps_sized ty h its inner l items :
    types ty = Some (TyDerived (SizedL h its) inner) ->
    presents_all (map (fun it => vf_layout (it_value it)) its) l items ->
    presents ty (TList l (res ty)) (RvTuple items)
with presents_fields : list (value * field string) -> list (value * typed_value R) ->
                       list (string * option rvalue) -> Prop :=
| Ps_none : presents_fields [] [] []
| Ps_present name f fields tv m v fs :
    presents (vf_layout (it_value (f_item f))) tv v -> presents_fields fields m fs ->
    presents_fields ((VLit (LText name), f) :: fields) ((VLit (LText name), tv) :: m) ((name, Some v) :: fs)
| Ps_absent name f fields m fs :
    f_required f = false -> presents_fields fields m fs ->
    presents_fields ((VLit (LText name), f) :: fields) m ((name, None) :: fs)
with presents_all : list string -> list (typed_value R) -> list rvalue -> Prop :=
| Ps_nil : presents_all [] [] []
| Ps_cons ty tv v tys l items :
    presents ty tv v -> presents_all tys l items -> presents_all (ty :: tys) (tv :: l) (v :: items).
End Program.

(** A blank node identifier in a value. *)
Inductive mentions_blank : rvalue -> Prop :=
| Mb_id b : mentions_blank (RvId (IdBlank b))
| Mb_field fs name v : In (name, Some v) fs -> mentions_blank v -> mentions_blank (RvRecord fs)
| Mb_variant index v : mentions_blank v -> mentions_blank (RvVariant index v)
| Mb_vec items v : In v items -> mentions_blank v -> mentions_blank (RvVec items)
| Mb_tuple items v : In v items -> mentions_blank v -> mentions_blank (RvTuple items).
