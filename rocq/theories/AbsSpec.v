(** * Specification vocabulary on the abstract syntax of layouts

    Only the data types of the model are used, and the lookup functions of scopes. *)

From Coq Require Import String Ascii List Bool Arith NArith.
Import ListNotations.
From Verif Require Import Base BaseProofs PatternModel ValueModel LayoutModel LayoutSpec
  MatchingSpec HydrateModel TermModel DehydrateModel AbsModel.
Open Scope list_scope.
Open Scope nat_scope.

(** ** Names

    [innermost ns name x]: when the names [ns] are declared in this order, [x] is the position of the
    last declaration of [name]. *)
Definition innermost (ns : list string) (name : string) (x : nat) : Prop :=
  nth_error ns x = Some name /\ forall y, x < y -> nth_error ns y <> Some name.

(** The scope [sc] has the variables [ns], declared in this order. *)
Definition sees (sc : scope) (ns : list string) : Prop :=
  sc_count sc = length ns /\
  forall name x, scope_variable sc name = Ok x <-> innermost ns name x.

(** ** Sub-layouts *)
Definition nested_ref (r : alayout_ref alayout) (l : alayout) : Prop := r = RefLayout l.
Definition nested_format (f : aformat alayout) (l : alayout) : Prop :=
  match f with AFormat r _ _ | AFormatLayout r => nested_ref r l end.

(** [nested l l']: the layout [l'] is written directly inside [l]. *)
Inductive nested : alayout -> alayout -> Prop :=
| N_field h fs k f l : In (k, f) fs -> nested_format (ai_value (af_item f)) l -> nested (AProduct h fs) l
| N_variant h vs n v l : In (n, v) vs -> nested_format (av_value v) l -> nested (ASum h vs) l
| N_node h hd rs intro f ds p q l : nested_format f l -> nested (AOrdered h (ANode hd rs intro f ds) p q) l
| N_node_layout h r p q l : nested_ref r l -> nested (AOrdered h (ANodeLayout r) p q) l
| N_item h it l : nested_format (ai_value it) l -> nested (AUnordered h it) l
| N_tuple h its it l : In it its -> nested_format (ai_value it) l -> nested (ASized h its) l.

(** [inside l l']: [l'] is [l] or is written inside it at any depth. *)
Inductive inside : alayout -> alayout -> Prop :=
| inside_self l : inside l l
| inside_nested l l' l'' : nested l l' -> inside l' l'' -> inside l l''.

(** ** Undeclared names *)

Definition quad_names (q : quad apattern) (name : string) : Prop :=
  q_s q = AVar name \/ q_p q = AVar name \/ q_o q = AVar name \/ q_g q = Some (AVar name).
Definition dataset_names (ds : list (quad apattern)) (name : string) : Prop :=
  exists q, In q ds /\ quad_names q name.

(** The names used by a format; without explicit inputs a format uses the variable [default]. *)
Definition format_names (default : string) (f : aformat alayout) (name : string) : Prop :=
  match f with
  | AFormat _ input graph => In (AVar name) input \/ graph = Some (Some (AVar name))
  | AFormatLayout _ => name = default
  end.

Definition item_names (it : aitem alayout) (name : string) : Prop :=
  dataset_names (ai_dataset it) name \/ ai_property it = Some (AVar name) \/
  format_names "value" (ai_value it) name.

Definition header_of (l : alayout) : option aheader :=
  match l with
  | AUnit h _ | ALiteralL _ h _ | AProduct h _ | ASum h _ | AOrdered h _ _ _ | AUnordered h _
  | ASized h _ | AUnion h | AIntersection h => Some h
  | ABool _ => None
  end.

(** The names declared by the header: the inputs, then the introduced variables. *)
Definition header_names (h : aheader) : list string := ah_input h ++ ah_intro h.

(** [uses_undeclared l name]: the layout [l] itself uses [name] where it is not declared. *)
Inductive uses_undeclared : alayout -> string -> Prop :=
| UU_dataset l h name :
    header_of l = Some h -> dataset_names (ah_dataset h) name -> ~ In name (header_names h) ->
    uses_undeclared l name
| UU_resource k h name :
    ~ In name (header_names h) -> uses_undeclared (ALiteralL k h (Some (AVar name))) name
| UU_field h fs k f name :
    In (k, f) fs -> item_names (af_item f) name ->
    ~ In name (header_names h ++ ai_intro (af_item f)) -> uses_undeclared (AProduct h fs) name
| UU_variant h vs n v name :
    In (n, v) vs -> dataset_names (av_dataset v) name \/ format_names "self" (av_value v) name ->
    ~ In name (header_names h ++ av_intro v) -> uses_undeclared (ASum h vs) name
| UU_node h hd rs intro f ds p q name :
    (exists d, ds = Some d /\ dataset_names d name) \/ format_names "value" f name ->
    ~ In name (header_names h ++ [hd; rs] ++ intro) ->
    uses_undeclared (AOrdered h (ANode hd rs intro f ds) p q) name
| UU_bounds h n p q name :
    p = AVar name \/ q = AVar name -> ~ In name (header_names h) ->
    uses_undeclared (AOrdered h n p q) name
| UU_item h it name :
    item_names it name -> ~ In name (header_names h ++ ai_intro it) ->
    uses_undeclared (AUnordered h it) name
| UU_tuple h its it name :
    In it its -> item_names it name -> ~ In name (header_names h ++ ai_intro it) ->
    uses_undeclared (ASized h its) name.

(** The layouts of a builder, without their regular expressions. *)
Definition prelayout_of {R} (p : prelayout R) (l : layout R) : Prop :=
  match p with
  | PreOf l' => l = l'
  | PreText _ h res dt => exists d, l = DataL (KTextString d) h res dt
  | PreId h res _ => exists d, l = IdL h res d
  | PreUnion _ | PreIntersection _ => False
  end.

(** Every literal layout of the document has at most one input. *)
Definition literal_inputs (l : alayout) : Prop :=
  forall l', inside l l' ->
    match l' with
    | AUnit h _ | ALiteralL _ h _ => length (ah_input h) <= 1
    | _ => True
    end.

(** ** IRIs *)

(** [absolute s scheme suffix]: the reference [s] is the IRI [scheme:suffix]. *)
Definition no_delimiter (s : string) : Prop :=
  forall n c, String.get n s = Some c -> c <> ":"%char /\ c <> "/"%char /\ c <> "?"%char /\ c <> "#"%char.
Definition absolute (s scheme suffix : string) : Prop :=
  s = (scheme ++ String ":" suffix)%string /\ no_delimiter scheme.

(** ** What a document means

    The meaning of the abstract syntax, as a relation between a layout and the definitions of
    a builder.  It does not use the functions of the model of the compilation. *)

(** [rdf:] and [xsd:]. *)
Definition rdf_ns (name : string) : string := ("http://www.w3.org/1999/02/22-rdf-syntax-ns#" ++ name)%string.
Definition xsd_ns (name : string) : string := ("http://www.w3.org/2001/XMLSchema#" ++ name)%string.

(** The base and the prefixes in force. *)
Record ienv : Type := IEnv { e_base : option string; e_prefix : string -> option string }.

Definition no_env : ienv := IEnv None (fun _ => None).

Section Meaning.
Context {IS : IriSyntax} {AE : AbsExternal}.

Definition iri_denotes (env : ienv) (i i' : string) : Prop :=
  (exists scheme suffix, absolute i scheme suffix /\
     match e_prefix env scheme with
     | Some prefix => i' = (prefix ++ suffix)%string /\ is_iri i' = true
     | None => i' = i
     end) \/
  ((forall scheme suffix, ~ absolute i scheme suffix) /\
   exists base, e_base env = Some base /\ i' = iri_resolved base i).

(** The last declaration of the prefix [name] by the header. *)
Definition declared_prefix (h : aheader) (name : string) (p : compact_iri) : Prop :=
  exists before after, ah_prefixes h = before ++ (name, p) :: after /\ forall q, ~ In (name, q) after.

(** The base and the prefixes inside a layout: those of its header, read in the environment of the
    layout, then the ones of the environment. *)
Definition header_env (env : ienv) (h : aheader) (env' : ienv) : Prop :=
  (forall name,
     (forall p, declared_prefix h name p ->
        exists p', iri_denotes env p p' /\ e_prefix env' name = Some p') /\
     ((forall p, ~ In (name, p) (ah_prefixes h)) -> e_prefix env' name = e_prefix env name)) /\
  match ah_base h with
  | Some b => exists b', iri_denotes env b b' /\ e_base env' = Some b'
  | None => e_base env' = e_base env
  end.

(** [res_iri i r], [res_lit l r]: the resource [r] is the one of the IRI [i], of the literal [l];
    [defs]: the definitions. *)
Context {R : Type} {CR : Cmp R} (res_iri : string -> R -> Prop) (res_lit : rdf_literal -> R -> Prop)
  (defs : R -> option (prelayout R)).

Definition type_denotes (env : ienv) (ty : alit_type) (ty' : lit_type) : Prop :=
  match ty with
  | ATypeIri i => exists i', iri_denotes env i i' /\ ty' = TypeAny i'
  | ATypeLang tag => ty' = TypeLang tag
  end.

Definition pat_denotes (env : ienv) (ns : list string) (p : apattern) (p' : pattern R) : Prop :=
  match p with
  | AVar name => exists x, innermost ns name x /\ p' = PVar x
  | AIri i => exists i' r, iri_denotes env i i' /\ res_iri i' r /\ p' = PRes r
  | ALiteral v ty => exists ty' r, type_denotes env ty ty' /\ res_lit (RdfLiteral v ty') r /\ p' = PRes r
  end.

Definition quad_denotes (env : ienv) (ns : list string) (q : quad apattern) (q' : qpat R) : Prop :=
  pat_denotes env ns (q_s q) (q_s q') /\ pat_denotes env ns (q_p q) (q_p q') /\
  pat_denotes env ns (q_o q) (q_o q') /\
  match q_g q, q_g q' with
  | None, None => True
  | Some g, Some g' => pat_denotes env ns g g'
  | _, _ => False
  end.

(** The dataset [ds'] contains the meaning of [ds] and the quads [extra], and nothing else. *)
Definition dataset_denotes (env : ienv) (ns : list string) (ds : list (quad apattern))
    (extra ds' : list (qpat R)) : Prop :=
  NoDup ds' /\
  (forall q, In q ds -> exists q', In q' ds' /\ quad_denotes env ns q q') /\
  (forall q', In q' extra -> In q' ds') /\
  (forall q', In q' ds' -> In q' extra \/ exists q, In q ds /\ quad_denotes env ns q q').

Definition header_denotes (env : ienv) (h : aheader) (env' : ienv) (h' : header R) : Prop :=
  header_env env h env' /\
  h_input h' = length (ah_input h) /\ h_intro h' = length (ah_intro h) /\
  dataset_denotes env' (header_names h) (ah_dataset h) [] (h_dataset h').

(** Without explicit resource, a literal layout represents its first input. *)
Definition resource_denotes (env : ienv) (h : aheader) (res : option apattern) (res' : pattern R) : Prop :=
  match res with
  | Some p => pat_denotes env (header_names h) p res'
  | None => ah_input h <> [] /\ res' = PVar 0
  end.

Definition iri_resource_denotes (env : ienv) (i : string) (r : R) : Prop :=
  exists i', iri_denotes env i i' /\ res_iri i' r.

Definition datatype_denotes (env : ienv) (dt : option compact_iri) (default : string) (r : R) : Prop :=
  match dt with
  | Some i => iri_resource_denotes env i r
  | None => res_iri default r
  end.

Definition literal_denotes (env : ienv) (k : aliteral_kind) (hd : header R) (res : pattern R)
    (p : prelayout R) : Prop :=
  match k with
  | AKBoolean dt => exists r, datatype_denotes env dt (xsd_ns "boolean") r /\ p = PreOf (DataL KBoolean hd res r)
  | AKNumber dt => exists r, iri_resource_denotes env dt r /\ p = PreOf (DataL KNumber hd res r)
  | AKByteString dt => exists r, iri_resource_denotes env dt r /\ p = PreOf (DataL KByteString hd res r)
  | AKTextString pat dt => exists r, datatype_denotes env dt (xsd_ns "string") r /\ p = PreText pat hd res r
  | AKId pat => p = PreId hd res pat
  end.

Section Nested.
(** [nested_denotes l r]: the nested layout [l] is defined by the resource [r]. *)
Context (nested_denotes : alayout -> R -> Prop).

Definition ref_denotes (env : ienv) (r : alayout_ref alayout) (r' : R) : Prop :=
  match r with
  | RefIri i => iri_resource_denotes env i r'
  | RefLayout l => nested_denotes l r'
  end.

Definition format_denotes (env : ienv) (ns : list string) (default : string) (f : aformat alayout)
    (f' : vformat R) : Prop :=
  match f with
  | AFormat r input graph =>
      ref_denotes env r (vf_layout f') /\ Forall2 (pat_denotes env ns) input (vf_input f') /\
      match graph, vf_graph f' with
      | None, None => True
      | Some None, Some None => True
      | Some (Some g), Some (Some g') => pat_denotes env ns g g'
      | _, _ => False
      end
  | AFormatLayout r =>
      ref_denotes env r (vf_layout f') /\ vf_graph f' = None /\
      exists x, innermost ns default x /\ vf_input f' = [PVar x]
  end.

(** The entry [property]: the quad from the first input to the first variable of the item.
    [inputs]: number of inputs; [ns]: the names declared by the header. *)
Definition property_denotes (env : ienv) (inputs : nat) (ns : list string) (it : aitem alayout)
    (extra : list (qpat R)) : Prop :=
  match ai_property it with
  | None => extra = []
  | Some p =>
      inputs <> 0 /\ ai_intro it <> [] /\
      exists p', pat_denotes env (ns ++ ai_intro it) p p' /\
                 extra = [Quad (PVar 0) p' (PVar (length ns)) None]
  end.

Definition item_denotes (env : ienv) (inputs : nat) (ns : list string) (it : aitem alayout)
    (it' : item_layout R) : Prop :=
  it_intro it' = length (ai_intro it) /\
  format_denotes env (ns ++ ai_intro it) "value" (ai_value it) (it_value it') /\
  exists extra, property_denotes env inputs ns it extra /\
    dataset_denotes env (ns ++ ai_intro it) (ai_dataset it) extra (it_dataset it').

Definition variant_denotes (env : ienv) (ns : list string) (nv : string * avariant alayout)
    (v' : variant R) : Prop :=
  let (name, v) := nv in
  va_name v' = name /\ it_intro (va_item v') = length (av_intro v) /\
  format_denotes env (ns ++ av_intro v) "self" (av_value v) (it_value (va_item v')) /\
  dataset_denotes env (ns ++ av_intro v) (av_dataset v) [] (it_dataset (va_item v')).

(** The two quads of a list node. *)
Definition list_quads (head : nat) (first : pattern R) (ds : list (qpat R)) : Prop :=
  NoDup ds /\ exists f r, res_iri (rdf_ns "first") f /\ res_iri (rdf_ns "rest") r /\
    forall q, In q ds <-> q = Quad (PVar head) (PRes f) first None \/
                          q = Quad (PVar head) (PRes r) (PVar (head + 1)) None.

Definition node_denotes (env : ienv) (ns : list string) (n : anode alayout) (it' : item_layout R) : Prop :=
  match n with
  | ANode hd rs intro f ds =>
      let ns' := ns ++ [hd; rs] ++ intro in
      it_intro it' = length intro /\
      format_denotes env ns' "value" f (it_value it') /\
      match ds with
      | Some ds => dataset_denotes env ns' ds [] (it_dataset it')
      | None =>
          match f with
          | AFormat _ [p] _ => exists first, pat_denotes env ns' p first /\
                                             list_quads (length ns) first (it_dataset it')
          | AFormat _ _ _ => it_dataset it' = []
          | AFormatLayout _ => exists x, innermost ns' "value" x /\
                                         list_quads (length ns) (PVar x) (it_dataset it')
          end
      end
  | ANodeLayout r =>
      it_intro it' = 1 /\ ref_denotes env r (vf_layout (it_value it')) /\
      vf_input (it_value it') = [PVar (length ns + 2)] /\ vf_graph (it_value it') = None /\
      list_quads (length ns) (PVar (length ns + 2)) (it_dataset it')
  end.
End Nested.

Section All2.
Context {A B : Type} (Q : A -> B -> Prop).
Fixpoint all2 (l : list A) (l' : list B) : Prop :=
  match l, l' with
  | [], [] => True
  | a :: l, b :: l' => Q a b /\ all2 l l'
  | _, _ => False
  end.
End All2.

Definition layout_denotes (rec : ienv -> alayout -> R -> Prop) (env : ienv) (l : alayout)
    (p : prelayout R) : Prop :=
  match l with
  | AUnit h c => exists env' hd, header_denotes env h env' hd /\ p = PreOf (UnitL hd c)
  | ALiteralL k h res =>
      exists env' hd res', header_denotes env h env' hd /\ resource_denotes env' h res res' /\
        literal_denotes env' k hd res' p
  | AProduct h fs =>
      exists env' hd fs', header_denotes env h env' hd /\
        all2 (fun kf kf' => fst kf' = fst kf /\ f_required (snd kf') = af_required (snd kf) /\
                item_denotes (rec env') env' (length (ah_input h)) (header_names h)
                  (af_item (snd kf)) (f_item (snd kf'))) fs fs' /\
        p = PreOf (ProductL hd (bt_collect fs'))
  | ASum h vs =>
      exists env' hd vs', header_denotes env h env' hd /\
        all2 (variant_denotes (rec env') env' (header_names h)) vs vs' /\ p = PreOf (SumL hd vs')
  | AOrdered h n head tail =>
      exists env' hd n' head' tail', header_denotes env h env' hd /\
        node_denotes (rec env') env' (header_names h) n n' /\
        pat_denotes env' (header_names h) head head' /\ pat_denotes env' (header_names h) tail tail' /\
        p = PreOf (OrderedL hd n' head' tail')
  | AUnordered h it =>
      exists env' hd it', header_denotes env h env' hd /\
        item_denotes (rec env') env' (length (ah_input h)) (header_names h) it it' /\
        p = PreOf (UnorderedL hd it')
  | ASized h its =>
      exists env' hd its', header_denotes env h env' hd /\
        all2 (fun it it' => item_denotes (rec env') env' (length (ah_input h)) (header_names h) it it') its its' /\
        p = PreOf (SizedL hd its')
  | ABool b => p = PreOf (if b then Always else Never)
  | AUnion _ | AIntersection _ => False
  end.

(** [compiled env l r]: the resource [r] is defined by the meaning of [l]; it is the identifier of
    the layout, if it has one, read in the environment of the layout. *)
Fixpoint compiled (env : ienv) (l : alayout) (r : R) : Prop :=
  (forall h i, header_of l = Some h -> ah_id h = Some i -> iri_resource_denotes env i r) /\
  exists p, defs r = Some p /\ layout_denotes (fun env l => compiled env l) env l p.
End Meaning.
