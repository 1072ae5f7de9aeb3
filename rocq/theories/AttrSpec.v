(** * Specification of the attributes of the derive macros *)

From Coq Require Import String Ascii List Bool Arith Permutation.
Import ListNotations.
From Verif Require Import Base BaseProofs Orders PatternModel ValueModel LayoutModel RegexpModel AbsModel AbsJsonModel
  DehydrateModel VariableSpec AttrModel.
Open Scope list_scope.
Open Scope nat_scope.

(** ** Grammar *)

(** Items separated by commas; a comma may follow the last one. *)
Inductive separated {A} (item : list token -> A -> Prop) : list token -> list A -> Prop :=
| Sep_none : separated item [] []
| Sep_last ts x : item ts x -> separated item ts [x]
| Sep_next ts x ts' xs : item ts x -> separated item ts' xs ->
    separated item (ts ++ TkPunct "," :: ts') (x :: xs).

Section Grammar.
Context {TS : TextSyntax}.

(** A text is a pattern: the blank node identifiers whose name is the one of a variable are variables, the IRI
    references are IRIs. *)
Inductive pattern_text : string -> apattern -> Prop :=
| Pt_var s name : blank_suffix s = Some name -> variable_name name -> pattern_text s (AVar name)
| Pt_iri s : blank_suffix s = None -> is_iri_ref s = true -> pattern_text s (AIri s).

Definition string_item (ts : list token) (s : string) : Prop := ts = [TkStr s].
Definition pattern_item (ts : list token) (p : apattern) : Prop :=
  exists s, ts = [TkStr s] /\ pattern_text s p.

(** The patterns of a quad are separated by commas.  A comma may follow the object; anything may follow
    the graph. *)
Inductive quad_item : list token -> quad apattern -> Prop :=
| Qi_triple s p o s' p' o' : pattern_text s s' -> pattern_text p p' -> pattern_text o o' ->
    quad_item [TkGroup [TkStr s; TkPunct ","; TkStr p; TkPunct ","; TkStr o]] (Quad s' p' o' None)
| Qi_comma s p o s' p' o' : pattern_text s s' -> pattern_text p p' -> pattern_text o o' ->
    quad_item [TkGroup [TkStr s; TkPunct ","; TkStr p; TkPunct ","; TkStr o; TkPunct ","]] (Quad s' p' o' None)
| Qi_graph s p o g s' p' o' g' ignored :
    pattern_text s s' -> pattern_text p p' -> pattern_text o o' -> pattern_text g g' ->
    quad_item [TkGroup (TkStr s :: TkPunct "," :: TkStr p :: TkPunct "," :: TkStr o :: TkPunct "," ::
                        TkStr g :: ignored)] (Quad s' p' o' (Some g')).

(** ["name" = "iri"] *)
Inductive binding_item : list token -> string * compact_iri -> Prop :=
| Bi_binding name iri : is_iri_ref iri = true ->
    binding_item [TkStr name; TkPunct "="; TkStr iri] (name, iri).

(** [_] keeps the graph, [None] is the default graph, [Some("..")] another graph; anything may follow
    its parentheses or its pattern. *)
Inductive graph_arg : list token -> option (option apattern) -> Prop :=
| Gr_keep : graph_arg [TkIdent "_"] None
| Gr_none : graph_arg [TkIdent "None"] (Some None)
| Gr_some s p ignored ignored' : pattern_text s p ->
    graph_arg (TkIdent "Some" :: TkGroup (TkStr s :: ignored) :: ignored') (Some (Some p)).

(** *** Attributes of a type *)

Inductive type_setting : Type :=
| SetKind (k : kind)
| SetBase (iri : compact_iri)
| SetPrefixes (l : list (string * compact_iri))
| SetHead (p : apattern)
| SetTail (p : apattern)
| SetResource (p : apattern)
| SetDatatype (iri : compact_iri)
| SetInput (l : list string)
| SetIntro (l : list string)
| SetDataset (ds : list (quad apattern))
| SetNothing.

(** The kinds and their names. *)
Definition kind_of (name : string) (k : kind) : Prop :=
  match k with
  | KdId => name = "id" | KdUnit => name = "unit" | KdBoolean => name = "boolean" | KdNumber => name = "number"
  | KdString => name = "string" | KdBytes => name = "bytes" | KdRecord => name = "record" | KdSum => name = "sum"
  | KdSet => name = "set" | KdList => name = "list" | KdTuple => name = "tuple"
  end%string.

Definition type_words : list string :=
  ["id"; "unit"; "boolean"; "number"; "string"; "bytes"; "record"; "sum"; "set"; "list"; "tuple";
   "base"; "prefix"; "head"; "tail"; "resource"; "datatype"; "input"; "intro"; "dataset"]%string.

Inductive type_item : list token -> type_setting -> Prop :=
| Ti_kind name k : kind_of name k -> type_item [TkIdent name] (SetKind k)
| Ti_base s : is_iri_ref s = true -> type_item [TkIdent "base"; TkGroup [TkStr s]] (SetBase s)
| Ti_prefix ts l : separated binding_item ts l -> type_item [TkIdent "prefix"; TkGroup ts] (SetPrefixes l)
| Ti_head s p : pattern_text s p -> type_item [TkIdent "head"; TkGroup [TkStr s]] (SetHead p)
| Ti_tail s p : pattern_text s p -> type_item [TkIdent "tail"; TkGroup [TkStr s]] (SetTail p)
| Ti_resource s p : pattern_text s p -> type_item [TkIdent "resource"; TkGroup [TkStr s]] (SetResource p)
| Ti_datatype s : is_iri_ref s = true -> type_item [TkIdent "datatype"; TkGroup [TkStr s]] (SetDatatype s)
| Ti_input ts l : separated string_item ts l -> type_item [TkIdent "input"; TkGroup ts] (SetInput l)
| Ti_intro ts l : separated string_item ts l -> type_item [TkIdent "intro"; TkGroup ts] (SetIntro l)
| Ti_dataset ts l : separated quad_item ts l -> type_item [TkIdent "dataset"; TkGroup ts] (SetDataset l)
| Ti_unknown name : ~ In name type_words -> type_item [TkIdent name] SetNothing.

(** *** Attributes of a field, variant or item *)

Inductive comp_setting : Type :=
| SetProperty (p : apattern)
| SetNodeHead (name : string)
| SetNodeRest (name : string)
| SetCompIntro (l : list string)
| SetCompDataset (ds : list (quad apattern))
| SetCompInput (l : list apattern)
| SetGraph (g : option (option apattern))
| SetNoComp.

Definition comp_words : list string := ["head"; "rest"; "intro"; "dataset"; "input"; "graph"]%string.

Inductive comp_item : list token -> comp_setting -> Prop :=
| Ci_property s p : pattern_text s p -> comp_item [TkStr s] (SetProperty p)
| Ci_head s : comp_item [TkIdent "head"; TkGroup [TkStr s]] (SetNodeHead s)
| Ci_rest s : comp_item [TkIdent "rest"; TkGroup [TkStr s]] (SetNodeRest s)
| Ci_intro ts l : separated string_item ts l -> comp_item [TkIdent "intro"; TkGroup ts] (SetCompIntro l)
| Ci_dataset ts l : separated quad_item ts l -> comp_item [TkIdent "dataset"; TkGroup ts] (SetCompDataset l)
| Ci_input ts l : separated pattern_item ts l -> comp_item [TkIdent "input"; TkGroup ts] (SetCompInput l)
| Ci_graph ts g : graph_arg ts g -> comp_item [TkIdent "graph"; TkGroup ts] (SetGraph g)
| Ci_unknown name : ~ In name comp_words -> comp_item [TkIdent name] SetNoComp.

(** *** Attributes: the settings of those named [tldr], in order; the others are not read. *)

Inductive settings {A} (item : list token -> A -> Prop) : list attribute -> list A -> Prop :=
| Se_none : settings item [] []
| Se_other a attrs l : at_path a <> "tldr"%string -> settings item attrs l -> settings item (a :: attrs) l
| Se_tldr ts attrs l l' : separated item ts l -> settings item attrs l' ->
    settings item (Attr "tldr" (Some ts) :: attrs) (l ++ l').
End Grammar.

(** ** Meaning of the settings *)

(** A value set at most once up to repetition. *)
Definition slot {S V} (mk : V -> S) (l : list S) (o : option V) : Prop :=
  match o with
  | Some v => In (mk v) l /\ forall v', In (mk v') l -> v' = v
  | None => forall v', ~ In (mk v') l
  end.

(** The bindings of the prefixes, in order: the last one of a name counts. *)
Definition all_bindings (l : list type_setting) : list (string * compact_iri) :=
  flat_map (fun s => match s with SetPrefixes b => b | _ => [] end) l.
Definition last_binding (name : string) (l : list (string * compact_iri)) : option compact_iri :=
  fold_left (fun o b => if String.eqb (fst b) name then Some (snd b) else o) l None.

(** The attributes of a type. *)
Definition type_settings (l : list type_setting) (r : type_attrs) : Prop :=
  slot SetKind l (ta_kind r) /\ slot SetBase l (ta_base r) /\ slot SetHead l (ta_head r) /\
  slot SetTail l (ta_tail r) /\ slot SetResource l (ta_resource r) /\ slot SetDatatype l (ta_datatype r) /\
  slot SetInput l (ta_input r) /\ slot SetIntro l (ta_intro r) /\ slot SetDataset l (ta_dataset r) /\
  bt_wf (ta_prefixes r) /\ forall name, bt_get name (ta_prefixes r) = last_binding name (all_bindings l).

(** The attributes of a field, variant or item. *)
Definition comp_settings (l : list comp_setting) (r : comp_attrs) : Prop :=
  slot SetProperty l (ca_property r) /\ slot SetNodeHead l (ca_head r) /\ slot SetNodeRest l (ca_rest r) /\
  slot SetCompIntro l (ca_intro r) /\ slot SetCompDataset l (ca_dataset r) /\
  slot SetCompInput l (ca_input r) /\ slot SetGraph l (ca_graph r).

(** ** The layout declared by a type and its attributes *)

Section Declared.
Context {TS : TextSyntax}.

(** [Option<item>], [Vec<item>] *)
Definition generic_of (name : string) (ty item : rty) : Prop :=
  exists colon, ty = RPath false colon [(name, Angled [GTy item])].

(** The reference to the layout of a type: an IRI with the position of the type. *)
Definition refers (types : list rty) (r : alayout_ref alayout) (ty : rty) : Prop :=
  exists i, r = RefIri ("rust:/#Type" ++ nat_string i)%string /\ nth_error types i = Some ty.

Definition is_default {A} (o : option A) (d a : A) : Prop := o = Some a \/ (o = None /\ a = d).

Definition component_attrs (attrs : list attribute) (a : comp_attrs) : Prop :=
  exists l, settings comp_item attrs l /\ comp_settings l a.

(** The format of a value of type [ty]; by default its only input is the variable [default] and its graph
    the one of the layout. *)
Definition format_declared (types : list rty) (default : string) (a : comp_attrs) (ty : rty) (f : aformat alayout)
  : Prop :=
  exists r input graph, f = AFormat r input graph /\ refers types r ty /\
    is_default (ca_input a) [AVar default] input /\ is_default (ca_graph a) None graph.

(** A field or item of type [ty]. *)
Definition item_declared (types : list rty) (attrs : list attribute) (ty : rty) (it : aitem alayout) : Prop :=
  exists a, component_attrs attrs a /\
    is_default (ca_intro a) ["value"%string] (ai_intro it) /\ is_default (ca_dataset a) [] (ai_dataset it) /\
    ai_property it = ca_property a /\ format_declared types "value" a ty (ai_value it).

(** A field is required unless its type is an [Option]. *)
Definition field_declared (types : list rty) (f : rfield) (e : value * afield alayout) : Prop :=
  fst e = VLit (LText (rf_name f)) /\
  exists ty, item_declared types (rf_attrs f) ty (af_item (snd e)) /\
    ((generic_of "Option" (rf_type f) ty /\ af_required (snd e) = false) \/
     ((forall ty, ~ generic_of "Option" (rf_type f) ty) /\ ty = rf_type f /\ af_required (snd e) = true)).

(** A variant has one field, without name, which is its value. *)
Definition variant_declared (types : list rty) (v : rvariant) (e : string * avariant alayout) : Prop :=
  fst e = rv_name v /\
  exists a f, component_attrs (rv_attrs v) a /\ rv_fields v = FUnnamed [f] /\
    is_default (ca_intro a) [] (av_intro (snd e)) /\ is_default (ca_dataset a) [] (av_dataset (snd e)) /\
    format_declared types "self" a (rf_type f) (av_value (snd e)).

Definition header_declared (r : type_attrs) (h : aheader) : Prop :=
  ah_base h = ta_base r /\ ah_prefixes h = ta_prefixes r /\ ah_id h = None /\ ah_extra h = [] /\
  is_default (ta_input r) ["self"%string] (ah_input h) /\ is_default (ta_intro r) [] (ah_intro h) /\
  is_default (ta_dataset r) [] (ah_dataset h).

(** The kind given by the attributes, or else by the shape of the type. *)
Definition shape_kind (d : rdata) (k : kind) : Prop :=
  match d with
  | DStruct (FNamed _) => k = KdRecord
  | DStruct (FUnnamed _) => k = KdTuple
  | DStruct FUnit => k = KdUnit
  | DEnum _ => k = KdSum
  | DUnion => False
  end.
Definition kind_declared (r : type_attrs) (d : rdata) (k : kind) : Prop :=
  ta_kind r = Some k \/ (ta_kind r = None /\ shape_kind d k).

Definition layout_declared (r : type_attrs) (k : kind) (d : rdata) (types : list rty) (al : alayout) : Prop :=
  exists h, header_declared r h /\
  match k with
  | KdId => al = ALiteralL (AKId None) h (ta_resource r) /\ types = []
  | KdUnit => al = AUnit h (VLit LUnit) /\ types = []
  | KdBoolean => al = ALiteralL (AKBoolean (ta_datatype r)) h (ta_resource r) /\ types = []
  | KdNumber => exists dt, ta_datatype r = Some dt /\ al = ALiteralL (AKNumber dt) h (ta_resource r) /\ types = []
  | KdString => al = ALiteralL (AKTextString None (ta_datatype r)) h (ta_resource r) /\ types = []
  | KdBytes => exists dt, ta_datatype r = Some dt /\ al = ALiteralL (AKByteString dt) h (ta_resource r) /\ types = []
  | KdRecord => exists fs l entries, d = DStruct (FNamed fs) /\ al = AProduct h entries /\
      Forall2 (field_declared types) fs l /\ length types = length fs /\
      (NoDup (map rf_name fs) -> Permutation l entries /\ bt_wf entries)
  | KdSum => exists vs l entries, d = DEnum vs /\ al = ASum h entries /\
      Forall2 (variant_declared types) vs l /\ length types = length vs /\
      (NoDup (map rv_name vs) -> Permutation l entries /\ bt_wf entries)
  | KdSet => exists f ty it, d = DStruct (FUnnamed [f]) /\ al = AUnordered h it /\
      generic_of "Vec" (rf_type f) ty /\ item_declared types (rf_attrs f) ty it /\ types = [ty]
  | KdList => exists f ty a head rest intro v lhead ltail, d = DStruct (FUnnamed [f]) /\
      al = AOrdered h (ANode head rest intro v (ca_dataset a)) lhead ltail /\
      generic_of "Vec" (rf_type f) ty /\ component_attrs (rf_attrs f) a /\
      is_default (ca_head a) "head"%string head /\ is_default (ca_rest a) "rest"%string rest /\
      is_default (ca_intro a) ["value"%string] intro /\ format_declared types "value" a ty v /\
      is_default (ta_head r) (AVar "self") lhead /\ is_default (ta_tail r) (AIri (rdf "nil")) ltail /\ types = [ty]
  | KdTuple => exists fs items, d = DStruct (FUnnamed fs) /\ al = ASized h items /\
      Forall2 (fun f it => item_declared types (rf_attrs f) (rf_type f) it) fs items /\ types = map rf_type fs
  end.

(** The layout of a type. *)
Definition declared (input : derive_input) (al : alayout) (types : list rty) : Prop :=
  exists l r k, settings type_item (di_attrs input) l /\ type_settings l r /\
    kind_declared r (di_data input) k /\ layout_declared r k (di_data input) types al.

(** The types that declare a layout. *)
Definition component_ok (attrs : list attribute) : Prop := exists a, component_attrs attrs a.
Definition shape_ok (r : type_attrs) (k : kind) (d : rdata) : Prop :=
  match k with
  | KdId | KdUnit | KdBoolean | KdString => True
  | KdNumber | KdBytes => exists dt, ta_datatype r = Some dt
  | KdRecord => exists fs, d = DStruct (FNamed fs) /\ forall f, In f fs -> component_ok (rf_attrs f)
  | KdSum => exists vs, d = DEnum vs /\
      forall v, In v vs -> component_ok (rv_attrs v) /\ exists f, rv_fields v = FUnnamed [f]
  | KdSet | KdList => exists f, d = DStruct (FUnnamed [f]) /\ component_ok (rf_attrs f) /\
      exists ty, generic_of "Vec" (rf_type f) ty
  | KdTuple => exists fs, d = DStruct (FUnnamed fs) /\ forall f, In f fs -> component_ok (rf_attrs f)
  end.
Definition declares_layout (input : derive_input) : Prop :=
  exists l r k, settings type_item (di_attrs input) l /\ type_settings l r /\
    kind_declared r (di_data input) k /\ shape_ok r k (di_data input).
End Declared.
