(** * Specification of the layouts that serde preserves *)

From Coq Require Import String Ascii List Bool Arith NArith ZArith QArith Qcanon.
Import ListNotations.
From Verif Require Import Base BaseProofs Orders PatternModel ValueModel LayoutModel NumberModel NumberSpec
  HydrateModel JsonModel JsonSpec JsonProperties RegexpModel AbsModel AbsSpec AbsJsonModel AbsJsonSpec AbsSerdeModel.
Open Scope list_scope.
Open Scope nat_scope.

(** External: no text is both an identifier of blank node and a reference to an IRI. *)
Class TextLaws {TS : TextSyntax} : Prop :=
  blank_not_iri : forall s name, blank_suffix s = Some name -> is_iri_ref s = false.

Section Plain.
Context {TS : TextSyntax} {TP : TextPrint} {F : Type} (to_f64 : Qc -> F) (from_f64 : F -> option Qc).

(** A pattern made of a name, of an IRI reference or of a literal without language. *)
Definition plain_pattern (p : apattern) : Prop :=
  match p with
  | AVar name => blank_suffix ("_:" ++ name) = Some name
  | AIri iri => is_iri_ref iri = true
  | ALiteral _ (ATypeIri ty) => is_iri_ref ty = true
  | ALiteral _ (ATypeLang _) => False
  end.
Definition plain_quad (q : quad apattern) : Prop :=
  plain_pattern (q_s q) /\ plain_pattern (q_p q) /\ plain_pattern (q_o q) /\
  forall g, q_g q = Some g -> plain_pattern g.
Definition plain_dataset (ds : list (quad apattern)) : Prop := forall q, In q ds -> plain_quad q.

(** An integer of 64 bits, a text or a text with a type. *)
Definition plain_resource (r : aresource) : Prop :=
  match r with
  | ANumber z => (- 2 ^ 63 <= z < 2 ^ 63)%Z
  | ATypedString _ ty => is_iri_ref ty = true
  | _ => True
  end.

(** A constant that can be written: see C68. *)
Definition plain_value (v : value) : Prop := value_wf v /\ Numbers (native_exact to_f64 from_f64) v.

(** An expression read as it is printed: see C41. *)
Definition plain_regexp (e : regexp) : Prop := re_parse (chars (text_of (re_display e))) = Ok e.

Definition plain_option {T} (P : T -> Prop) (o : option T) : Prop := forall t, o = Some t -> P t.

Record plain_header (h : aheader) : Prop :=
  { ph_base : plain_option (fun i => is_iri_ref i = true) (ah_base h);
    ph_prefixes : bt_wf (ah_prefixes h) /\ forall n i, In (n, i) (ah_prefixes h) -> is_iri_ref i = true;
    ph_id : plain_option (fun i => is_iri_ref i = true) (ah_id h);
    ph_dataset : plain_dataset (ah_dataset h);
    ph_extra : bt_wf (ah_extra h) /\
      forall i r, In (i, r) (ah_extra h) -> is_iri_ref i = true /\ plain_resource r }.

Definition plain_kind (k : aliteral_kind) : Prop :=
  match k with
  | AKBoolean dt => plain_option (fun i => is_iri_ref i = true) dt
  | AKNumber dt | AKByteString dt => is_iri_ref dt = true
  | AKTextString pat dt => plain_option plain_regexp pat /\ plain_option (fun i => is_iri_ref i = true) dt
  | AKId pat => plain_option plain_regexp pat
  end.

Definition plain_ref (r : alayout_ref alayout) : Prop :=
  forall i, r = RefIri i -> is_iri_ref i = true.
(** The graph is not explicitly the default graph. *)
Definition plain_format (f : aformat alayout) : Prop :=
  match f with
  | AFormat r input graph =>
      plain_ref r /\ (forall p, In p input -> plain_pattern p) /\
      graph <> Some None /\ forall g, graph = Some (Some g) -> plain_pattern g
  | AFormatLayout r => plain_ref r
  end.
Definition plain_item (it : aitem alayout) : Prop :=
  plain_format (ai_value it) /\ plain_dataset (ai_dataset it) /\ plain_option plain_pattern (ai_property it).
Definition plain_variant (v : avariant alayout) : Prop :=
  plain_format (av_value v) /\ plain_dataset (av_dataset v).
Definition plain_node (n : anode alayout) : Prop :=
  match n with
  | ANode _ _ _ f ds => plain_format f /\ plain_option plain_dataset ds
  | ANodeLayout r => plain_ref r
  end.

(** The layout itself is preserved, without its sub-layouts. *)
Definition plain_own (l : alayout) : Prop :=
  match l with
  | AUnit _ c => plain_value c
  | ALiteralL k _ res => plain_kind k /\ plain_option plain_pattern res
  | AProduct _ fs => bt_wf fs /\ forall k f, In (k, f) fs -> plain_value k /\ plain_item (af_item f)
  | ASum _ vs => bt_wf vs /\ forall n v, In (n, v) vs -> plain_variant v
  | AOrdered _ n hd tl => plain_node n /\ plain_pattern hd /\ plain_pattern tl
  | AUnordered _ it => plain_item it
  | ASized _ its => forall it, In it its -> plain_item it
  | ABool _ | AUnion _ | AIntersection _ => True
  end.
Definition plain_layout (l : alayout) : Prop :=
  forall l', AbsSpec.inside l l' -> plain_own l' /\ forall h, header_of l' = Some h -> plain_header h.
End Plain.

(** ** Documents read alike by the two readers *)

(** The patterns of a layout, without those of its sub-layouts. *)
Definition quad_pattern (q : quad apattern) (p : apattern) : Prop :=
  q_s q = p \/ q_p q = p \/ q_o q = p \/ q_g q = Some p.
Definition dataset_pattern (ds : list (quad apattern)) (p : apattern) : Prop :=
  exists q, In q ds /\ quad_pattern q p.
Definition format_pattern (f : aformat alayout) (p : apattern) : Prop :=
  match f with
  | AFormat _ input graph => In p input \/ graph = Some (Some p)
  | AFormatLayout _ => False
  end.
Definition item_pattern (it : aitem alayout) (p : apattern) : Prop :=
  format_pattern (ai_value it) p \/ dataset_pattern (ai_dataset it) p \/ ai_property it = Some p.
Definition own_pattern (l : alayout) (p : apattern) : Prop :=
  (exists h, header_of l = Some h /\ dataset_pattern (ah_dataset h) p) \/
  match l with
  | ALiteralL _ _ res => res = Some p
  | AProduct _ fs => exists k f, In (k, f) fs /\ item_pattern (af_item f) p
  | ASum _ vs => exists n v, In (n, v) vs /\ (format_pattern (av_value v) p \/ dataset_pattern (av_dataset v) p)
  | AOrdered _ n hd tl =>
      hd = p \/ tl = p \/
      match n with
      | ANode _ _ _ f ds => format_pattern f p \/ exists ds', ds = Some ds' /\ dataset_pattern ds' p
      | ANodeLayout _ => False
      end
  | AUnordered _ it => item_pattern it p
  | ASized _ its => exists it, In it its /\ item_pattern it p
  | _ => False
  end.

(** No literal with a language. *)
Definition without_language (l : alayout) : Prop :=
  forall l' v tag, AbsSpec.inside l l' -> ~ own_pattern l' (ALiteral v (ATypeLang tag)).

(** The layout whose literals with a language have become texts of type [xsd:string]. *)
Definition forget_pattern (p : apattern) : apattern :=
  match p with
  | ALiteral v (ATypeLang _) => ALiteral v (ATypeIri xsd_string)
  | p => p
  end.
Definition forget_quad (q : quad apattern) : quad apattern :=
  Quad (forget_pattern (q_s q)) (forget_pattern (q_p q)) (forget_pattern (q_o q)) (option_map forget_pattern (q_g q)).
Definition forget_header (h : aheader) : aheader :=
  AHeader (ah_base h) (ah_prefixes h) (ah_id h) (ah_input h) (ah_intro h)
    (map forget_quad (ah_dataset h)) (ah_extra h).
Section Forget.
Context (rec : alayout -> alayout).
Definition forget_ref (r : alayout_ref alayout) : alayout_ref alayout :=
  match r with RefIri i => RefIri i | RefLayout l => RefLayout (rec l) end.
Definition forget_format (f : aformat alayout) : aformat alayout :=
  match f with
  | AFormat r input graph =>
      AFormat (forget_ref r) (map forget_pattern input) (option_map (option_map forget_pattern) graph)
  | AFormatLayout r => AFormatLayout (forget_ref r)
  end.
Definition forget_item (it : aitem alayout) : aitem alayout :=
  AItem (ai_intro it) (forget_format (ai_value it)) (map forget_quad (ai_dataset it))
    (option_map forget_pattern (ai_property it)).
Definition forget_field (f : afield alayout) : afield alayout :=
  AField (forget_item (af_item f)) (af_required f).
Definition forget_variant (v : avariant alayout) : avariant alayout :=
  AVariant (av_intro v) (forget_format (av_value v)) (map forget_quad (av_dataset v)).
Definition forget_node (n : anode alayout) : anode alayout :=
  match n with
  | ANode hd rs intro f ds => ANode hd rs intro (forget_format f) (option_map (map forget_quad) ds)
  | ANodeLayout r => ANodeLayout (forget_ref r)
  end.
End Forget.
Fixpoint forget_language (l : alayout) : alayout :=
  match l with
  | AUnit h c => AUnit (forget_header h) c
  | ALiteralL k h res => ALiteralL k (forget_header h) (option_map forget_pattern res)
  | AProduct h fs => AProduct (forget_header h) (map (fun f => (fst f, forget_field forget_language (snd f))) fs)
  | ASum h vs => ASum (forget_header h) (map (fun v => (fst v, forget_variant forget_language (snd v))) vs)
  | AOrdered h n hd tl =>
      AOrdered (forget_header h) (forget_node forget_language n) (forget_pattern hd) (forget_pattern tl)
  | AUnordered h it => AUnordered (forget_header h) (forget_item forget_language it)
  | ASized h its => ASized (forget_header h) (map (forget_item forget_language) its)
  | ABool b => ABool b
  | AUnion h => AUnion (forget_header h)
  | AIntersection h => AIntersection (forget_header h)
  end.

(** The numbers of the document: none, or not [-0] and those read as floats exactly so. *)
Definition numbers_alike {F} (arbitrary_precision : bool) (json_float : string -> option F)
    (from_f64 : F -> option Qc) (j : json) : Prop :=
  forall s, AbsJsonSpec.inside (JNum s) j ->
    arbitrary_precision = false /\ json_number s = true /\ s <> "-0"%string /\
    forall f q, json_float s = Some f -> number_from_json s = Ok q -> from_f64 f = Some q.
