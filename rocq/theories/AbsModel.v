(** * Abstract syntax of layouts and its compilation
      ([layouts/src/abs/syntax/**], [layouts/src/abs/mod.rs], [layouts/src/abs/layout/**])

    The JSON documents are read in [AbsJsonModel.v], those of Serde in
    [AbsSerdeModel.v].  The [extra] properties of the headers are built (they may fail and create
    resources) but their result is dropped: compiled layouts are modelled without them
    ([LayoutModel.v]). *)

From Coq Require Import String Ascii List Bool Arith NArith ZArith.
Import ListNotations.
From Verif Require Import Base BaseProofs Orders PatternModel ValueModel LayoutModel HydrateModel
  TermModel DehydrateModel AutomatonModel RegexpModel.
Open Scope list_scope.
Open Scope nat_scope.

(** ** Syntax *)

(** [CompactIri] — layouts/src/abs/syntax/pattern/compact_iri.rs 10-12: an IRI reference. *)
Definition compact_iri : Type := string.

(** [LiteralType] — layouts/src/abs/syntax/pattern/literal.rs 58-61. *)
Inductive alit_type : Type :=
| ATypeIri (ty : compact_iri)
| ATypeLang (tag : string).

(** [Pattern] — layouts/src/abs/syntax/pattern/mod.rs 18-22, with [LiteralValue]
    (pattern/literal.rs 12-17). *)
Inductive apattern : Type :=
| AVar (name : string)
| AIri (iri : compact_iri)
| ALiteral (v : string) (ty : alit_type).

(** [Resource] and [TypedString] — layouts/src/abs/syntax/resource.rs 13-25, 93-100. *)
Inductive aresource : Type :=
| ABoolean (b : bool)
| ANumber (z : Z)
| AString (s : string)
| ATypedString (v : string) (ty : compact_iri).

(** [LayoutHeader] — layouts/src/abs/syntax/layout/mod.rs 391-413.  A [OneOrMany] (syntax/mod.rs
    381-386) is the list given by [as_slice]; [Quad] (syntax/dataset.rs 48-55). *)
Record aheader : Type := AHeader {
  ah_base : option compact_iri;
  ah_prefixes : list (string * compact_iri);
  ah_id : option compact_iri;
  ah_input : list string;
  ah_intro : list string;
  ah_dataset : list (quad apattern);
  ah_extra : list (compact_iri * aresource)
}.

(** [LayoutRef] — layouts/src/abs/syntax/layout/mod.rs 268-271 ([L]: layouts). *)
Inductive alayout_ref (L : Type) : Type :=
| RefIri (iri : compact_iri)
| RefLayout (l : L).
Arguments RefIri {L} iri.
Arguments RefLayout {L} l.

(** [ValueFormatOrLayout] and [ValueFormat] (layouts/src/abs/syntax/mod.rs 447-510),
    [VariantFormatOrLayout] and [VariantFormat] (syntax/layout/sum.rs 152-215): same structure,
    with different defaults. *)
Inductive aformat (L : Type) : Type :=
| AFormat (layout : alayout_ref L) (input : list apattern) (graph : option (option apattern))
| AFormatLayout (layout : alayout_ref L).
Arguments AFormat {L} layout input graph.
Arguments AFormatLayout {L} layout.

(** [ListItem] — layouts/src/abs/syntax/layout/list.rs 406-418. *)
Record aitem (L : Type) : Type := AItem {
  ai_intro : list string;
  ai_value : aformat L;
  ai_dataset : list (quad apattern);
  ai_property : option apattern
}.
Arguments AItem {L}.
Arguments ai_intro {L} a.
Arguments ai_value {L} a.
Arguments ai_dataset {L} a.
Arguments ai_property {L} a.

(** [Field] — layouts/src/abs/syntax/layout/product.rs 133-149. *)
Record afield (L : Type) : Type := AField {
  af_item : aitem L;
  af_required : bool
}.
Arguments AField {L}.
Arguments af_item {L} a.
Arguments af_required {L} a.

(** [Variant] — layouts/src/abs/syntax/layout/sum.rs 71-80. *)
Record avariant (L : Type) : Type := AVariant {
  av_intro : list string;
  av_value : aformat L;
  av_dataset : list (quad apattern)
}.
Arguments AVariant {L}.
Arguments av_intro {L} a.
Arguments av_value {L} a.
Arguments av_dataset {L} a.

(** [ListNodeOrLayout] and [ListNode] — layouts/src/abs/syntax/layout/list.rs 147-150, 241-261. *)
Inductive anode (L : Type) : Type :=
| ANode (head rest : string) (intro : list string) (v : aformat L)
        (ds : option (list (quad apattern)))
| ANodeLayout (layout : alayout_ref L).
Arguments ANode {L}.
Arguments ANodeLayout {L}.

(** The literal layouts other than units — layouts/src/abs/syntax/layout/literal.rs 248-260, 343-353,
    411-421, 485-501, 585-601: booleans and text strings have an optional datatype. *)
Inductive aliteral_kind : Type :=
| AKBoolean (datatype : option compact_iri)
| AKNumber (datatype : compact_iri)
| AKByteString (datatype : compact_iri)
| AKTextString (pat : option regexp) (datatype : option compact_iri)
| AKId (pat : option regexp).

(** [Layout] — layouts/src/abs/syntax/layout/mod.rs 47-96, with [LiteralLayout] and [DataLayout]
    (layout/literal.rs 23-26, 88-95) and [ListLayout] (layout/list.rs 20-24) flattened. *)
Inductive alayout : Type :=
| AUnit (h : aheader) (const : value)
| ALiteralL (k : aliteral_kind) (h : aheader) (resource : option apattern)
| AProduct (h : aheader) (fields : list (value * afield alayout))
| ASum (h : aheader) (variants : list (string * avariant alayout))
| AOrdered (h : aheader) (node : anode alayout) (head tail : apattern)
| AUnordered (h : aheader) (item : aitem alayout)
| ASized (h : aheader) (items : list (aitem alayout))
| ABool (b : bool)
| AUnion (h : aheader)
| AIntersection (h : aheader).

(** ** Scopes — layouts/src/abs/syntax/build.rs *)

(** [BuildError] — layouts/src/abs/syntax/build.rs 17-39. *)
Inductive build_error : Type :=
| NoBaseIri (iri : string)
| InvalidIri (iri : string)
| UndeclaredVariable (name : string)
| LayoutRedefinition
| MissingLiteralTargetResource
| NoPropertySubject
| NoPropertyObject.

(** A [HashMap] whose iteration order is not observed: [insert], and [get] below. *)
Definition hm_insert {V} (k : string) (v : V) (m : list (string * V)) : list (string * V) :=
  (k, v) :: m.
Fixpoint hm_get {V} (k : string) (m : list (string * V)) : option V :=
  match m with
  | [] => None
  | (k', v) :: m' => if String.eqb k k' then Some v else hm_get k m'
  end.

(** [Scope] — layouts/src/abs/syntax/build.rs 152-165. *)
Record scope : Type := Scope {
  sc_base : option string;
  sc_prefixes : list (string * string);
  sc_variables : list (string * nat);
  sc_count : nat
}.

(** [Scope::default] — derived, 151. *)
Definition scope_default : scope := Scope None [] [] 0.

(** [Scope::bind] — layouts/src/abs/syntax/build.rs 237-240. *)
Definition scope_bind (name : string) (sc : scope) : scope :=
  Scope (sc_base sc) (sc_prefixes sc) (hm_insert name (sc_count sc) (sc_variables sc))
        (S (sc_count sc)).

(** [Scope::variable] — layouts/src/abs/syntax/build.rs 243-248. *)
Definition scope_variable (sc : scope) (name : string) : outcome build_error nat :=
  match hm_get name (sc_variables sc) with
  | Some x => Ok x
  | None => Err (UndeclaredVariable name)
  end.

(** [Scope::with_intro] — layouts/src/abs/syntax/build.rs 197-208. *)
Definition with_intro (intro : list string) (sc : scope) : scope :=
  fold_left (fun sc name => scope_bind name sc) intro sc.

(** [Scope::without_variables] — layouts/src/abs/syntax/build.rs 212-219. *)
Definition without_variables (sc : scope) : scope := Scope (sc_base sc) (sc_prefixes sc) [] 0.

(** ** IRIs (external crate [iref]) *)

(** [IriRef::as_iri] and [Iri::scheme] on a valid reference: the text before the first [':'],
    unless a ['/'], ['?'] or ['#'] comes first (RFC 3987: the first segment of a relative path has
    no colon). *)
Fixpoint iri_scheme (s : string) : option string :=
  match s with
  | EmptyString => None
  | String c s' =>
      if Ascii.eqb c ":" then Some EmptyString
      else if (Ascii.eqb c "/" || Ascii.eqb c "?" || Ascii.eqb c "#")%bool then None
      else match iri_scheme s' with Some t => Some (String c t) | None => None end
  end.

(** [str::split_once(':')]: the text after the first colon. *)
Fixpoint after_colon (s : string) : option string :=
  match s with
  | EmptyString => None
  | String c s' => if Ascii.eqb c ":" then Some s' else after_colon s'
  end.

(** [IriRef::resolved] (base, then reference), and [xsd_types::Decimal::from(i64).decimal_type().iri()]
    with [lexical_representation]. *)
Class AbsExternal : Type := {
  iri_resolved : string -> string -> string;
  decimal_type_of : Z -> string;
  decimal_lexical_of : Z -> string
}.

Section Build.
Context {IS : IriSyntax} {AE : AbsExternal}.

(** [CompactIri::resolve] — layouts/src/abs/syntax/pattern/compact_iri.rs 15-30. *)
Definition resolve (iri : compact_iri) (sc : scope) : outcome build_error string :=
  match iri_scheme iri with
  | Some scheme =>
      match hm_get scheme (sc_prefixes sc) with
      | Some prefix =>
          let* suffix := unwrap "compact_iri.rs: split_once" (after_colon iri) in
          let expanded := (prefix ++ suffix)%string in
          if is_iri expanded then Ok expanded else Err (InvalidIri expanded)
      | None => Ok iri
      end
  | None =>
      match sc_base sc with
      | Some base => Ok (iri_resolved base iri)
      | None => Err (NoBaseIri iri)
      end
  end.

(** The prefixes of [Scope::with_header] — layouts/src/abs/syntax/build.rs 177-181: resolved in
    the scope [old]. *)
Fixpoint with_prefixes (old : scope) (ps : list (string * compact_iri)) (m : list (string * string))
  : outcome build_error (list (string * string)) :=
  match ps with
  | [] => Ok m
  | (name, p) :: ps' =>
      let* p := resolve p old in
      with_prefixes old ps' (hm_insert name p m)
  end.

(** [Scope::with_header] — layouts/src/abs/syntax/build.rs 170-193. *)
Definition with_header (h : aheader) (sc : scope) : outcome build_error scope :=
  let* base :=
    match ah_base h with
    | Some b => let* b := resolve b sc in Ok (Some b)
    | None => Ok (sc_base sc)
    end in
  let* prefixes := with_prefixes sc (ah_prefixes h) (sc_prefixes sc) in
  Ok (with_intro (ah_input h ++ ah_intro h)
        (Scope base prefixes (sc_variables sc) (sc_count sc))).

(** ** Contexts *)

(** [abs::Layout] — layouts/src/abs/layout/mod.rs 30-53, and [abs::layout::LiteralLayout]
    (abs/layout/literal/*.rs): same as [layout], with uncompiled regular expressions and with the
    union and intersection layouts. *)
Inductive prelayout (R : Type) : Type :=
| PreOf (l : layout R)
| PreText (pat : option regexp) (h : header R) (resource : pattern R) (datatype : R)
| PreId (h : header R) (resource : pattern R) (pat : option regexp)
| PreUnion (l : list R)
| PreIntersection (l : list R).
Arguments PreOf {R} l.
Arguments PreText {R}.
Arguments PreId {R}.
Arguments PreUnion {R} l.
Arguments PreIntersection {R} l.

(** [Context] — layouts/src/abs/syntax/build.rs 41-55: [St] is the state of the vocabulary, of
    the interpretation or of the generator. *)
Record context (St R : Type) : Type := Context {
  c_iri : string -> St -> R * St;
  c_literal : rdf_literal -> St -> R * St;
  c_anonymous : St -> R * St
}.
Arguments Context {St R}.
Arguments c_iri {St R} c.
Arguments c_literal {St R} c.
Arguments c_anonymous {St R} c.

(** [impl Context for BuilderWithGeneratorMut] — layouts/src/abs/syntax/build.rs 57-92, with the
    generator [generator::Blank] of [Layout::build] (the [n]-th identifier is [_:n]). *)
Definition term_context : context nat term := {|
  c_iri := fun i n => (TmIri i, n);
  c_literal := fun l n => (TmLit l, n);
  c_anonymous := fun n => (TmBlank (nat_string n), S n)
|}.

Context {St R : Type} {CR : Cmp R} (ctx : context St R).

(** [Builder] — layouts/src/abs/mod.rs 19-22. *)
Definition builder : Type := list (R * prelayout R).

(** The context and the builder are mutated, also by the computations that fail. *)
Definition bstate : Type := (St * builder)%type.
Definition M (A : Type) : Type := bstate -> outcome build_error A * bstate.

Definition ret {A} (a : A) : M A := fun s => (Ok a, s).
Definition lift {A} (o : outcome build_error A) : M A := fun s => (o, s).
Definition bindM {A B} (m : M A) (k : A -> M B) : M B := fun s =>
  match m s with
  | (Ok a, s') => k a s'
  | (Err e, s') => (Err e, s')
  | (Panic w, s') => (Panic w, s')
  | (OutOfFuel, s') => (OutOfFuel, s')
  end.
Notation "'do' x <- m ; k" := (bindM m (fun x => k))
  (at level 200, x name, m at level 100, k at level 200).

Definition iri_resource (i : string) : M R := fun s =>
  let (r, st) := c_iri ctx i (fst s) in (Ok r, (st, snd s)).
Definition literal_resource (l : rdf_literal) : M R := fun s =>
  let (r, st) := c_literal ctx l (fst s) in (Ok r, (st, snd s)).
Definition anonymous_resource : M R := fun s =>
  let (r, st) := c_anonymous ctx (fst s) in (Ok r, (st, snd s)).

(** [Builder::insert] — layouts/src/abs/mod.rs 59-75, 61 in [Context::insert_layout]. *)
Definition insert_layout (id : R) (l : prelayout R) : M (R * option (prelayout R)) := fun s =>
  (Ok (id, bt_get id (snd s)), (fst s, bt_insert id l (snd s))).

Section MapM.
Context {A B : Type} (f : A -> M B).
Fixpoint mapS (l : list A) : M (list B) :=
  match l with
  | [] => ret []
  | a :: l' => do b <- f a; do bs <- mapS l'; ret (b :: bs)
  end.
End MapM.

(** [CompactIri::build] — layouts/src/abs/syntax/pattern/compact_iri.rs 82-85. *)
Definition build_iri (iri : compact_iri) (sc : scope) : M R :=
  do i <- lift (resolve iri sc); iri_resource i.

(** [LiteralType::resolve] — layouts/src/abs/syntax/pattern/literal.rs 72-77, 103-105. *)
Definition resolve_type (ty : alit_type) (sc : scope) : outcome build_error lit_type :=
  match ty with
  | ATypeIri i => let* i := resolve i sc in Ok (TypeAny i)
  | ATypeLang tag => Ok (TypeLang tag)
  end.

(** [Pattern::build] — layouts/src/abs/syntax/dataset.rs 93-105. *)
Definition build_pattern (p : apattern) (sc : scope) : M (pattern R) :=
  match p with
  | AVar name => do x <- lift (scope_variable sc name); ret (PVar x)
  | AIri i => do i <- lift (resolve i sc); do r <- iri_resource i; ret (PRes r)
  | ALiteral v ty =>
      do ty <- lift (resolve_type ty sc);
      do r <- literal_resource (RdfLiteral v ty); ret (PRes r)
  end.

Definition build_option {A B} (f : A -> M B) (o : option A) : M (option B) :=
  match o with None => ret None | Some a => do b <- f a; ret (Some b) end.

(** [Quad::build] — layouts/src/abs/syntax/dataset.rs 116-127. *)
Definition build_quad (sc : scope) (q : quad apattern) : M (qpat R) :=
  do s <- build_pattern (q_s q) sc;
  do p <- build_pattern (q_p q) sc;
  do o <- build_pattern (q_o q) sc;
  do g <- build_option (fun g => build_pattern g sc) (q_g q);
  ret (Quad s p o g).

(** [BTreeDataset::insert] (external): a set of quads, the order of which is not observed. *)
Definition pattern_eqb (p p' : pattern R) : bool :=
  match p, p' with
  | PRes r, PRes r' => eqb r r'
  | PVar x, PVar x' => Nat.eqb x x'
  | _, _ => false
  end.
Definition qpat_eqb (q q' : qpat R) : bool :=
  (pattern_eqb (q_s q) (q_s q') && pattern_eqb (q_p q) (q_p q') && pattern_eqb (q_o q) (q_o q') &&
   match q_g q, q_g q' with
   | None, None => true
   | Some g, Some g' => pattern_eqb g g'
   | _, _ => false
   end)%bool.
Definition ds_insert (q : qpat R) (ds : list (qpat R)) : list (qpat R) :=
  if existsb (qpat_eqb q) ds then ds else ds ++ [q].

(** [Dataset::build] — layouts/src/abs/syntax/dataset.rs 38-45. *)
Definition build_dataset (sc : scope) (ds : list (quad apattern)) : M (list (qpat R)) :=
  do qs <- mapS (build_quad sc) ds; ret (fold_left (fun ds q => ds_insert q ds) qs []).

Definition xsd (name : string) : string := ("http://www.w3.org/2001/XMLSchema#" ++ name)%string.

(** [Resource::build], [TypedString::build] — layouts/src/abs/syntax/resource.rs 63-88, 119-123. *)
Definition build_resource (r : aresource) (sc : scope) : M R :=
  match r with
  | ABoolean b =>
      literal_resource (RdfLiteral (if b then "true" else "false")%string (TypeAny (xsd "boolean")))
  | ANumber z => literal_resource (RdfLiteral (decimal_lexical_of z) (TypeAny (decimal_type_of z)))
  | AString s => literal_resource (RdfLiteral s (TypeAny (xsd "string")))
  | ATypedString v ty => do ty <- lift (resolve ty sc); literal_resource (RdfLiteral v (TypeAny ty))
  end.

(** [ExtraProperties::build] — layouts/src/abs/syntax/layout/mod.rs 488-498 (the map is
    dropped). *)
Definition build_extra (extra : list (compact_iri * aresource)) (sc : scope) : M unit :=
  do _ <- mapS (fun pv : compact_iri * aresource =>
                  do p <- build_iri (fst pv) sc; do v <- build_resource (snd pv) sc; ret (p, v)) extra;
  ret tt.

(** [LayoutHeader::build] — layouts/src/abs/syntax/layout/mod.rs 443-455. *)
Definition build_header (h : aheader) (sc : scope) : M (header R * scope) :=
  do sc <- lift (with_header h sc);
  do ds <- build_dataset sc (ah_dataset h);
  do _ <- build_extra (ah_extra h) sc;
  ret (Header (length (ah_input h)) (length (ah_intro h)) ds, sc).

(** [literal_resource] — layouts/src/abs/syntax/layout/literal.rs 262-278. *)
Definition build_literal_resource (input : list string) (resource : option apattern) (sc : scope)
  : M (pattern R) :=
  match resource with
  | Some r => build_pattern r sc
  | None => match input with
            | [] => lift (Err MissingLiteralTargetResource)
            | _ => ret (PVar 0)
            end
  end.

(** [BooleanLayout::build], [NumberLayout::build], [ByteStringLayout::build],
    [TextStringLayout::build], [IdLayout::build] — layouts/src/abs/syntax/layout/literal.rs 286-307,
    361-376, 430-445, 534-556, 610-626. *)
Definition build_literal (k : aliteral_kind) (h : aheader) (resource : option apattern) (sc : scope)
  : M (prelayout R) :=
  do hs <- build_header h sc;
  let (hd, sc) := hs in
  do res <- build_literal_resource (ah_input h) resource sc;
  let default_datatype (dt : option compact_iri) (name : string) : M R :=
    match dt with Some i => build_iri i sc | None => iri_resource (xsd name) end in
  match k with
  | AKBoolean dt => do dt <- default_datatype dt "boolean"%string; ret (PreOf (DataL KBoolean hd res dt))
  | AKNumber dt => do dt <- build_iri dt sc; ret (PreOf (DataL KNumber hd res dt))
  | AKByteString dt => do dt <- build_iri dt sc; ret (PreOf (DataL KByteString hd res dt))
  | AKTextString pat dt => do dt <- default_datatype dt "string"%string; ret (PreText pat hd res dt)
  | AKId pat => ret (PreId hd res pat)
  end.

Definition rdf (name : string) : string := ("http://www.w3.org/1999/02/22-rdf-syntax-ns#" ++ name)%string.

(** [default_list_dataset] — layouts/src/abs/syntax/layout/list.rs 182-209. *)
Definition default_list_dataset (head rest : nat) (first : pattern R) : M (list (qpat R)) :=
  do f <- iri_resource (rdf "first");
  do r <- iri_resource (rdf "rest");
  ret (ds_insert (Quad (PVar head) (PRes r) (PVar rest) None)
         (ds_insert (Quad (PVar head) (PRes f) first None) [])).

(** The functions below take the compilation of the nested layouts as parameter. *)
Section Nested.
Context {L : Type} (build_nested : L -> scope -> M R).

(** [LayoutRef::build] — layouts/src/abs/syntax/layout/mod.rs 326-332. *)
Definition build_ref (r : alayout_ref L) (sc : scope) : M R :=
  let sc := without_variables sc in
  match r with
  | RefIri i => build_iri i sc
  | RefLayout l => build_nested l sc
  end.

(** [ValueFormatOrLayout::build], [ValueFormat::build] — layouts/src/abs/syntax/mod.rs 486-495,
    syntax/layout/mod.rs 564-579 (with [default] = "value"); [VariantFormatOrLayout::build],
    [VariantFormat::build] — syntax/layout/sum.rs 192-201, 256-271 (with [default] = "self"). *)
Definition build_format (default : string) (f : aformat L) (sc : scope) : M (vformat R) :=
  match f with
  | AFormat layout input graph =>
      do input <- mapS (fun p => build_pattern p sc) input;
      do r <- build_ref layout sc;
      do graph <- build_option (build_option (fun g => build_pattern g sc)) graph;
      ret (VFormat r input graph)
  | AFormatLayout layout =>
      do r <- build_ref layout sc;
      do p <- build_pattern (AVar default) sc;
      ret (VFormat r [p] None)
  end.

(** The quad of the entry [property] of the fields and items — layouts/src/abs/syntax/layout/product.rs
    95-110, syntax/layout/list.rs 495-511.  [inputs]: number of inputs of the layout; [count]: number of its
    variables (inputs and intros); [intro]: the intros of the item.  For the fields
    [NoPropertySubject] comes first too. *)
Definition build_property (inputs count : nat) (intro : list string) (property : option apattern)
    (sc : scope) (ds : list (qpat R)) : M (list (qpat R)) :=
  match property with
  | None => ret ds
  | Some p =>
      if Nat.eqb inputs 0 then lift (Err NoPropertySubject)
      else match intro with
           | [] => lift (Err NoPropertyObject)
           | _ =>
               do p <- build_pattern p sc;
               ret (ds_insert (Quad (PVar 0) p (PVar count) None) ds)
           end
  end.

(** The loop of [ProductLayout::build] (layouts/src/abs/syntax/layout/product.rs 90-121) and
    [ListItem::build] (syntax/layout/list.rs 480-522).  [count] is [header.input.len() + header.intro.len()] for
    the fields and [scope.variable_count()] for the items. *)
Definition build_item (inputs count : nat) (it : aitem L) (sc : scope) : M (item_layout R) :=
  let sc := with_intro (ai_intro it) sc in
  do ds <- build_dataset sc (ai_dataset it);
  do ds <- build_property inputs count (ai_intro it) (ai_property it) sc ds;
  do vf <- build_format "value" (ai_value it) sc;
  ret (Item (length (ai_intro it)) vf ds).

(** The fields of [ProductLayout::build]. *)
Definition build_field (h : aheader) (sc : scope) (kf : value * afield L)
  : M (value * field R) :=
  let (k, f) := kf in
  match f with
  | AField it req =>
      do it <- build_item (length (ah_input h)) (length (ah_input h) + length (ah_intro h)) it sc;
      ret (k, Field it req)
  end.

(** The variants of [SumLayout::build] — layouts/src/abs/syntax/layout/sum.rs 131-139. *)
Definition build_variant (sc : scope) (nv : string * avariant L) : M (variant R) :=
  let (name, v) := nv in
  match v with
  | AVariant intro value ds =>
      let sc := with_intro intro sc in
      do vf <- build_format "self" value sc;
      do ds <- build_dataset sc ds;
      ret (Variant name (Item (length intro) vf ds))
  end.

(** [ListNodeOrLayout::build], [ListNode::build] — layouts/src/abs/syntax/layout/list.rs 219-235,
    330-359. *)
Definition build_node (n : anode L) (sc : scope) : M (item_layout R) :=
  let head := sc_count sc in
  let rest := head + 1 in
  let first := rest + 1 in
  match n with
  | ANode head_name rest_name intro v ds =>
      let sc := with_intro ([head_name; rest_name] ++ intro) sc in
      do vf <- build_format "value" v sc;
      do ds <-
        match ds with
        | Some ds => build_dataset sc ds
        | None =>
            match v with
            | AFormat _ [p] _ =>
                do first <- build_pattern p sc; default_list_dataset head rest first
            | AFormat _ _ _ => ret []
            | AFormatLayout _ =>
                do first <- lift (scope_variable sc "value"); default_list_dataset head rest (PVar first)
            end
        end;
      ret (Item (length intro) vf ds)
  | ANodeLayout r =>
      do r <- build_ref r sc;
      do ds <- default_list_dataset head rest (PVar first);
      ret (Item 1 (VFormat r [PVar first] None) ds)
  end.
End Nested.

(** [Layout::id] — layouts/src/abs/syntax/layout/mod.rs 99-110. *)
Definition layout_id (l : alayout) : option compact_iri :=
  match l with
  | AUnit h _ | ALiteralL _ h _ | AProduct h _ | ASum h _ | AOrdered h _ _ _ | AUnordered h _
  | ASized h _ | AUnion h | AIntersection h => ah_id h
  | ABool _ => None
  end.

(** The definition of a layout — the calls in layouts/src/abs/syntax/layout/mod.rs 243-256, with
    [UnitLayout::build] (syntax/layout/literal.rs 235-244), [ProductLayout::build] (syntax/layout/product.rs 84-130),
    [SumLayout::build] (syntax/layout/sum.rs 126-148), [OrderedListLayout::build] (syntax/layout/list.rs 310-321),
    [UnorderedListLayout::build] (460-476), [SizedListLayout::build] (574-597) and the
    [unimplemented!] of unions and intersections (syntax/layout/union.rs 55, syntax/layout/intersection.rs 55); [build_layout]
    is the compilation of the nested layouts. *)
Definition layout_pre (build_layout : alayout -> scope -> M R) (l : alayout) (sc : scope)
  : M (prelayout R) :=
  match l with
  | AUnit h const =>
      do hs <- build_header h sc;
      ret (PreOf (UnitL (fst hs) const))
  | ALiteralL k h resource => build_literal k h resource sc
  | AProduct h fields =>
      do hs <- build_header h sc;
      let (hd, sc) := hs : header R * scope in
      do fields <- mapS (build_field build_layout h sc) fields;
      ret (PreOf (ProductL hd (bt_collect fields)))
  | ASum h variants =>
      do hs <- build_header h sc;
      let (hd, sc) := hs : header R * scope in
      do variants <- mapS (build_variant build_layout sc) variants;
      ret (PreOf (SumL hd variants))
  | AOrdered h node head tail =>
      do hs <- build_header h sc;
      let (hd, sc) := hs : header R * scope in
      do node <- build_node build_layout node sc;
      do head <- build_pattern head sc;
      do tail <- build_pattern tail sc;
      ret (PreOf (OrderedL hd node head tail))
  | AUnordered h item =>
      do hs <- build_header h sc;
      let (hd, sc) := hs : header R * scope in
      do item <- build_item build_layout (length (ah_input h)) (sc_count sc) item sc;
      ret (PreOf (UnorderedL hd item))
  | ASized h items =>
      do hs <- build_header h sc;
      let (hd, sc) := hs : header R * scope in
      do items <- mapS (fun it => build_item build_layout (length (ah_input h)) (sc_count sc) it sc) items;
      ret (PreOf (SizedL hd items))
  | ABool false => ret (PreOf Never)
  | ABool true => ret (PreOf Always)
  | AUnion _ => lift (Panic "union.rs 55: unimplemented")
  | AIntersection _ => lift (Panic "intersection.rs 55: unimplemented")
  end.

(** [Build::build] of [Layout] — layouts/src/abs/syntax/layout/mod.rs 236-263; the recursive
    function is [build_layout] below. *)
Definition layout_body (build_layout : alayout -> scope -> M R) (l : alayout) (sc : scope) : M R :=
  do id <-
    match layout_id l with
    | Some i => do i <- lift (resolve i sc); iri_resource i
    | None => anonymous_resource
    end;
  do pre <- layout_pre build_layout l sc;
  do old <- insert_layout id pre;
  match snd old with
  | Some _ => lift (Err LayoutRedefinition)
  | None => ret (fst old)
  end.

(** [Build::build] of [Layout]: see [layout_body]. *)
Fixpoint build_layout (l : alayout) (sc : scope) : M R := layout_body build_layout l sc.

(** [Layout::build_with_context] — layouts/src/abs/syntax/layout/mod.rs 138-148. *)
Definition build_with_context (l : alayout) : M R := build_layout l scope_default.

(** ** Compilation — [Layout::build], layouts/src/abs/layout/mod.rs 54-69, with [TextStringLayout::build]
    (abs/layout/literal/data.rs 48-59) and [IdLayout::build] (abs/layout/literal/id.rs 24-34).  [fuel]: see
    [RegexpModel.re_build]. *)
Definition compile_regexp {E} (fuel : nat) (e : regexp) : outcome E (det_automaton nat) :=
  match re_build fuel e with
  | Ok d => Ok (DetAutomaton (d_initial d) (d_final d) (d_transitions d))
  | Err _ => OutOfFuel
  | Panic w => Panic w
  | OutOfFuel => OutOfFuel
  end.

Definition compile_pattern {E} (fuel : nat) (pat : option regexp)
  : outcome E (option (det_automaton nat)) :=
  match pat with
  | None => Ok None
  | Some e => let* d := compile_regexp fuel e in Ok (Some d)
  end.

Definition compile {E} (fuel : nat) (p : prelayout R) : outcome E (layout R) :=
  match p with
  | PreOf l => Ok l
  | PreText pat h res dt =>
      let* pat := compile_pattern fuel pat in Ok (DataL (KTextString pat) h res dt)
  | PreId h res pat => let* pat := compile_pattern fuel pat in Ok (IdL h res pat)
  | PreUnion _ => Panic "abs/layout/mod.rs 63: todo"
  | PreIntersection _ => Panic "abs/layout/mod.rs 66: todo"
  end.

(** [Builder::build] — layouts/src/abs/mod.rs 87-95. *)
Fixpoint builder_build_into {E} (fuel : nat) (b : builder) (m : layouts R) : outcome E (layouts R) :=
  match b with
  | [] => Ok m
  | (id, p) :: b' =>
      let* l := compile fuel p in
      builder_build_into fuel b' (fst (layouts_insert id l m))
  end.
Definition builder_build {E} (fuel : nat) (b : builder) : outcome E (layouts R) :=
  builder_build_into fuel b [].

(** [Builder::get_or_insert_with] — layouts/src/abs/mod.rs 77-85. *)
Definition get_or_insert_with (r : R) (f : R -> prelayout R) (b : builder) : prelayout R * builder :=
  match bt_get r b with
  | Some l => (l, b)
  | None => (f r, bt_insert r (f r) b)
  end.
End Build.

(** [Layout::build] — layouts/src/abs/syntax/layout/mod.rs 115-118: a new generator for each call.
    The reference of the layout, and the builder. *)
Definition build_document {IS : IriSyntax} {AE : AbsExternal} (l : alayout)
    (b : @builder term)
  : outcome build_error term * @builder term :=
  let (o, s) := build_with_context term_context l (0, b) in (o, snd s).

Arguments PreOf {R} l.
Arguments PreText {R}.
Arguments PreId {R}.
Arguments PreUnion {R} l.
Arguments PreIntersection {R} l.
Arguments Context {St R}.
Arguments c_iri {St R} c.
Arguments c_literal {St R} c.
Arguments c_anonymous {St R} c.
