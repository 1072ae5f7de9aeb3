(** * The extra properties of layouts ([layouts/src/abs/syntax/layout/mod.rs], [abs/layout/**], [layout/**])

    The layouts of [LayoutModel] and of [AbsModel] have no field [extra_properties]: here the properties of
    the layouts of a builder are kept beside it, in a map with the same keys.  Everything else of the compilation is
    that of [AbsModel] (see [C105_same_layouts]). *)

From Coq Require Import String Ascii List Bool Arith NArith ZArith.
Import ListNotations.
From Verif Require Import Base BaseProofs PatternModel ValueModel LayoutModel HydrateModel TermModel
  DehydrateModel AbsModel CborModel.
Open Scope list_scope.
Open Scope nat_scope.

Section Extra.
Context {IS : IriSyntax} {AE : AbsExternal} {St R : Type} {CR : Cmp R} (ctx : context St R).

Notation "'do' x <- m ; k" := (bindM m (fun x => k))
  (at level 200, x name, m at level 100, k at level 200).

(** The fields [properties] and [extra_properties] of the layouts of a builder — layouts/src/abs/layout/literal/id.rs
    25-34, abs/layout/literal/data.rs 20-59 and layouts/src/layout/**; see [Layout::extra_properties],
    layouts/src/layout/mod.rs 175-184. *)
Definition extras : Type := list (R * list (R * R)).

(** The context, with the properties beside its state. *)
Definition kept : context (St * extras) R := {|
  c_iri := fun i s => let (r, st) := c_iri ctx i (fst s) in (r, (st, snd s));
  c_literal := fun l s => let (r, st) := c_literal ctx l (fst s) in (r, (st, snd s));
  c_anonymous := fun s => let (r, st) := c_anonymous ctx (fst s) in (r, (st, snd s))
|}.

(** [ExtraProperties::build] — layouts/src/abs/syntax/layout/mod.rs 488-498. *)
Definition build_properties (extra : list (compact_iri * aresource)) (sc : scope)
  : @M (St * extras) R (list (R * R)) :=
  do l <- mapS (fun pv : compact_iri * aresource =>
                  do p <- build_iri kept (fst pv) sc; do v <- build_resource kept (snd pv) sc; ret (p, v)) extra;
  ret (bt_collect l).

(** The field [properties] of [LayoutHeader::build] — layouts/src/abs/syntax/layout/mod.rs 443-455: after the
    scope and the dataset. *)
Definition header_properties (h : aheader) (sc : scope) : @M (St * extras) R (list (R * R)) :=
  do sc <- lift (with_header h sc);
  do _ <- build_dataset kept sc (ah_dataset h);
  build_properties (ah_extra h) sc.

(** The properties of the layout [l] — the fields [extra_properties: header.properties] (or [properties]) of
    layouts/src/abs/syntax/layout/literal.rs 242, 305, 374, 443, 552, 623, product.rs 130, sum.rs 146, list.rs 319,
    475, 595; none for [false] and [true] (layouts/src/layout/mod.rs 177, 182).  The header is the first thing built by
    each layout: here it is built aside, on the same state, for its properties only.  When this fails the compilation of
    the layout fails too, and the properties are not used. *)
Definition layout_properties (l : alayout) (sc : scope) : @M (St * extras) R (list (R * R)) :=
  match l with
  | AUnit h _ | ALiteralL _ h _ | AProduct h _ | ASum h _ | AOrdered h _ _ _ | AUnordered h _ | ASized h _ =>
      fun s => match fst (header_properties h sc s) with Ok m => (Ok m, s) | _ => (Ok [], s) end
  | ABool _ | AUnion _ | AIntersection _ => ret []
  end.

(** The part of [Builder::insert] — layouts/src/abs/mod.rs 59-75 — that concerns the properties. *)
Definition insert_properties (id : R) (m : list (R * R)) : @M (St * extras) R unit := fun s =>
  (Ok tt, ((fst (fst s), bt_insert id m (snd (fst s))), snd s)).

(** [Build::build] of [Layout] — layouts/src/abs/syntax/layout/mod.rs 236-263: [layout_body] of [AbsModel]
    with the properties. *)
Definition layout_body_extra (build_layout : alayout -> scope -> @M (St * extras) R R) (l : alayout) (sc : scope)
  : @M (St * extras) R R :=
  do id <-
    match layout_id l with
    | Some i => do i <- lift (resolve i sc); iri_resource kept i
    | None => anonymous_resource kept
    end;
  do m <- layout_properties l sc;
  do pre <- layout_pre kept build_layout l sc;
  do _ <- insert_properties id m;
  do old <- insert_layout id pre;
  match snd old with
  | Some _ => lift (Err LayoutRedefinition)
  | None => ret (fst old)
  end.

(** [Build::build] of [Layout]: see [layout_body_extra]. *)
Fixpoint build_layout_extra (l : alayout) (sc : scope) : @M (St * extras) R R :=
  layout_body_extra build_layout_extra l sc.

(** [Layout::build_with_context] — layouts/src/abs/syntax/layout/mod.rs 138-148. *)
Definition build_with_extra (l : alayout) : @M (St * extras) R R := build_layout_extra l scope_default.

(** [layouts.get(ref)] then [extra_properties()] (layouts/src/layout/mod.rs 175-184), in the registry [m] made of
    the builder with the properties [ex]: [Builder::build] copies them (layouts/src/abs/layout/mod.rs 54-69,
    abs/layout/literal/data.rs 57, abs/layout/literal/id.rs 32). *)
Definition registry_properties (m : layouts R) (ex : extras) (ref : R) : option (list (R * R)) :=
  match layouts_get m ref with
  | Some _ => Some (match bt_get ref ex with Some p => p | None => [] end)
  | None => None
  end.
End Extra.

(** [Layout::build] — layouts/src/abs/syntax/layout/mod.rs 115-118, with the properties. *)
Definition document_with_extra {IS : IriSyntax} {AE : AbsExternal} (l : alayout) (b : @builder term) (ex : @extras term)
  : outcome build_error term * (@builder term * @extras term) :=
  let (o, s) := build_with_extra term_context l ((0, ex), b) in (o, (snd s, snd (fst s))).

(** [CBOR_TAG_IRI] — layouts/src/value/cbor/mod.rs 16. *)
Definition cbor_tag_iri : string := "https://schema.treeldr.org/cbor#tag".

(** [TypedValue::try_into_tagged_serde_cbor] — layouts/src/value/cbor/serde_cbor.rs 16-40: the vocabulary and the
    interpretation of terms ([()]). *)
Definition document_cbor {CC : Cmp cbor} (unsigned : string -> bool) (m : layouts term) (ex : @extras term)
    (v : typed_value term) : outcome invalid_tag cbor :=
  tagged_cbor (Some (TmIri cbor_tag_iri)) (registry_properties m ex) unsigned v.
