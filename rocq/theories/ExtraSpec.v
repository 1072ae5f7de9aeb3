(** * What the extra properties of a document mean

    Only the data types of the model are used, with the meaning of IRIs and of layouts of [AbsSpec]. *)

From Coq Require Import String Ascii List Bool Arith NArith ZArith.
Import ListNotations.
From Verif Require Import Base BaseProofs PatternModel ValueModel LayoutModel LayoutSpec
  MatchingSpec HydrateModel TermModel DehydrateModel NumberSpec AbsModel AbsSpec.
Open Scope list_scope.
Open Scope nat_scope.

Section Meaning.
Context {IS : IriSyntax} {AE : AbsExternal}.

(** The literal written by a value of [extra]; a number has the lexical form and the datatype that
    [xsd_types] gives it. *)
Definition written_literal (env : ienv) (v : aresource) (l : rdf_literal) : Prop :=
  match v with
  | ABoolean b => l = RdfLiteral (if b then "true" else "false")%string (TypeAny (xsd_ns "boolean"))
  | ANumber z => l = RdfLiteral (decimal_lexical_of z) (TypeAny (decimal_type_of z))
  | AString s => l = RdfLiteral s (TypeAny (xsd_ns "string"))
  | ATypedString s ty => exists ty', iri_denotes env ty ty' /\ l = RdfLiteral s (TypeAny ty')
  end.

Context {R : Type} {CR : Cmp R} (res_iri : string -> R -> Prop) (res_lit : rdf_literal -> R -> Prop)
  (defs : R -> option (prelayout R)) (props : R -> option (list (R * R))).

Definition entry_means (env : ienv) (e : compact_iri * aresource) (e' : R * R) : Prop :=
  iri_resource_denotes res_iri env (fst e) (fst e') /\
  exists l, written_literal env (snd e) l /\ res_lit l (snd e').

(** [v] is the value of the last entry of [p] in [l]. *)
Definition last_entry {A B} (l : list (A * B)) (p : A) (v : B) : Prop :=
  exists before after, l = before ++ (p, v) :: after /\ forall w, ~ In (p, w) after.

(** The map [m] is the meaning of the entries [ex] of [extra]; of several entries for the same property the
    last counts. *)
Definition properties_mean (env : ienv) (ex : list (compact_iri * aresource)) (m : list (R * R)) : Prop :=
  exists l, Forall2 (entry_means env) ex l /\ forall p v, bt_get p m = Some v <-> last_entry l p v.

(** The properties of a layout are those written in its header, read with the base and the prefixes of
    the header. *)
Definition layout_properties_mean (env : ienv) (l : alayout) (m : list (R * R)) : Prop :=
  match header_of l with
  | Some h => exists env', header_env env h env' /\ properties_mean env' (ah_extra h) m
  | None => m = []
  end.

(** [described env l r]: the resource [r] is defined by the meaning of [l] (as [compiled]), and has the properties
    written in [l]; and so have the layouts nested in it. *)
Fixpoint described (env : ienv) (l : alayout) (r : R) : Prop :=
  (forall h i, header_of l = Some h -> ah_id h = Some i -> iri_resource_denotes res_iri env i r) /\
  (exists m, props r = Some m /\ layout_properties_mean env l m) /\
  exists p, defs r = Some p /\ layout_denotes res_iri res_lit (fun env l => described env l) env l p.
End Meaning.

(** The resources of terms. *)
Definition term_iri (i : string) (r : term) : Prop := r = TmIri i.
Definition term_lit (l : rdf_literal) (r : term) : Prop := r = TmLit l.

(** ** Tags *)
Section Tags.
Context {IS : IriSyntax} {AE : AbsExternal}.

(** The property [https://schema.treeldr.org/cbor#tag]. *)
Definition tag_property : string := "https://schema.treeldr.org/cbor#tag".

(** The last entry of the header of [l] for the tag has the value [v]; [env']: the base and the prefixes of the header. *)
Definition tag_entry (env : ienv) (l : alayout) (env' : ienv) (v : aresource) : Prop :=
  exists h before p after, header_of l = Some h /\ header_env env h env' /\
    ah_extra h = before ++ (p, v) :: after /\ iri_denotes env' p tag_property /\
    forall q w, In (q, w) after -> ~ iri_denotes env' q tag_property.

(** A decimal numeral below 2^64, possibly with a sign [+]. *)
Definition u64_numeral (s : string) (n : N) : Prop :=
  exists ds, digits ds /\ ds <> [] /\ (s = digits_text ds \/ s = String "+" (digits_text ds)) /\
    Z.of_N n = digits_value ds /\ (digits_value ds < 2 ^ 64)%Z.

(** The layout [l] is written with the tag [t]: the last entry for the tag is a number [t < 2^64], in
    decimal, of a type of unsigned numbers; or there is none. *)
Definition has_tag (unsigned : string -> bool) (env : ienv) (l : alayout) (t : option N) : Prop :=
  match t with
  | Some n => exists env' v lex ty, tag_entry env l env' v /\
      written_literal env' v (RdfLiteral lex (TypeAny ty)) /\ unsigned ty = true /\ u64_numeral lex n
  | None => forall env' v, ~ tag_entry env l env' v
  end.
End Tags.
