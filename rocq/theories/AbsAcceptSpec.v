(** * The documents that compile: specification

    [well_formed env l ids]: in the environment [env], the document [l] is well formed, and [ids] are the
    identifiers it gives to its layouts.  Only the data types of the model are used, and the meaning of
    compact IRIs ([iri_denotes], AbsSpec.v). *)

From Coq Require Import String Ascii List Bool Arith NArith.
Import ListNotations.
From Verif Require Import Base PatternModel ValueModel LayoutModel HydrateModel TermModel DehydrateModel
  AbsModel AbsSpec.
Open Scope list_scope.
Open Scope nat_scope.

Section Accept.
Context {IS : IriSyntax} {AE : AbsExternal}.

Definition iri_ok (env : ienv) (i : compact_iri) : Prop := exists i', iri_denotes env i i'.
Definition option_ok {A} (P : A -> Prop) (o : option A) : Prop := forall a, o = Some a -> P a.

(** The variables are declared and the IRIs have a meaning. *)
Definition pattern_ok (env : ienv) (ns : list string) (p : apattern) : Prop :=
  match p with
  | AVar name => In name ns
  | AIri i => iri_ok env i
  | ALiteral _ (ATypeIri i) => iri_ok env i
  | ALiteral _ (ATypeLang _) => True
  end.
Definition quad_ok (env : ienv) (ns : list string) (q : quad apattern) : Prop :=
  pattern_ok env ns (q_s q) /\ pattern_ok env ns (q_p q) /\ pattern_ok env ns (q_o q) /\
  option_ok (pattern_ok env ns) (q_g q).
Definition dataset_ok (env : ienv) (ns : list string) (ds : list (quad apattern)) : Prop :=
  forall q, In q ds -> quad_ok env ns q.

Definition extra_ok (env : ienv) (pv : compact_iri * aresource) : Prop :=
  iri_ok env (fst pv) /\
  match snd pv with ATypedString _ ty => iri_ok env ty | _ => True end.

(** [env']: the environment inside the layout. *)
Definition header_ok (env : ienv) (h : aheader) (env' : ienv) : Prop :=
  header_env env h env' /\ (forall name p, In (name, p) (ah_prefixes h) -> iri_ok env p) /\
  dataset_ok env' (header_names h) (ah_dataset h) /\
  forall pv, In pv (ah_extra h) -> extra_ok env' pv.

Definition literal_ok (env : ienv) (k : aliteral_kind) : Prop :=
  match k with
  | AKBoolean dt | AKTextString _ dt => option_ok (iri_ok env) dt
  | AKNumber dt | AKByteString dt => iri_ok env dt
  | AKId _ => True
  end.

Section Nested.
(** [nested_ok l ids]: the nested layout [l] is well formed. *)
Context (nested_ok : alayout -> list string -> Prop).

Definition ref_ok (env : ienv) (r : alayout_ref alayout) (ids : list string) : Prop :=
  match r with
  | RefIri i => iri_ok env i /\ ids = []
  | RefLayout l => nested_ok l ids
  end.

Definition format_ok (env : ienv) (ns : list string) (default : string) (f : aformat alayout)
    (ids : list string) : Prop :=
  match f with
  | AFormat r input graph =>
      (forall p, In p input -> pattern_ok env ns p) /\ option_ok (option_ok (pattern_ok env ns)) graph /\
      ref_ok env r ids
  | AFormatLayout r => In default ns /\ ref_ok env r ids
  end.

(** A property needs a subject (the first input) and an object (the first variable of the item). *)
Definition item_ok (env : ienv) (h : aheader) (it : aitem alayout) (ids : list string) : Prop :=
  let ns := header_names h ++ ai_intro it in
  dataset_ok env ns (ai_dataset it) /\
  option_ok (fun p => ah_input h <> [] /\ ai_intro it <> [] /\ pattern_ok env ns p) (ai_property it) /\
  format_ok env ns "value" (ai_value it) ids.

Definition variant_ok (env : ienv) (h : aheader) (v : avariant alayout) (ids : list string) : Prop :=
  let ns := header_names h ++ av_intro v in
  dataset_ok env ns (av_dataset v) /\ format_ok env ns "self" (av_value v) ids.

Definition node_ok (env : ienv) (h : aheader) (n : anode alayout) (ids : list string) : Prop :=
  match n with
  | ANode hd rs intro f ds =>
      let ns := header_names h ++ [hd; rs] ++ intro in
      option_ok (dataset_ok env ns) ds /\ format_ok env ns "value" f ids
  | ANodeLayout r => ref_ok env r ids
  end.
End Nested.

(** The components, with their identifiers in order. *)
Section All.
Context {A : Type} (Q : A -> list string -> Prop).
Fixpoint all_ok (l : list A) (ids : list string) : Prop :=
  match l with
  | [] => ids = []
  | a :: l => exists ids1 ids2, Q a ids1 /\ all_ok l ids2 /\ ids = ids1 ++ ids2
  end.
End All.

Definition layout_ok (rec : ienv -> alayout -> list string -> Prop) (env : ienv) (l : alayout) (ids : list string)
  : Prop :=
  match l with
  | AUnit h _ => (exists env', header_ok env h env') /\ ids = []
  | ALiteralL k h res =>
      ids = [] /\ exists env', header_ok env h env' /\ literal_ok env' k /\
        match res with
        | Some p => pattern_ok env' (header_names h) p
        | None => ah_input h <> []
        end
  | AProduct h fs =>
      exists env', header_ok env h env' /\ all_ok (fun kf => item_ok (rec env') env' h (af_item (snd kf))) fs ids
  | ASum h vs =>
      exists env', header_ok env h env' /\ all_ok (fun nv => variant_ok (rec env') env' h (snd nv)) vs ids
  | AOrdered h n head tail =>
      exists env', header_ok env h env' /\ node_ok (rec env') env' h n ids /\
        pattern_ok env' (header_names h) head /\ pattern_ok env' (header_names h) tail
  | AUnordered h it => exists env', header_ok env h env' /\ item_ok (rec env') env' h it ids
  | ASized h its => exists env', header_ok env h env' /\ all_ok (item_ok (rec env') env' h) its ids
  | ABool _ => ids = []
  | AUnion _ | AIntersection _ => False
  end.

(** The identifier of the layout itself. *)
Definition own_id (env : ienv) (l : alayout) (ids : list string) : Prop :=
  match header_of l with
  | Some h => match ah_id h with
              | Some i => exists i', iri_denotes env i i' /\ ids = [i']
              | None => ids = []
              end
  | None => ids = []
  end.

Fixpoint well_formed (env : ienv) (l : alayout) (ids : list string) : Prop :=
  exists own inner, own_id env l own /\ layout_ok (fun env l => well_formed env l) env l inner /\ ids = own ++ inner.
End Accept.
