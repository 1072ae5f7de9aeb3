(** * The tags of the layouts of the files *)

From Coq Require Import String List Bool Arith NArith.
Import ListNotations.
From Verif Require Import Base LayoutModel HydrateModel TermModel DehydrateModel AbsModel AbsSpec AbsRegistry AbsMeaning
  GenSpec CodeGenModel PreludeSpec CliModel CliSpec ExtraSpec.

Section Tags.
Context {IS : IriSyntax} {AE : AbsExternal}.
Variable unsigned : string -> bool.
(** The registry of the files, with the properties of its layouts. *)
Variable m : layouts term.
Variable props : term -> option (list (term * term)).

(** In the registry, [r] is the layout described by [l], with the properties which are written in [l]. *)
Definition defines_with (env : ienv) (l : alayout) (r : term) : Prop :=
  exists defs, described term_iri term_lit defs props env l r /\
    forall q p, defs q = Some p -> exists lay, layouts_get m q = Some lay /\ layout_of p lay.

(** The tag of the layout [ty] is [t]: [ty] is written in one of the documents [ls], with this tag; or it is a layout of the prelude, none of which
    has a tag. *)
Definition tag_of (ls : list alayout) (no_prelude : bool) (ty : term) (t : option N) : Prop :=
  (exists l l' env, In l ls /\ AbsSpec.inside l l' /\ defines_with env l' ty /\ has_tag unsigned env l' t) \/
  (layouts_get m ty = None /\ no_prelude = false /\ (exists p, ty = TmIri (preset_iri p)) /\ t = None).
End Tags.

(** The command does not write CBOR after a hydration. *)
Definition no_tags (c : option command) : Prop := forall layout subjects pretty, c <> Some (Hydrate Cbor layout subjects pretty).

(** The layout used by a command: the one that is given, or that of the only file of [--layout]; [rs]: the references of the documents. *)
Definition layout_used (layout : option term) (ls : list string) (rs : list term) (r : term) : Prop :=
  match layout with
  | Some t => r = t
  | None => (exists f, ls = [f]) /\ exists rs', rs = r :: rs'
  end.
