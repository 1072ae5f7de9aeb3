(** * Documents that only differ by names of variables and spellings of IRIs (C108)

    Only the data types of the model are used, with the meaning of names and compact IRIs
    ([innermost], [iri_denotes], [header_env], AbsSpec.v). *)

From Coq Require Import String Ascii List Bool Arith NArith ZArith.
Import ListNotations.
From Verif Require Import Base PatternModel ValueModel LayoutModel HydrateModel TermModel DehydrateModel
  AbsModel AbsSpec AbsAcceptSpec.
Open Scope list_scope.
Open Scope nat_scope.

Section Same.
Context {IS : IriSyntax} {AE : AbsExternal}.

(** Two spellings of one IRI, each in its environment (or two spellings of no IRI). *)
Definition same_iri (e e' : ienv) (i i' : compact_iri) : Prop :=
  forall j, iri_denotes e i j <-> iri_denotes e' i' j.

(** Two names of one variable, where the names [ns] (for the second one, [ns']) are declared in this order; or two names
    that are not declared. *)
Definition same_name (ns ns' : list string) (x x' : string) : Prop :=
  forall k, innermost ns x k <-> innermost ns' x' k.

Definition same_option {A B} (Q : A -> B -> Prop) (o : option A) (o' : option B) : Prop :=
  match o, o' with
  | None, None => True
  | Some a, Some b => Q a b
  | _, _ => False
  end.

Definition same_pattern (e e' : ienv) (ns ns' : list string) (p p' : apattern) : Prop :=
  match p, p' with
  | AVar x, AVar x' => same_name ns ns' x x'
  | AIri i, AIri i' => same_iri e e' i i'
  | ALiteral v (ATypeIri i), ALiteral v' (ATypeIri i') => v = v' /\ same_iri e e' i i'
  | ALiteral v (ATypeLang t), ALiteral v' (ATypeLang t') => v = v' /\ t = t'
  | _, _ => False
  end.

Definition same_quad (e e' : ienv) (ns ns' : list string) (q q' : quad apattern) : Prop :=
  same_pattern e e' ns ns' (q_s q) (q_s q') /\ same_pattern e e' ns ns' (q_p q) (q_p q') /\
  same_pattern e e' ns ns' (q_o q) (q_o q') /\ same_option (same_pattern e e' ns ns') (q_g q) (q_g q').

Definition same_extra (e e' : ienv) (x x' : compact_iri * aresource) : Prop :=
  same_iri e e' (fst x) (fst x') /\
  match snd x, snd x' with
  | ATypedString v i, ATypedString v' i' => v = v' /\ same_iri e e' i i'
  | r, r' => r = r'
  end.

(** The environment [e] inside a layout of header [h] found in [env]; every IRI of the header has a meaning. *)
Definition opens (env : ienv) (h : aheader) (e : ienv) : Prop :=
  header_env env h e /\ forall name p, In (name, p) (ah_prefixes h) -> iri_ok env p.

(** Headers: the same identifier, as many inputs and introduced variables, the same patterns and properties.  The base and the
    prefixes may differ: [Q] is asked of the contents of the layouts, read in the environments of the two headers. *)
Definition same_header (env env' : ienv) (h h' : aheader) (Q : ienv -> ienv -> Prop) : Prop :=
  same_option (same_iri env env') (ah_id h) (ah_id h') /\
  length (ah_input h) = length (ah_input h') /\ length (ah_intro h) = length (ah_intro h') /\
  ((exists e, opens env h e) <-> (exists e', opens env' h' e')) /\
  forall e e', opens env h e -> opens env' h' e' ->
    Forall2 (same_quad e e' (header_names h) (header_names h')) (ah_dataset h) (ah_dataset h') /\
    Forall2 (same_extra e e') (ah_extra h) (ah_extra h') /\ Q e e'.

Definition same_kind (e e' : ienv) (k k' : aliteral_kind) : Prop :=
  match k, k' with
  | AKBoolean d, AKBoolean d' => same_option (same_iri e e') d d'
  | AKNumber d, AKNumber d' | AKByteString d, AKByteString d' => same_iri e e' d d'
  | AKTextString p d, AKTextString p' d' => p = p' /\ same_option (same_iri e e') d d'
  | AKId p, AKId p' => p = p'
  | _, _ => False
  end.

Section Nested.
(** The nested layouts. *)
Context (same_nested : alayout -> alayout -> Prop) (e e' : ienv).

Definition same_ref (r r' : alayout_ref alayout) : Prop :=
  match r, r' with
  | RefIri i, RefIri i' => same_iri e e' i i'
  | RefLayout l, RefLayout l' => same_nested l l'
  | _, _ => False
  end.

(** Without inputs, the variable named [default] is used. *)
Definition same_format (ns ns' : list string) (default : string) (f f' : aformat alayout) : Prop :=
  match f, f' with
  | AFormat r inp g, AFormat r' inp' g' =>
      same_ref r r' /\ Forall2 (same_pattern e e' ns ns') inp inp' /\
      same_option (same_option (same_pattern e e' ns ns')) g g'
  | AFormatLayout r, AFormatLayout r' => same_ref r r' /\ same_name ns ns' default default
  | _, _ => False
  end.

Definition same_item (ns ns' : list string) (i i' : aitem alayout) : Prop :=
  length (ai_intro i) = length (ai_intro i') /\
  Forall2 (same_quad e e' (ns ++ ai_intro i) (ns' ++ ai_intro i')) (ai_dataset i) (ai_dataset i') /\
  same_option (same_pattern e e' (ns ++ ai_intro i) (ns' ++ ai_intro i')) (ai_property i) (ai_property i') /\
  same_format (ns ++ ai_intro i) (ns' ++ ai_intro i') "value" (ai_value i) (ai_value i').

Definition same_variant (ns ns' : list string) (v v' : string * avariant alayout) : Prop :=
  fst v = fst v' /\ length (av_intro (snd v)) = length (av_intro (snd v')) /\
  Forall2 (same_quad e e' (ns ++ av_intro (snd v)) (ns' ++ av_intro (snd v'))) (av_dataset (snd v)) (av_dataset (snd v')) /\
  same_format (ns ++ av_intro (snd v)) (ns' ++ av_intro (snd v')) "self" (av_value (snd v)) (av_value (snd v')).

Definition same_field (ns ns' : list string) (f f' : value * afield alayout) : Prop :=
  fst f = fst f' /\ af_required (snd f) = af_required (snd f') /\
  same_item ns ns' (af_item (snd f)) (af_item (snd f')).

Definition same_node (ns ns' : list string) (n n' : anode alayout) : Prop :=
  match n, n' with
  | ANode hd rs intro f ds, ANode hd' rs' intro' f' ds' =>
      length intro = length intro' /\
      same_option (Forall2 (same_quad e e' (ns ++ [hd; rs] ++ intro) (ns' ++ [hd'; rs'] ++ intro'))) ds ds' /\
      same_format (ns ++ [hd; rs] ++ intro) (ns' ++ [hd'; rs'] ++ intro') "value" f f'
  | ANodeLayout r, ANodeLayout r' => same_ref r r'
  | _, _ => False
  end.
End Nested.

Definition same_body (rec : ienv -> ienv -> alayout -> alayout -> Prop) (env env' : ienv) (l l' : alayout) : Prop :=
  match l, l' with
  | AUnit h c, AUnit h' c' => c = c' /\ same_header env env' h h' (fun _ _ => True)
  | ALiteralL k h r, ALiteralL k' h' r' =>
      same_header env env' h h' (fun e e' =>
        same_kind e e' k k' /\ same_option (same_pattern e e' (header_names h) (header_names h')) r r')
  | AProduct h fs, AProduct h' fs' =>
      same_header env env' h h' (fun e e' => all2 (same_field (rec e e') e e' (header_names h) (header_names h')) fs fs')
  | ASum h vs, ASum h' vs' =>
      same_header env env' h h' (fun e e' => all2 (same_variant (rec e e') e e' (header_names h) (header_names h')) vs vs')
  | AOrdered h n p q, AOrdered h' n' p' q' =>
      same_header env env' h h' (fun e e' =>
        same_node (rec e e') e e' (header_names h) (header_names h') n n' /\
        same_pattern e e' (header_names h) (header_names h') p p' /\
        same_pattern e e' (header_names h) (header_names h') q q')
  | AUnordered h i, AUnordered h' i' =>
      same_header env env' h h' (fun e e' => same_item (rec e e') e e' (header_names h) (header_names h') i i')
  | ASized h its, ASized h' its' =>
      same_header env env' h h' (fun e e' => all2 (same_item (rec e e') e e' (header_names h) (header_names h')) its its')
  | ABool b, ABool b' => b = b'
  | AUnion h, AUnion h' | AIntersection h, AIntersection h' => same_option (same_iri env env') (ah_id h) (ah_id h')
  | _, _ => False
  end.

(** [same_layout env env' l l']: the layouts [l], in the environment [env], and [l'], in [env'], only differ by the names of
    their variables and the spelling of their IRIs. *)
Fixpoint same_layout (env env' : ienv) (l l' : alayout) : Prop :=
  same_body (fun e e' k k' => same_layout e e' k k') env env' l l'.

(** ** Results: everything is the same but the texts inside errors *)
Definition same_error (x x' : build_error) : Prop :=
  match x, x' with
  | UndeclaredVariable _, UndeclaredVariable _ => True
  | NoBaseIri _, (NoBaseIri _ | InvalidIri _) | InvalidIri _, (NoBaseIri _ | InvalidIri _) => True
  | x, x' => x = x'
  end.
Definition same_outcome {A} (o o' : outcome build_error A) : Prop :=
  match o, o' with
  | Err x, Err x' => same_error x x'
  | o, o' => o = o'
  end.

(** ** Renaming the variables of a document *)
Section Rename.
Context (f : string -> string).

Definition rename_pattern (p : apattern) : apattern := match p with AVar x => AVar (f x) | p => p end.
Definition rename_quad (q : quad apattern) : quad apattern :=
  Quad (rename_pattern (q_s q)) (rename_pattern (q_p q)) (rename_pattern (q_o q)) (option_map rename_pattern (q_g q)).
Definition rename_header (h : aheader) : aheader :=
  AHeader (ah_base h) (ah_prefixes h) (ah_id h) (map f (ah_input h)) (map f (ah_intro h))
    (map rename_quad (ah_dataset h)) (ah_extra h).

Section Nested.
Context (rename_nested : alayout -> alayout).
Definition rename_ref (r : alayout_ref alayout) : alayout_ref alayout :=
  match r with RefIri i => RefIri i | RefLayout l => RefLayout (rename_nested l) end.
Definition rename_format (x : aformat alayout) : aformat alayout :=
  match x with
  | AFormat r inp g => AFormat (rename_ref r) (map rename_pattern inp) (option_map (option_map rename_pattern) g)
  | AFormatLayout r => AFormatLayout (rename_ref r)
  end.
Definition rename_item (i : aitem alayout) : aitem alayout :=
  match i with AItem intro v ds p =>
    AItem (map f intro) (rename_format v) (map rename_quad ds) (option_map rename_pattern p) end.
Definition rename_node (n : anode alayout) : anode alayout :=
  match n with
  | ANode hd rs intro v ds => ANode (f hd) (f rs) (map f intro) (rename_format v) (option_map (map rename_quad) ds)
  | ANodeLayout r => ANodeLayout (rename_ref r)
  end.
End Nested.

Fixpoint rename (l : alayout) : alayout :=
  match l with
  | AUnit h c => AUnit (rename_header h) c
  | ALiteralL k h r => ALiteralL k (rename_header h) (option_map rename_pattern r)
  | AProduct h fs =>
      AProduct (rename_header h)
        (map (fun kf => match kf with (k, AField i r) => (k, AField (rename_item rename i) r) end) fs)
  | ASum h vs =>
      ASum (rename_header h)
        (map (fun nv => match nv with (n, AVariant intro v ds) =>
                (n, AVariant (map f intro) (rename_format rename v) (map rename_quad ds)) end) vs)
  | AOrdered h n p q => AOrdered (rename_header h) (rename_node rename n) (rename_pattern p) (rename_pattern q)
  | AUnordered h i => AUnordered (rename_header h) (rename_item rename i)
  | ASized h its => ASized (rename_header h) (map (rename_item rename) its)
  | ABool b => ABool b
  | AUnion h => AUnion (rename_header h)
  | AIntersection h => AIntersection (rename_header h)
  end.
End Rename.
End Same.
