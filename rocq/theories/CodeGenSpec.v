(** * The layouts that a generated type keeps: specification *)

From Coq Require Import String Ascii List Bool Arith NArith Permutation.
Import ListNotations.
From Verif Require Import Base BaseProofs Orders PatternModel ValueModel LayoutModel HydrateModel TermModel DehydrateModel
  RegexpModel AbsModel AbsJsonModel AbsSpec VariableSpec AttrModel CodeGenModel.
Open Scope list_scope.
Open Scope nat_scope.

(** What the generated attributes rely on: a number is the suffix of a blank node identifier and
    the name of a variable; the IRIs of
    the resources have a scheme, are IRI references, and are not blank node identifiers. *)
Class GeneratorLaws {TS : TextSyntax} {R} {IN : Interp R} : Prop := {
  gl_blank : forall x, blank_suffix ("_:" ++ nat_string x) = Some (nat_string x);
  gl_name : forall x, variable_name (nat_string x);
  gl_iri : forall r iri, In iri (iris_of r) ->
    is_iri_ref iri = true /\ blank_suffix iri = None /\ exists scheme suffix, absolute iri scheme suffix
}.
Arguments GeneratorLaws {TS} R {IN}.

(** ** The same layout, up to the resources

    [res r t]: the resource [r] is now [t]; [ref r t]: the layout [r] is now [t]. *)
Section Same.
Context {R S : Type} (res ref : R -> S -> Prop).

Definition same_pattern (p : pattern R) (p' : pattern S) : Prop :=
  match p, p' with
  | PVar x, PVar x' => x' = x
  | PRes r, PRes t => res r t
  | _, _ => False
  end.
Definition same_quad (q : qpat R) (q' : qpat S) : Prop :=
  same_pattern (q_s q) (q_s q') /\ same_pattern (q_p q) (q_p q') /\ same_pattern (q_o q) (q_o q') /\
  match q_g q, q_g q' with
  | None, None => True
  | Some g, Some g' => same_pattern g g'
  | _, _ => False
  end.

(** Datasets are sets. *)
Definition same_dataset (ds : list (qpat R)) (ds' : list (qpat S)) : Prop :=
  NoDup ds' /\ (forall q, In q ds -> exists q', In q' ds' /\ same_quad q q') /\
  (forall q', In q' ds' -> exists q, In q ds /\ same_quad q q').

Definition same_header (h : header R) (h' : header S) : Prop :=
  h_input h' = h_input h /\ h_intro h' = h_intro h /\ same_dataset (h_dataset h) (h_dataset h').

Definition same_format (f : vformat R) (f' : vformat S) : Prop :=
  ref (vf_layout f) (vf_layout f') /\ Forall2 same_pattern (vf_input f) (vf_input f') /\
  match vf_graph f, vf_graph f' with
  | None, None => True
  | Some None, Some None => True
  | Some (Some g), Some (Some g') => same_pattern g g'
  | _, _ => False
  end.
Definition same_item (it : item_layout R) (it' : item_layout S) : Prop :=
  it_intro it' = it_intro it /\ same_format (it_value it) (it_value it') /\
  same_dataset (it_dataset it) (it_dataset it').

(** The data layouts are not the concern of the generator (see [C80_literal_refuted]). *)
Definition same_layout (l : layout R) (l' : layout S) : Prop :=
  match l, l' with
  | UnitL h c, UnitL h' c' => same_header h h' /\ c' = c
  | IdL h p pat, IdL h' p' pat' => same_header h h' /\ same_pattern p p' /\ pat' = pat
  | ProductL h fs, ProductL h' fs' => same_header h h' /\
      Forall2 (fun kf kf' => fst kf' = fst kf /\ f_required (snd kf') = f_required (snd kf) /\
                             same_item (f_item (snd kf)) (f_item (snd kf'))) fs fs'
  | SumL h vs, SumL h' vs' => same_header h h' /\
      Forall2 (fun v v' => va_name v' = va_name v /\ same_item (va_item v) (va_item v')) vs vs'
  | OrderedL h n p q, OrderedL h' n' p' q' => same_header h h' /\ same_item n n' /\
      same_pattern p p' /\ same_pattern q q'
  | SizedL h its, SizedL h' its' => same_header h h' /\ Forall2 same_item its its'
  | _, _ => False
  end.
End Same.

(** ** The layouts whose types declare them *)

Definition names_sorted {R} (vs : list (variant R)) : Prop := bt_wf (map (fun v => (va_name v, va_item v)) vs).

Definition expressible {R} (l : layout R) : Prop :=
  match l with
  | UnitL _ c => c = VLit LUnit
  | IdL _ p pat => p = PVar 0 /\ pat = None
  | ProductL _ fs => bt_wf fs /\ forall k f, In (k, f) fs -> f_required f = true
  | SumL _ vs => names_sorted vs
  | OrderedL _ _ _ _ | SizedL _ _ => True
  | _ => False
  end.

(** What the type generated for [l] declares: every field is required, the variants are sorted, and the
    constants, the patterns and the resources of the literals are lost. *)
Definition declares {R} (l l0 : layout R) : Prop :=
  match l with
  | UnitL h _ => l0 = UnitL h (VLit LUnit)
  | IdL h _ _ => l0 = IdL h (PVar 0) None
  | ProductL h fs => l0 = ProductL h (map (fun kf => (fst kf, Field (f_item (snd kf)) true)) fs)
  | SumL h vs => exists vs', Permutation vs vs' /\ names_sorted vs' /\ l0 = SumL h vs'
  | OrderedL _ _ _ _ | SizedL _ _ => l0 = l
  | _ => False
  end.

(** The names of the fields are the keys of an ordered map, and those of the variants are distinct. *)
Definition distinct_names {R} (l : layout R) : Prop :=
  match l with
  | ProductL _ fs => bt_wf fs
  | SumL _ vs => NoDup (map va_name vs)
  | _ => True
  end.

(** ** The layouts for which a type is generated *)

(** Every resource has an IRI. *)
Definition named {R} {IN : Interp R} (p : pattern R) : Prop :=
  match p with PVar _ => True | PRes r => exists iri, hd_error (iris_of r) = Some iri end.
Definition quad_named {R} {IN : Interp R} (q : qpat R) : Prop :=
  named (q_s q) /\ named (q_p q) /\ named (q_o q) /\ forall g, q_g q = Some g -> named g.
Definition dataset_named {R} {IN : Interp R} (ds : list (qpat R)) : Prop := forall q, In q ds -> quad_named q.
Definition format_named {R} {IN : Interp R} (f : vformat R) : Prop :=
  (forall p, In p (vf_input f) -> named p) /\ forall g, vf_graph f = Some (Some g) -> named g.
Definition item_named {R} {IN : Interp R} (it : item_layout R) : Prop :=
  format_named (it_value it) /\ dataset_named (it_dataset it).

(** The layout is a preset one, or one of its IRIs gives an identifier. *)
Definition type_named {TS : TextSyntax} {RS : RustSyntax} {R} {IN : Interp R} (r : R) : Prop :=
  exists iri, In iri (iris_of r) /\ (preset_from_iri iri <> None \/ ident_from_iri iri <> None).
Definition component_named {TS : TextSyntax} {RS : RustSyntax} {R} {IN : Interp R} (it : item_layout R) : Prop :=
  item_named it /\ type_named (vf_layout (it_value it)).

Definition layout_named {TS : TextSyntax} {RS : RustSyntax} {R} {IN : Interp R} (l : layout R) : Prop :=
  match l with
  | Never | Always => True
  | UnitL h _ | DataL _ h _ _ | IdL h _ _ => dataset_named (h_dataset h)
  | ProductL h fs => dataset_named (h_dataset h) /\ forall k f, In (k, f) fs ->
      component_named (f_item f) /\ exists name, k = VLit (LText name) /\ is_rust_ident name = true
  | SumL h vs => dataset_named (h_dataset h) /\ forall v, In v vs ->
      component_named (va_item v) /\ is_rust_ident (va_name v) = true
  | UnorderedL h it => dataset_named (h_dataset h) /\ component_named it
  | OrderedL h node p q => dataset_named (h_dataset h) /\ component_named node /\ named p /\ named q
  | SizedL h its => dataset_named (h_dataset h) /\ forall it, In it its -> component_named it
  end.

(** ** The variables are declared *)

Definition pattern_scoped {R} (n : nat) (p : pattern R) : Prop := match p with PVar x => x < n | PRes _ => True end.
Definition quad_scoped {R} (n : nat) (q : qpat R) : Prop :=
  pattern_scoped n (q_s q) /\ pattern_scoped n (q_p q) /\ pattern_scoped n (q_o q) /\
  forall g, q_g q = Some g -> pattern_scoped n g.
Definition dataset_scoped {R} (n : nat) (ds : list (qpat R)) : Prop := forall q, In q ds -> quad_scoped n q.
Definition format_scoped {R} (n : nat) (f : vformat R) : Prop :=
  (forall p, In p (vf_input f) -> pattern_scoped n p) /\
  forall g, vf_graph f = Some (Some g) -> pattern_scoped n g.
Definition item_scoped {R} (n : nat) (it : item_layout R) : Prop :=
  format_scoped (n + it_intro it) (it_value it) /\ dataset_scoped (n + it_intro it) (it_dataset it).

Definition layout_scoped {R} (l : layout R) : Prop :=
  match l with
  | Never | Always => True
  | UnitL h _ | DataL _ h _ _ | IdL h _ _ => dataset_scoped (h_input h + h_intro h) (h_dataset h)
  | ProductL h fs => let n := h_input h + h_intro h in dataset_scoped n (h_dataset h) /\
      forall k f, In (k, f) fs -> item_scoped n (f_item f)
  | SumL h vs => let n := h_input h + h_intro h in dataset_scoped n (h_dataset h) /\
      forall v, In v vs -> item_scoped n (va_item v)
  | UnorderedL h it => let n := h_input h + h_intro h in dataset_scoped n (h_dataset h) /\ item_scoped n it
  | OrderedL h node p q => let n := h_input h + h_intro h in dataset_scoped n (h_dataset h) /\
      item_scoped (n + 2) node /\ pattern_scoped n p /\ pattern_scoped n q
  | SizedL h its => let n := h_input h + h_intro h in dataset_scoped n (h_dataset h) /\
      forall it, In it its -> item_scoped n it
  end.

(** The type generated for an identifier layout reads the first input. *)
Definition has_subject {R} (l : layout R) : Prop := match l with IdL h _ _ => h_input h <> 0 | _ => True end.

(** The layouts whose types are read back with their kind (see [C80_literal_tuple] and [C80_set_rejected]). *)
Definition kind_kept {R} (l : layout R) : Prop :=
  match l with
  | UnitL _ _ | IdL _ _ _ | ProductL _ _ | SumL _ _ | OrderedL _ _ _ _ | SizedL _ _ => True
  | _ => False
  end.

(** ** The resources and layouts of the generated type *)

(** A resource is named by its first IRI. *)
Definition first_iri {R} {IN : Interp R} (r : R) (t : term) : Prop :=
  exists iri, hd_error (iris_of r) = Some iri /\ t = TmIri iri.

(** The layout of a component is the one of the type of the component: the type generated for the layout. *)
Definition type_ref {R} (type_of : R -> rty -> Prop) (types : list rty) (r : R) (t : term) : Prop :=
  exists i ty, t = TmIri ("rust:/#Type" ++ nat_string i) /\ nth_error types i = Some ty /\ type_of r ty.

(** ** The modules and identifiers *)

(** [path] is the module registered for the longest prefix of [iri]. *)
Definition longest_module (o : gen_options) (iri : string) (path : rpath) : Prop :=
  exists prefix rest, In (prefix, path) o /\ iri = (prefix ++ rest)%string /\
    forall prefix' path' rest', In (prefix', path') o -> iri = (prefix' ++ rest')%string ->
      String.length prefix' <= String.length prefix.

(** No module is registered for a prefix of [iri]. *)
Definition no_module (o : gen_options) (iri : string) : Prop :=
  forall prefix path rest, In (prefix, path) o -> iri <> (prefix ++ rest)%string.

(** [path] is the module of the last of the IRIs that have one; the path is empty when no IRI has one. *)
Definition module_of (o : gen_options) (iris : list string) (path : rpath) : Prop :=
  (exists before iri after, iris = before ++ iri :: after /\ longest_module o iri path /\
     forall iri', In iri' after -> no_module o iri') \/
  ((forall iri, In iri iris -> no_module o iri) /\ path = RsPath false []).

(** [id] is the least of the identifiers given by the IRIs. *)
Definition least_ident {TS : TextSyntax} {RS : RustSyntax} (iris : list string) (id : string) : Prop :=
  (exists iri, In iri iris /\ ident_from_iri iri = Some id) /\
  forall iri id', In iri iris -> ident_from_iri iri = Some id' -> cmp id id' <> Gt.

(** [p] is the first of the IRIs that names a preset layout. *)
Definition first_preset (iris : list string) (p : preset) : Prop :=
  exists before iri after, iris = before ++ iri :: after /\ preset_from_iri iri = Some p /\
    forall iri', In iri' before -> preset_from_iri iri' = None.
