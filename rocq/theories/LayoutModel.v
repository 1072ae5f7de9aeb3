(** * Layouts ([layouts/src/layout/**], [layouts/src/format.rs]) and layout registries
      ([layouts/src/lib.rs])

    The [extra_properties] of layouts are not modelled: nothing reads them in the
    functions under study. *)

From Coq Require Import String List Bool Arith NArith.
Import ListNotations.
From Verif Require Import Base PatternModel ValueModel.
Open Scope list_scope.

(** [DetAutomaton<u32>] — layouts/src/utils/automaton.rs 268-272 (see [AutomatonModel.v]
    for its functions). Labels are ranges of characters. *)
Definition range : Type := (N * N)%type.
Record det_automaton (Q : Type) : Type := DetAutomaton {
  da_initial : Q;
  da_final : list Q;
  da_transitions : list (Q * list (range * Q))
}.
Arguments DetAutomaton {Q} da_initial da_final da_transitions.
Arguments da_initial {Q} d.
Arguments da_final {Q} d.
Arguments da_transitions {Q} d.

Section Layout.
Context {R : Type}.

(** [ValueFormat] — layouts/src/format.rs 6-15. *)
Record vformat : Type := VFormat {
  vf_layout : R;
  vf_input : list (pattern R);
  vf_graph : option (option (pattern R))
}.

(** [ItemLayout] (layouts/src/layout/list/mod.rs 71-80), [NodeLayout]
    (layouts/src/layout/list/ordered.rs 54-64), and the fields [intro], [value], [dataset] of
    [Field] (layouts/src/layout/product.rs 58-70) and [Variant]
    (layouts/src/layout/sum.rs 56-68): same three fields. *)
Record item_layout : Type := Item {
  it_intro : nat;
  it_value : vformat;
  it_dataset : list (qpat R)
}.

(** [Field] — layouts/src/layout/product.rs 58-70. *)
Record field : Type := Field {
  f_item : item_layout;
  f_required : bool
}.

(** [Variant] — layouts/src/layout/sum.rs 56-68. *)
Record variant : Type := Variant {
  va_name : string;
  va_item : item_layout
}.

(** The fields [input], [intro] and [dataset] common to all the layout structures. *)
Record header : Type := Header {
  h_input : nat;
  h_intro : nat;
  h_dataset : list (qpat R)
}.

(** The four [DataLayout]s holding an RDF literal — layouts/src/layout/literal/data.rs.
    They share the fields [resource] and [datatype]; text strings also have a pattern. *)
Inductive data_kind : Type :=
| KBoolean
| KNumber
| KByteString
| KTextString (pat : option (det_automaton nat)).

(** [Layout] — layouts/src/layout/mod.rs 73-115, with the nested enumerations
    [LiteralLayout] (src/layout/literal/mod.rs 23-26), [DataLayout] and [ListLayout]
    (src/layout/list/mod.rs 25-29) flattened. *)
Inductive layout : Type :=
| Never
| Always
| UnitL (h : header) (const : value)
| DataL (k : data_kind) (h : header) (resource : pattern R) (datatype : R)
| IdL (h : header) (resource : pattern R) (pat : option (det_automaton nat))
| ProductL (h : header) (fields : list (value * field))
| SumL (h : header) (variants : list variant)
| UnorderedL (h : header) (item : item_layout)
| OrderedL (h : header) (node : item_layout) (head tail : pattern R)
| SizedL (h : header) (items : list item_layout).

(** [Layout::input_count] — layouts/src/layout/mod.rs 164-173: [Some(1)] for every literal
    layout, whatever its field [input]. *)
Definition input_count (l : layout) : option nat :=
  match l with
  | Never | Always => None
  | UnitL _ _ | DataL _ _ _ _ | IdL _ _ _ => Some 1
  | ProductL h _ | SumL h _ | UnorderedL h _ | OrderedL h _ _ _ | SizedL h _ => Some (h_input h)
  end.

(** [Layout::visit_dependencies] — layouts/src/layout/mod.rs 130-139,
    src/layout/product.rs 37-41, src/layout/sum.rs 34-38, src/layout/list/*.rs; order of the visits. *)
Definition visit_dependencies (l : layout) : list R :=
  match l with
  | Never | Always | UnitL _ _ | DataL _ _ _ _ | IdL _ _ _ => []
  | ProductL _ fields => map (fun kf => vf_layout (it_value (f_item (snd kf)))) fields
  | SumL _ variants => map (fun v => vf_layout (it_value (va_item v))) variants
  | UnorderedL _ item => [vf_layout (it_value item)]
  | OrderedL _ node _ _ => [vf_layout (it_value node)]
  | SizedL _ items => map (fun i => vf_layout (it_value i)) items
  end.

(** [Layout::dependencies] — layouts/src/layout/mod.rs 145-158. *)
Definition dependencies `{Cmp R} (l : layout) : list R := dedup (sort (visit_dependencies l)).

(** A [LayoutRegistry] (layouts/src/lib.rs 160-183) through its method [get]. *)
Definition registry : Type := R -> option layout.

(** [LayoutRegistry::contains] — layouts/src/lib.rs (default method): [get(..).is_some()]. *)
Definition contains (reg : registry) (r : R) : bool :=
  match reg r with Some _ => true | None => false end.

(** [LayoutRegistryUnion] — layouts/src/lib.rs 352-361: [self.1] has precedence. *)
Record union : Type := Union { u_0 : registry; u_1 : registry }.

(** [LayoutRegistryUnion::get] — layouts/src/lib.rs 359-361. *)
Definition union_get (u : union) : registry := fun r =>
  match u_1 u r with
  | Some l => Some l
  | None => u_0 u r
  end.

(** [LayoutRegistry::with] — layouts/src/lib.rs 177-182. *)
Definition reg_with (self other : registry) : union := Union other self.

(** [impl LayoutRegistry for Option<T>] — layouts/src/lib.rs 195-203. *)
Definition option_get (o : option registry) : registry := fun r =>
  match o with Some reg => reg r | None => None end.

(** [Layouts] — layouts/src/lib.rs 240-300: a [BTreeMap] from references to layouts. *)
Definition layouts : Type := list (R * layout).

Definition layouts_get `{Cmp R} (m : layouts) : registry := fun r => bt_get r m.

(** [Layouts::insert]/[insert_with] — layouts/src/lib.rs 276-297: the new map and the layout
    previously bound. *)
Definition layouts_insert `{Cmp R} (r : R) (l : layout) (m : layouts)
  : layouts * option layout := (bt_insert r l m, bt_get r m).

End Layout.
Arguments vformat R : clear implicits.
Arguments item_layout R : clear implicits.
Arguments field R : clear implicits.
Arguments variant R : clear implicits.
Arguments header R : clear implicits.
Arguments layout R : clear implicits.
Arguments registry R : clear implicits.
Arguments union R : clear implicits.
Arguments layouts R : clear implicits.
