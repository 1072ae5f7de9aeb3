(** * The documents of compiled layouts that serde reads (C116)

    A grammar of the values that a self describing deserializer presents, independent of the reader of LayoutSerdeModel.v.  The
    resources, the datasets and the ranges of characters are read by external implementations. *)

From Coq Require Import String Ascii List Bool Arith NArith ZArith QArith Qcanon.
Import ListNotations.
From Verif Require Import Base BaseProofs Orders PatternModel ValueModel LayoutModel NumberModel HydrateModel JsonModel
  AutomatonModel AbsSerdeModel LayoutSerdeModel SerdeDocSpec.
Open Scope list_scope.
Open Scope nat_scope.
Open Scope string_scope.

Section Docs.
Context {R F : Type} {CR : Cmp R} {SE : SerdeExternal R F} (from_f64 : F -> option Qc).
Notation sv := (serde_value F).
Notation object := (list (string * sv)).

(** The fields of a structure: a map of texts in which none of them is repeated, with any other entries, or the sequence of their values. *)
Inductive open_struct (names : list string) : sv -> object -> Prop :=
| OpenMap o : (forall k, In k names -> unrepeated o k) -> open_struct names (text_map o) o
| OpenSeq l : length l = length names -> open_struct names (SSeq l) (combine names l).

(** A variant of an enumeration with its content. *)
Definition variant_ldoc (name : string) (c : sv) : sv := SMap [(SStr name, c)].

Definition number_ldoc (bits : Z) (s : sv) (n : nat) : Prop :=
  (s = SU64 (Z.of_nat n) \/ s = SI64 (Z.of_nat n)) /\ (Z.of_nat n < 2 ^ bits)%Z.
Definition resource_ldoc (s : sv) (r : R) : Prop := get_resource s = Ok r.
Definition quads_ldoc (s : sv) (d : list (qpat R)) : Prop := get_dataset s = Ok d.
Definition range_ldoc (s : sv) (r : range) : Prop := get_range (R := R) s = Ok r.
Definition value_ldoc (s : sv) (v : value) : Prop := value_deserialize from_f64 s = Ok v.

Inductive pattern_ldoc : sv -> pattern R -> Prop :=
| LdResource s r : resource_ldoc s r -> pattern_ldoc (variant_ldoc "Resource" s) (PRes r)
| LdVar s x : number_ldoc 32 s x -> pattern_ldoc (variant_ldoc "Var" s) (PVar x).

Inductive format_ldoc : sv -> vformat R -> Prop :=
| LdFormat s o r input graph : open_struct ["layout"; "input"; "graph"] s o ->
    given o "layout" resource_ldoc r -> given o "input" (seq_sdoc pattern_ldoc) input -> given_opt o "graph" pattern_ldoc graph ->
    format_ldoc s (VFormat r input (option_map Some graph)).

Inductive transition_ldoc : sv -> nat * (range * nat) -> Prop :=
| LdTransition a b c q r t : number_ldoc 64 a q -> range_ldoc b r -> number_ldoc 64 c t -> transition_ldoc (SSeq [a; b; c]) (q, (r, t)).

(** The states are collected in a set, the transitions in a map (C46). *)
Inductive automaton_ldoc : sv -> det_automaton nat -> Prop :=
| LdAutomaton s o i f t : open_struct ["initial_state"; "final_states"; "transitions"] s o ->
    given o "initial_state" (number_ldoc 64) i -> given o "final_states" (seq_sdoc (number_ldoc 64)) f ->
    given o "transitions" (seq_sdoc transition_ldoc) t ->
    automaton_ldoc s (DetAutomaton i (set_collect f) (deserialize_transitions t)).

(** The fields common to items, nodes, fields and variants, and to layouts. *)
Definition item_entries (o : object) (it : item_layout R) : Prop :=
  given o "intro" (number_ldoc 32) (it_intro it) /\ given o "value" format_ldoc (it_value it) /\ given o "dataset" quads_ldoc (it_dataset it).
Definition header_entries (o : object) (h : header R) (extra : list (R * R)) : Prop :=
  given o "input" (number_ldoc 32) (h_input h) /\ given o "intro" (number_ldoc 32) (h_intro h) /\ given o "dataset" quads_ldoc (h_dataset h) /\
  given o "extra_properties" (map_sdoc resource_ldoc resource_ldoc) extra.

Inductive item_ldoc : sv -> item_layout R -> Prop :=
| LdItem s o it : open_struct ["intro"; "value"; "dataset"] s o -> item_entries o it -> item_ldoc s it.
Inductive field_ldoc : sv -> field R -> Prop :=
| LdField s o it b : open_struct ["intro"; "value"; "dataset"; "required"] s o -> item_entries o it -> given o "required" bool_sdoc b ->
    field_ldoc s (Field it b).
Inductive sum_variant_ldoc : sv -> variant R -> Prop :=
| LdVariant s o name it : open_struct ["name"; "intro"; "value"; "dataset"] s o -> given o "name" string_sdoc name -> item_entries o it ->
    sum_variant_ldoc s (Variant name it).

(** The structures of the kinds of layouts. *)
Definition plain_kind (name : string) (k : data_kind) : Prop :=
  (name = "Boolean" /\ k = KBoolean) \/ (name = "Number" /\ k = KNumber) \/ (name = "ByteString" /\ k = KByteString).

Inductive layout_ldoc : sv -> layout R -> list (R * R) -> Prop :=
| LdNever s : s = SStr "Never" \/ s = variant_ldoc "Never" SUnit -> layout_ldoc s Never []
| LdAlways s : s = SStr "Always" \/ s = variant_ldoc "Always" SUnit -> layout_ldoc s Always []
| LdUnit s o h ex c : open_struct ["input"; "intro"; "dataset"; "const"; "extra_properties"] s o -> header_entries o h ex ->
    given_or o "const" value_ldoc (VLit LUnit) c ->
    layout_ldoc (variant_ldoc "Literal" (variant_ldoc "Data" (variant_ldoc "Unit" s))) (UnitL h c) ex
| LdPlain name k s o h ex r dt : plain_kind name k ->
    open_struct ["input"; "intro"; "dataset"; "resource"; "datatype"; "extra_properties"] s o -> header_entries o h ex ->
    given o "resource" pattern_ldoc r -> given o "datatype" resource_ldoc dt ->
    layout_ldoc (variant_ldoc "Literal" (variant_ldoc "Data" (variant_ldoc name s))) (DataL k h r dt) ex
| LdText s o h ex p r dt :
    open_struct ["input"; "intro"; "pattern"; "dataset"; "resource"; "datatype"; "extra_properties"] s o -> header_entries o h ex ->
    given_opt o "pattern" automaton_ldoc p -> given o "resource" pattern_ldoc r -> given o "datatype" resource_ldoc dt ->
    layout_ldoc (variant_ldoc "Literal" (variant_ldoc "Data" (variant_ldoc "TextString" s))) (DataL (KTextString p) h r dt) ex
| LdId s o h ex p r : open_struct ["input"; "intro"; "dataset"; "pattern"; "resource"; "extra_properties"] s o -> header_entries o h ex ->
    given_opt o "pattern" automaton_ldoc p -> given o "resource" pattern_ldoc r ->
    layout_ldoc (variant_ldoc "Literal" (variant_ldoc "Id" s)) (IdL h r p) ex
| LdProduct s o h ex fs : open_struct ["input"; "intro"; "fields"; "dataset"; "extra_properties"] s o -> header_entries o h ex ->
    given o "fields" (map_sdoc value_ldoc field_ldoc) fs -> layout_ldoc (variant_ldoc "Product" s) (ProductL h fs) ex
| LdSum s o h ex vs : open_struct ["input"; "intro"; "variants"; "dataset"; "extra_properties"] s o -> header_entries o h ex ->
    given o "variants" (seq_sdoc sum_variant_ldoc) vs -> layout_ldoc (variant_ldoc "Sum" s) (SumL h vs) ex
| LdUnordered s o h ex it : open_struct ["input"; "intro"; "item"; "dataset"; "extra_properties"] s o -> header_entries o h ex ->
    given o "item" item_ldoc it -> layout_ldoc (variant_ldoc "List" (variant_ldoc "Unordered" s)) (UnorderedL h it) ex
| LdOrdered s o h ex nd hd tl : open_struct ["input"; "intro"; "node"; "head"; "tail"; "dataset"; "extra_properties"] s o -> header_entries o h ex ->
    given o "node" item_ldoc nd -> given o "head" pattern_ldoc hd -> given o "tail" pattern_ldoc tl ->
    layout_ldoc (variant_ldoc "List" (variant_ldoc "Ordered" s)) (OrderedL h nd hd tl) ex
| LdSized s o h ex its : open_struct ["input"; "intro"; "items"; "dataset"; "extra_properties"] s o -> header_entries o h ex ->
    given o "items" (seq_sdoc item_ldoc) its -> layout_ldoc (variant_ldoc "List" (variant_ldoc "Sized" s)) (SizedL h its) ex.
End Docs.
