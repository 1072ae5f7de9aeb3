(** * Specification of the command line *)

From Coq Require Import String Ascii List Bool Arith NArith ZArith Qcanon Permutation.
Import ListNotations.
From Verif Require Import Base Orders PatternModel MatchingModel ValueModel LayoutModel HydrateModel TermModel
  DehydrateModel JsonModel CborModel AbsModel AbsSpec AbsJsonModel AbsJsonSpec AbsAcceptSpec AbsMeaning AbsRegistry
  GenSpec CodeGenModel PreludeSpec NumberSpec JsonSpec JsonProperties MatchingSpec CliModel.
From Verif Require CharModel.
Open Scope list_scope.
Open Scope nat_scope.

(** The characters of a string are Unicode scalar values ([str::chars], external). *)
Definition scalar_values {TS : TextSyntax} : Prop := forall s, Forall (fun c => CharModel.is_char c = true) (chars s).

Section Files.
Context {TS : TextSyntax} {IS : IriSyntax} {AE : AbsExternal} {F : Type} {FM : Formats F}.
Variable file : string -> option string.

(** The file [name] is a JSON document which describes the layout [l]. *)
Definition document (name : string) (l : alayout) : Prop :=
  exists source j, file name = Some source /\ json_parse source = Some j /\ layout_doc j l.

(** All the files can be read, they describe well formed layouts, and no identifier is given to two
    layouts, in the same file or not. *)
Definition acceptable (names : list string) : Prop :=
  exists ls idss, Forall2 document names ls /\ Forall2 (well_formed no_env) ls idss /\ NoDup (concat idss).

(** In the registry [m], the resource [r] is the layout described by [l]; see [compiled] (AbsSpec.v) and
    [layout_of] (AbsRegistry.v). *)
Definition defines (m : layouts term) (l : alayout) (r : term) : Prop :=
  exists defs, compiled (ctx_iri term_context) (ctx_lit term_context) defs no_env l r /\
    forall q p, defs q = Some p -> exists lay, layouts_get m q = Some lay /\ layout_of p lay.
(** [r] is a layout written in [l]. *)
Definition written_in (m : layouts term) (l : alayout) (r : term) : Prop :=
  exists defs l' env, AbsSpec.inside l l' /\ compiled (ctx_iri term_context) (ctx_lit term_context) defs env l' r /\
    forall q p, defs q = Some p -> exists lay, layouts_get m q = Some lay /\ layout_of p lay.

(** The registry [m] is made of the layouts of the documents [ls], the references of which are [rs]. *)
Definition made_of (m : layouts term) (ls : list alayout) (rs : list term) : Prop :=
  Forall2 (defines m) ls rs /\
  forall r, layouts_get m r <> None -> exists l, In l ls /\ written_in m l r.

(** The identifier of the document, if it has one. *)
Definition identifier (l : alayout) (i : string) : Prop :=
  exists h c, header_of l = Some h /\ ah_id h = Some c /\ iri_denotes no_env c i.
Definition anonymous (l : alayout) : Prop := forall h, header_of l = Some h -> ah_id h = None.
End Files.

(** The commands that use a layout, and the one given to them by [--layout]. *)
Inductive uses_layout : command -> option term -> Prop :=
| uses_hydrate output layout subjects pretty : uses_layout (Hydrate output layout subjects pretty) layout
| uses_dehydrate input layout : uses_layout (Dehydrate input layout) layout.
Definition with_layout (c : command) (r : term) : command :=
  match c with
  | Hydrate output _ subjects pretty => Hydrate output (Some r) subjects pretty
  | Dehydrate input _ => Dehydrate input (Some r)
  | c => c
  end.

(** The registry of the commands: the layouts of the files, then the prelude. *)
Definition lookup (m : layouts term) (no_prelude : bool) (reg : registry term) : Prop :=
  forall r l, reg r = Some l <->
    layouts_get m r = Some l \/
    (layouts_get m r = None /\ no_prelude = false /\
     exists p, r = TmIri (preset_iri p) /\ l = layout_at TmIri (preset_layout p)).

(** ** The formats *)
Section Formats.
Context {F : Type} {FM : Formats F}.
Variables (from_f64 : F -> option Qc) (to_f64 : Qc -> F).

(** The depth of a value. *)
Fixpoint serde_depth (s : serde_value F) : nat :=
  match s with
  | SSeq l => S (list_max (map serde_depth l))
  | SMap m => S (list_max (map (fun e => Nat.max (serde_depth (fst e)) (serde_depth (snd e))) m))
  | _ => 0
  end.
Fixpoint value_depth (v : value) : nat :=
  match v with
  | VList l => S (list_max (map value_depth l))
  | VMap m => S (list_max (map (fun e => Nat.max (value_depth (fst e)) (value_depth (snd e))) m))
  | _ => 0
  end.

(** The data that CBOR writes as such: the integers are machine integers, the signed ones are negative. *)
Inductive cbor_native : serde_value F -> Prop :=
| cn_unit : cbor_native SUnit
| cn_bool b : cbor_native (SBool b)
| cn_u64 n : (0 <= n < 2 ^ 64)%Z -> cbor_native (SU64 n)
| cn_i64 n : (- 2 ^ 63 <= n < 0)%Z -> cbor_native (SI64 n)
| cn_f64 q : cbor_native (SF64 (to_f64 q))
| cn_str s : cbor_native (SStr s)
| cn_bytes s : cbor_native (SBytes s)
| cn_seq l : (forall s, In s l -> cbor_native s) -> cbor_native (SSeq l)
| cn_map m : (forall k s, In (k, s) m -> cbor_native k /\ cbor_native s) -> cbor_native (SMap m).

(** What is expected of the crates: what they write, they read.  The reader of [serde_cbor] stops at
    128 levels. *)
Record format_laws : Prop := {
  json_reads_back : forall pretty j, json_wf j -> json_parse (json_print pretty j) = Some j;
  cbor_reads_back : forall s, cbor_native s -> serde_depth s < 128 -> cbor_parse (cbor_print s) = Some s;
  nquads_reads_back : forall qs, nquads_parse (rdf_write qs) = Some qs
}.

(** The text holds the value, in the format. *)
Definition holds (f : tree_format) (text : string) (v : value) : Prop :=
  match f with
  | Json => exists j, json_parse text = Some j /\ value_from_json j = Ok v
  | Cbor => exists s, cbor_parse text = Some s /\ value_deserialize from_f64 s = Ok v
  end.
(** The text holds the quads. *)
Definition holds_quads (text : string) (G : quad term -> Prop) : Prop :=
  exists qs, nquads_parse text = Some qs /\ forall q, In q qs <-> G q.

(** The values that can be written in the format without loss. *)
Definition writable (f : tree_format) (v : value) : Prop :=
  match f with
  | Json => ~ NotJson refused v
  | Cbor => Numbers (native_exact to_f64 from_f64) v /\ value_depth v < 128
  end.

(** What is expected of the datasets: [into_indexed] and the iterators. *)
Record dataset_laws (index : list (quad term) -> dataset term) (order : list (quad res) -> list (quad res))
    (lines : list (quad term) -> list (quad term)) : Prop := {
  index_all : forall l, NoDup l -> enumerates (index l) (fun q => In q l);
  order_all : forall l, Permutation (order l) l;
  lines_all : forall l, Permutation (lines l) l
}.
End Formats.
