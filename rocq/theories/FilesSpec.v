(** * The order of the layout files (C111): specification *)

From Coq Require Import String List Bool Arith NArith Permutation.
Import ListNotations.
From Verif Require Import Base TermModel ValueModel LayoutModel RelabelSpec DehydrateModel JsonModel AbsModel AbsJsonModel CliModel CliSpec.

(** The layout of a command: that of the files, or an IRI. *)
Inductive named : option term -> Prop :=
| na_default : named None
| na_iri i : named (Some (TmIri i)).
Inductive by_name : command -> Prop :=
| bn_hydrate output o subjects pretty : named o -> by_name (Hydrate output o subjects pretty)
| bn_dehydrate input o : named o -> by_name (Dehydrate input o)
| bn_tree input output pretty : by_name (ConvertTree input output pretty)
| bn_rdf : by_name ConvertRdf.

(** No set of the layouts of the files has items that contain a variant of a sum. *)
Definition no_variant_in_sets {TS : TextSyntax} {IS : IriSyntax} {AE : AbsExternal} {F} {FM : Formats F}
    (file : string -> option string) (fuel : nat) (no_prelude : bool) (names : list string) : Prop :=
  forall d m n, load_files file fuel names DefaultNone [] 0 = Ok (d, m, n) ->
  forall reg, lookup m no_prelude reg -> forall r, no_sum_in_sets reg r.

(** The same value, up to the order of the items of the lists. *)
Inductive reordered : value -> value -> Prop :=
| ro_same v : reordered v v
| ro_map m m' : Forall2 (fun e e' => fst e = fst e' /\ reordered (snd e) (snd e')) m m' -> reordered (VMap m) (VMap m')
| ro_list l l1 l' : Permutation l l1 -> Forall2 reordered l1 l' -> reordered (VList l) (VList l').
