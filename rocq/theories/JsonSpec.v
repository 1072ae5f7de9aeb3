(** * Specification of the JSON conversions of values *)

From Coq Require Import String List Bool QArith Qcanon Sorting.Sorted.
Import ListNotations.
From Verif Require Import Base BaseProofs ValueModel JsonModel NumberSpec.
Open Scope list_scope.

(** Invariant of the [BTreeMap]s of a value: every map is strictly sorted by key. *)
Inductive value_wf : value -> Prop :=
| wf_lit l : value_wf (VLit l)
| wf_map m : StronglySorted lt (map fst m) ->
    (forall k v, In (k, v) m -> value_wf k /\ value_wf v) -> value_wf (VMap m)
| wf_list l : (forall v, In v l -> value_wf v) -> value_wf (VList l).

(** The JSON document [j] says the same as the value [v]: same scalars, numbers denoting the same rational, same items, same entries
    in the order of the keys. *)
Inductive JsonOf : value -> json -> Prop :=
| jo_unit : JsonOf (VLit LUnit) JNull
| jo_bool b : JsonOf (VLit (LBool b)) (JBool b)
| jo_num q s : Denotes s q -> JsonOf (VLit (LNum q)) (JNum s)
| jo_text s : JsonOf (VLit (LText s)) (JStr s)
| jo_list l l' : Forall2 JsonOf l l' -> JsonOf (VList l) (JArr l')
| jo_map m o :
    Forall2 (fun kv e => fst kv = VLit (LText (fst e)) /\ JsonOf (snd kv) (snd e)) m o ->
    JsonOf (VMap m) (JObj o).

(** Something in the value has no JSON counterpart: a byte string, a key that is not a string, or a number of the class [bad]. *)
Inductive NotJson (bad : Qc -> Prop) : value -> Prop :=
| nj_bytes s : NotJson bad (VLit (LBytes s))
| nj_num q : bad q -> NotJson bad (VLit (LNum q))
| nj_key m k v : In (k, v) m -> (forall s, k <> VLit (LText s)) -> NotJson bad (VMap m)
| nj_value m k v : In (k, v) m -> NotJson bad v -> NotJson bad (VMap m)
| nj_item l v : In v l -> NotJson bad v -> NotJson bad (VList l).

(** The numbers without decimal representation, as documented... *)
Definition non_decimal (q : Qc) : Prop := ~ Finite q.
(** ...and those the code refuses. *)
Definition refused (q : Qc) : Prop := ~ Finite q \/ (q <= - (1))%Qc.
