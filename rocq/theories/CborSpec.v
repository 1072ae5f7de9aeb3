(** * Specification of CBOR conversions *)

From Coq Require Import String Ascii List Bool NArith ZArith QArith Qcanon Sorting.Sorted.
Import ListNotations.
From Verif Require Import Base BaseProofs ValueModel CborModel JsonSpec.
Open Scope list_scope.

(** Network byte order. *)
Fixpoint be_value_from (v : Z) (s : string) : Z :=
  match s with
  | EmptyString => v
  | String c s' => be_value_from (256 * v + Z.of_N (N_of_ascii c)) s'
  end%Z.
Definition be_value : string -> Z := be_value_from 0.

(** The integers denoted by a CBOR item (RFC 8949, 3.1 and 3.4.3): major types 0 and 1 hold the
    integers from -2^64 to 2^64 - 1; a byte string tagged 2 is an unsigned bignum [n]; tagged 3, it
    is -1 - [n]. *)
Inductive CborInteger : cbor -> Z -> Prop :=
| ci_int z : (- 2 ^ 64 <= z < 2 ^ 64)%Z -> CborInteger (CInt z) z
| ci_pos s : CborInteger (CTag 2 (CBytes s)) (be_value s)
| ci_neg s : CborInteger (CTag 3 (CBytes s)) (-1 - be_value s).

Section Typed.
Context {R : Type}.

(** The value [v] is the typed value [t] without its types. *)
Inductive Erases : typed_value R -> value -> Prop :=
| er_unit v ty : Erases (TLit (TUnit v ty)) v
| er_bool b ty : Erases (TLit (TBool b ty)) (VLit (LBool b))
| er_num q ty : Erases (TLit (TNum q ty)) (VLit (LNum q))
| er_bytes s ty : Erases (TLit (TBytes s ty)) (VLit (LBytes s))
| er_text s ty : Erases (TLit (TText s ty)) (VLit (LText s))
| er_id s ty : Erases (TLit (TId s ty)) (VLit (LText s))
| er_variant t ty i v : Erases t v -> Erases (TVariant t ty i) v
| er_map m ty m' : Forall2 (fun e e' => fst e = fst e' /\ Erases (snd e) (snd e')) m m' -> Erases (TMap m ty) (VMap m')
| er_list l ty l' : Forall2 Erases l l' -> Erases (TList l ty) (VList l')
| er_always v : Erases (TAlways v) v.

(** Invariant of the maps of a typed value. *)
Inductive typed_wf : typed_value R -> Prop :=
| tw_lit l : typed_wf (TLit l)
| tw_variant t ty i : typed_wf t -> typed_wf (TVariant t ty i)
| tw_map m ty : StronglySorted lt (map fst m) -> (forall k t, In (k, t) m -> typed_wf t) -> typed_wf (TMap m ty)
| tw_list l ty : (forall t, In t l -> typed_wf t) -> typed_wf (TList l ty)
| tw_always v : typed_wf (TAlways v).

(** The constants of the unit layouts met in the value are all the unit value. *)
Inductive UnitsAreUnit : typed_value R -> Prop :=
| uu_unit ty : UnitsAreUnit (TLit (TUnit (VLit LUnit) ty))
| uu_lit l : (forall v ty, l <> TUnit v ty) -> UnitsAreUnit (TLit l)
| uu_variant t ty i : UnitsAreUnit t -> UnitsAreUnit (TVariant t ty i)
| uu_map m ty : (forall k t, In (k, t) m -> UnitsAreUnit t) -> UnitsAreUnit (TMap m ty)
| uu_list l ty : (forall t, In t l -> UnitsAreUnit t) -> UnitsAreUnit (TList l ty)
| uu_always v : UnitsAreUnit (TAlways v).

(** The layouts used in a typed value (those of the values inside [Always] are unknown). *)
Inductive Uses : typed_value R -> R -> Prop :=
| us_type t ty : typed_value_type t = Some ty -> Uses t ty
| us_variant t ty' i ty : Uses t ty -> Uses (TVariant t ty' i) ty
| us_map m ty' k t ty : In (k, t) m -> Uses t ty -> Uses (TMap m ty') ty
| us_list l ty' t ty : In t l -> Uses t ty -> Uses (TList l ty') ty.

(** A tag put around an item. *)
Definition tagged_item (t : option N) (c : cbor) : cbor :=
  match t with Some t => CTag t c | None => c end.

Context {CC : Cmp cbor}.

(** [c] is the conversion of the typed value where the item made from a layout [ty] has the tag
    [tag ty], nothing else being changed. *)
Inductive Tagged (tag : R -> option N) : typed_value R -> cbor -> Prop :=
| tg_always v c : value_to_cbor v = Ok c -> Tagged tag (TAlways v) c
| tg_unit v ty : Tagged tag (TLit (TUnit v ty)) (tagged_item (tag ty) CNull)
| tg_bool b ty : Tagged tag (TLit (TBool b ty)) (tagged_item (tag ty) (CBool b))
| tg_num q ty c : number_to_cbor q = Ok c -> Tagged tag (TLit (TNum q ty)) (tagged_item (tag ty) c)
| tg_bytes s ty : Tagged tag (TLit (TBytes s ty)) (tagged_item (tag ty) (CBytes s))
| tg_text s ty : Tagged tag (TLit (TText s ty)) (tagged_item (tag ty) (CText s))
| tg_id s ty : Tagged tag (TLit (TId s ty)) (tagged_item (tag ty) (CText s))
| tg_variant t ty i c : Tagged tag t c -> Tagged tag (TVariant t ty i) (tagged_item (tag ty) c)
| tg_map m ty m' :
    Forall2 (fun e e' => value_to_cbor (fst e) = Ok (fst e') /\ Tagged tag (snd e) (snd e')) m m' ->
    Tagged tag (TMap m ty) (tagged_item (tag ty) (CMap (bt_collect m')))
| tg_list l ty l' : Forall2 (Tagged tag) l l' -> Tagged tag (TList l ty) (tagged_item (tag ty) (CArray l')).
End Typed.
