(** * Tree values ([layouts/src/value/mod.rs])

    The JSON, CBOR and number conversions of the same file are in [NumberModel.v],
    [JsonModel.v] and [CborModel.v].  [Display]: [DisplayModel.v].  [serde] glue: not modelled. *)

From Coq Require Import String List Bool Arith NArith QArith Qcanon.
Import ListNotations.
From Verif Require Import Base BaseProofs Orders.
Open Scope list_scope.

(** [Literal] — layouts/src/value/mod.rs 256-271.  [Number] (31, a [BigRational]) is [Qc];
    [Vec<u8>] and [String] are [string] (bytes). *)
Inductive literal : Type :=
| LUnit
| LBool (b : bool)
| LNum (n : Qc)
| LBytes (s : string)
| LText (s : string).

(** [Value] — layouts/src/value/mod.rs 303-307.  A [BTreeMap] is its sorted list of entries. *)
Inductive value : Type :=
| VLit (l : literal)
| VMap (m : list (value * value))
| VList (l : list value).

(** [Value::unit] — layouts/src/value/mod.rs 311-313. *)
Definition vunit : value := VLit LUnit.

(** Derived [Ord for Literal] — layouts/src/value/mod.rs 255 (variants in declaration order). *)
Definition literal_cmp (a b : literal) : comparison :=
  match a, b with
  | LUnit, LUnit => Eq
  | LUnit, _ => Lt
  | _, LUnit => Gt
  | LBool a, LBool b => cmp a b
  | LBool _, _ => Lt
  | _, LBool _ => Gt
  | LNum a, LNum b => cmp a b
  | LNum _, _ => Lt
  | _, LNum _ => Gt
  | LBytes a, LBytes b => cmp a b
  | LBytes _, _ => Lt
  | _, LBytes _ => Gt
  | LText a, LText b => cmp a b
  end.

Global Instance cmp_literal : Cmp literal := literal_cmp.

(** Derived [Ord for Value] — layouts/src/value/mod.rs 302. *)
Fixpoint value_cmp (a b : value) : comparison :=
  match a, b with
  | VLit a, VLit b => cmp a b
  | VLit _, _ => Lt
  | _, VLit _ => Gt
  | VMap a, VMap b => list_cmp (pair_cmp value_cmp value_cmp) a b
  | VMap _, _ => Lt
  | _, VMap _ => Gt
  | VList a, VList b => list_cmp value_cmp a b
  end.

Global Instance cmp_value : Cmp value := value_cmp.

Section Typed.
Context {R : Type}.

(** [TypedLiteral] — layouts/src/value/mod.rs 574-591.  [Ref<T, R>] is the resource [R]. *)
Inductive typed_literal : Type :=
| TUnit (v : value) (ty : R)
| TBool (b : bool) (ty : R)
| TNum (n : Qc) (ty : R)
| TBytes (s : string) (ty : R)
| TText (s : string) (ty : R)
| TId (s : string) (ty : R).

(** [TypedValue] — layouts/src/value/mod.rs 622-642. *)
Inductive typed_value : Type :=
| TLit (l : typed_literal)
| TVariant (v : typed_value) (ty : R) (index : nat)
| TMap (m : list (value * typed_value)) (ty : R)
| TList (l : list typed_value) (ty : R)
| TAlways (v : value).

(** [TypedLiteral::type_] — layouts/src/value/mod.rs 594-603. *)
Definition typed_literal_type (l : typed_literal) : R :=
  match l with
  | TUnit _ ty | TBool _ ty | TNum _ ty | TBytes _ ty | TText _ ty | TId _ ty => ty
  end.

(** [TypedLiteral::into_untyped] — layouts/src/value/mod.rs 605-614. *)
Definition literal_into_untyped (l : typed_literal) : value :=
  match l with
  | TUnit v _ => v
  | TBool b _ => VLit (LBool b)
  | TNum n _ => VLit (LNum n)
  | TBytes s _ => VLit (LBytes s)
  | TText s _ => VLit (LText s)
  | TId s _ => VLit (LText s)
  end.

(** [TypedValue::type_] — layouts/src/value/mod.rs 650-658. *)
Definition typed_value_type (v : typed_value) : option R :=
  match v with
  | TLit l => Some (typed_literal_type l)
  | TVariant _ ty _ | TMap _ ty | TList _ ty => Some ty
  | TAlways _ => None
  end.

(** [TypedValue::into_untyped] — layouts/src/value/mod.rs 661-675.  [collect] rebuilds a
    [BTreeMap] by insertions. *)
Fixpoint into_untyped (v : typed_value) : value :=
  match v with
  | TLit l => literal_into_untyped l
  | TVariant v _ _ => into_untyped v
  | TMap m _ => VMap (bt_collect (map (fun kv => (fst kv, into_untyped (snd kv))) m))
  | TList l _ => VList (map into_untyped l)
  | TAlways v => v
  end.

Context {CR : Cmp R}.

(** Derived [Ord for TypedLiteral] — layouts/src/value/mod.rs 573. *)
Definition typed_literal_cmp (a b : typed_literal) : comparison :=
  match a, b with
  | TUnit v t, TUnit v' t' => lex (cmp v v') (cmp t t')
  | TUnit _ _, _ => Lt
  | _, TUnit _ _ => Gt
  | TBool v t, TBool v' t' => lex (cmp v v') (cmp t t')
  | TBool _ _, _ => Lt
  | _, TBool _ _ => Gt
  | TNum v t, TNum v' t' => lex (cmp v v') (cmp t t')
  | TNum _ _, _ => Lt
  | _, TNum _ _ => Gt
  | TBytes v t, TBytes v' t' => lex (cmp v v') (cmp t t')
  | TBytes _ _, _ => Lt
  | _, TBytes _ _ => Gt
  | TText v t, TText v' t' => lex (cmp v v') (cmp t t')
  | TText _ _, _ => Lt
  | _, TText _ _ => Gt
  | TId v t, TId v' t' => lex (cmp v v') (cmp t t')
  end.

Global Instance cmp_typed_literal : Cmp typed_literal := typed_literal_cmp.

(** Derived [Ord for TypedValue] — layouts/src/value/mod.rs 621. *)
Fixpoint typed_value_cmp (a b : typed_value) : comparison :=
  match a, b with
  | TLit a, TLit b => cmp a b
  | TLit _, _ => Lt
  | _, TLit _ => Gt
  | TVariant a t i, TVariant b t' i' => lex (typed_value_cmp a b) (lex (cmp t t') (cmp i i'))
  | TVariant _ _ _, _ => Lt
  | _, TVariant _ _ _ => Gt
  | TMap a t, TMap b t' => lex (list_cmp (pair_cmp cmp typed_value_cmp) a b) (cmp t t')
  | TMap _ _, _ => Lt
  | _, TMap _ _ => Gt
  | TList a t, TList b t' => lex (list_cmp typed_value_cmp a b) (cmp t t')
  | TList _ _, _ => Lt
  | _, TList _ _ => Gt
  | TAlways a, TAlways b => cmp a b
  end.

Global Instance cmp_typed_value : Cmp typed_value := typed_value_cmp.

End Typed.
Arguments typed_literal R : clear implicits.
Arguments typed_value R : clear implicits.
