(** * Values and JSON ([layouts/src/value/mod.rs] 339-569), values and serde ([value/ser.rs], [value/de.rs]) *)

From Coq Require Import String List Bool Arith NArith ZArith QArith Qcanon.
Import ListNotations.
From Verif Require Import Base Orders ValueModel NumberModel.
Open Scope list_scope.

(** [json_syntax::Value] (external): numbers are their lexical form; an object is the list of its
    entries. *)
Inductive json : Type :=
| JNull
| JBool (b : bool)
| JNum (s : string)
| JStr (s : string)
| JArr (l : list json)
| JObj (l : list (string * json)).

(** [NonJsonValue] — layouts/src/value/mod.rs 450-462. *)
Inductive non_json : Type :=
| NonJsonNum (q : Qc)
| NonJsonBytes (s : string)
| NonStringKey (k : value).

(** A computation that does not fail used in one that may. *)
Definition no_error {E A} (m : outcome Empty_set A) : outcome E A :=
  match m with
  | Ok a => Ok a
  | Err e => match e with end
  | Panic p => Panic p
  | OutOfFuel => OutOfFuel
  end.

(** [Base.mapM] in a form that Coq accepts inside recursive definitions. *)
Section Traverse.
Context {E A B : Type} (f : A -> outcome E B).
Fixpoint traverse (l : list A) : outcome E (list B) :=
  match l with
  | [] => Ok []
  | a :: l' => let* b := f a in let* bs := traverse l' in Ok (b :: bs)
  end.
End Traverse.

(** [n.try_into()?] — layouts/src/value/mod.rs 477 with 464-468. *)
Definition num_to_json (q : Qc) : outcome non_json json :=
  let* o := no_error (number_to_json q) in
  match o with Some s => Ok (JNum s) | None => Err (NonJsonNum q) end.

(** [TryFrom<Literal> for json_syntax::Value] — layouts/src/value/mod.rs 470-482 ([serde_json]: 484-496). *)
Definition literal_to_json (l : literal) : outcome non_json json :=
  match l with
  | LUnit => Ok JNull
  | LBool b => Ok (JBool b)
  | LNum n => num_to_json n
  | LText s => Ok (JStr s)
  | LBytes s => Err (NonJsonBytes s)
  end.

(** [json_syntax::Object::insert] (external): the value of an existing key is replaced, a new entry goes
    last. *)
Fixpoint obj_insert (k : string) (j : json) (o : list (string * json)) : list (string * json) :=
  match o with
  | [] => [(k, j)]
  | (k', j') :: o' => if eqb k k' then (k', j) :: o' else (k', j') :: obj_insert k j o'
  end.

(** [TryFrom<Value> for json_syntax::Value] — layouts/src/value/mod.rs 513-540 ([serde_json]: 542-569). *)
Fixpoint value_to_json (v : value) : outcome non_json json :=
  match v with
  | VLit l => literal_to_json l
  | VMap m =>
      let* o :=
        (fix go (m : list (value * value)) (o : list (string * json)) : outcome non_json (list (string * json)) :=
           match m with
           | [] => Ok o
           | (k, v) :: m' =>
               match k with
               | VLit (LText s) => let* j := value_to_json v in go m' (obj_insert s j o)
               | k => Err (NonStringKey k)
               end
           end) m [] in
      Ok (JObj o)
  | VList l => let* l := traverse value_to_json l in Ok (JArr l)
  end.

(** [From<json_syntax::Value> for Value] — layouts/src/value/mod.rs 380-395 ([TryFromJson]: 339-378,
    [serde_json]: 397-417). *)
Fixpoint value_from_json (j : json) : outcome Empty_set value :=
  match j with
  | JNull => Ok (VLit LUnit)
  | JBool b => Ok (VLit (LBool b))
  | JNum s => let* q := number_from_json s in Ok (VLit (LNum q))
  | JStr s => Ok (VLit (LText s))
  | JArr l => let* l := traverse value_from_json l in Ok (VList l)
  | JObj o =>
      let* m := traverse (fun e => let* v := value_from_json (snd e) in Ok (VLit (LText (fst e)), v)) o in
      Ok (VMap (bt_collect m))
  end.

(** [TryFrom<TypedLiteral> for serde_json::Value] — layouts/src/value/mod.rs 498-511. *)
Definition typed_literal_to_json {R} (l : typed_literal R) : outcome non_json json :=
  match l with
  | TId s _ => Ok (JStr s)
  | TUnit v _ => value_to_json v
  | TBool b _ => Ok (JBool b)
  | TNum n _ => num_to_json n
  | TText s _ => Ok (JStr s)
  | TBytes s _ => Err (NonJsonBytes s)
  end.

(** ** serde *)

(** The calls made on a serializer, and what a self describing deserializer presents to a visitor
    (external: the data model of serde), for values.  [F] is the type of floats. *)
Inductive serde_value (F : Type) : Type :=
| SUnit
| SBool (b : bool)
| SU64 (n : Z)
| SI64 (n : Z)
| SF64 (f : F)
| SStr (s : string)
| SBytes (s : string)
| SSeq (l : list (serde_value F))
| SMap (l : list (serde_value F * serde_value F)).
Arguments SUnit {F}. Arguments SBool {F} b. Arguments SU64 {F} n. Arguments SI64 {F} n. Arguments SF64 {F} f.
Arguments SStr {F} s. Arguments SBytes {F} s. Arguments SSeq {F} l. Arguments SMap {F} l.

Section Serde.
Context {F : Type}.
(** [BigRational::to_f64] and [from_float] (external). *)
Variables (to_f64 : Qc -> F) (from_f64 : F -> option Qc).

(** [Serialize for Literal] — layouts/src/value/ser.rs 33-50. *)
Definition literal_serialize (l : literal) : outcome Empty_set (serde_value F) :=
  match l with
  | LUnit => Ok SUnit
  | LBool b => Ok (SBool b)
  | LNum q =>
      let* n := as_native q in
      match n with
      | NU64 n => Ok (SU64 n)
      | NI64 n => Ok (SI64 n)
      | NF64 q => Ok (SF64 (to_f64 q))
      end
  | LText s => Ok (SStr s)
  | LBytes s => Ok (SBytes s)
  end.

(** [Serialize for Value] — layouts/src/value/ser.rs 3-31. *)
Fixpoint value_serialize (v : value) : outcome Empty_set (serde_value F) :=
  match v with
  | VLit l => literal_serialize l
  | VMap m =>
      let* m := traverse (fun kv => let* k := value_serialize (fst kv) in
                                let* v := value_serialize (snd kv) in Ok (k, v)) m in
      Ok (SMap m)
  | VList l => let* l := traverse value_serialize l in Ok (SSeq l)
  end.

(** [Deserialize for Value] — layouts/src/value/de.rs 5-125.  [None] is the error of [visit_f64] (38-46). *)
Fixpoint value_deserialize (s : serde_value F) : outcome unit value :=
  match s with
  | SUnit => Ok (VLit LUnit)
  | SBool b => Ok (VLit (LBool b))
  | SU64 n => Ok (VLit (LNum (Q2Qc (inject_Z n))))
  | SI64 n => Ok (VLit (LNum (Q2Qc (inject_Z n))))
  | SF64 f => match from_f64 f with Some q => Ok (VLit (LNum q)) | None => Err tt end
  | SStr s => Ok (VLit (LText s))
  | SBytes s => Ok (VLit (LBytes s))
  | SSeq l => let* l := traverse value_deserialize l in Ok (VList l)
  | SMap m =>
      let* m := traverse (fun kv => let* k := value_deserialize (fst kv) in
                                let* v := value_deserialize (snd kv) in Ok (k, v)) m in
      Ok (VMap (bt_collect m))
  end.
End Serde.
