(** * Values and CBOR ([layouts/src/value/cbor/mod.rs], [value/cbor/serde_cbor.rs])

    [layouts/src/value/serde_cbor.rs] is not part of the crate (no [mod] declares it). *)

From Coq Require Import String Ascii List Bool Arith NArith ZArith QArith Qcanon.
Import ListNotations.
From Verif Require Import Base BaseProofs Orders ValueModel PatternModel HydrateModel NumberModel JsonModel.
Open Scope list_scope.

(** [serde_cbor::Value] (external).  A float is left as the rational given to [to_f64]. *)
Inductive cbor : Type :=
| CNull
| CBool (b : bool)
| CInt (z : Z)
| CFloat (q : Qc)
| CBytes (s : string)
| CText (s : string)
| CArray (l : list cbor)
| CMap (m : list (cbor * cbor))
| CTag (t : N) (c : cbor).

Section Number.
Local Open Scope Z_scope.

(** The [k] lowest bytes, most significant first. *)
Fixpoint bytes_be (k : nat) (z : Z) : string :=
  match k with
  | O => EmptyString
  | S k' => (bytes_be k' (z / 256) ++ String (ascii_of_N (Z.to_N (z mod 256))) EmptyString)%string
  end.

(** [ToBytes::to_be_bytes] of a [BigInt] (external: [to_signed_bytes_be], the shortest two's complement representation). *)
Definition signed_bytes_be (z : Z) : string :=
  let k := Z.to_nat (bits (if z <? 0 then - z - 1 else z) / 8 + 1) in
  bytes_be k (z mod 256 ^ Z.of_nat k).

(** [From<Number> for serde_cbor::Value] — layouts/src/value/cbor/serde_cbor.rs 139-158. *)
Definition number_to_cbor (q : Qc) : outcome Empty_set cbor :=
  match as_integer q with
  | Some i =>
      if bits i <=? 64 then
        match first_u64_digit i with
        | Some u => Ok (CInt (if 0 <? i then u else - u))
        | None => Panic "number to cbor: next().unwrap()"
        end
      else Ok (CTag (if 0 <? i then 2%N else 3%N) (CBytes (signed_bytes_be i)))
  | None => Ok (CFloat q)
  end.
End Number.

Section Cbor.
(** The order of [serde_cbor::Value] (external), used by its maps. *)
Context {CC : Cmp cbor}.

(** [From<Value> for serde_cbor::Value] — layouts/src/value/cbor/serde_cbor.rs 160-178. *)
Fixpoint value_to_cbor (v : value) : outcome Empty_set cbor :=
  match v with
  | VLit LUnit => Ok CNull
  | VLit (LBool b) => Ok (CBool b)
  | VLit (LNum n) => number_to_cbor n
  | VLit (LBytes s) => Ok (CBytes s)
  | VLit (LText s) => Ok (CText s)
  | VMap m =>
      let* m := traverse (fun kv => let* k := value_to_cbor (fst kv) in
                                    let* v := value_to_cbor (snd kv) in Ok (k, v)) m in
      Ok (CMap (bt_collect m))
  | VList l => let* l := traverse value_to_cbor l in Ok (CArray l)
  end.

(** [From<TypedValue<R>> for serde_cbor::Value] — layouts/src/value/cbor/serde_cbor.rs 118-137. *)
Fixpoint typed_to_cbor {R} (v : typed_value R) : outcome Empty_set cbor :=
  match v with
  | TAlways v => value_to_cbor v
  | TLit (TUnit _ _) => Ok CNull
  | TLit (TBool b _) => Ok (CBool b)
  | TLit (TNum n _) => number_to_cbor n
  | TLit (TBytes s _) => Ok (CBytes s)
  | TLit (TText s _) => Ok (CText s)
  | TLit (TId s _) => Ok (CText s)
  | TVariant v _ _ => typed_to_cbor v
  | TMap m _ =>
      let* m := traverse (fun kv => let* k := value_to_cbor (fst kv) in
                                    let* v := typed_to_cbor (snd kv) in Ok (k, v)) m in
      Ok (CMap (bt_collect m))
  | TList l _ => let* l := traverse typed_to_cbor l in Ok (CArray l)
  end.

(** [InvalidTag] — layouts/src/value/cbor/mod.rs 21-31. *)
Inductive invalid_tag : Type :=
| TagNonLiteral
| TagValue (s : string)
| TagType (iri : string).

Context {R : Type} {CR : Cmp R} {IR : Interp R}.
(** [interpretation.lexical_iri_interpretation(vocabulary, CBOR_TAG_IRI)] (external). *)
Variable tag_property : option R.
(** [layouts.get(ref)] then [extra_properties()] (a [BTreeMap]); [None] if the layout is not defined. *)
Variable extra_properties : R -> option (list (R * R)).
(** [UnsignedLongDatatype::from_iri(iri).is_some()] (external). *)
Variable is_unsigned_long : string -> bool.

(** [u64::from_str] (external): an optional [+], digits, no overflow. *)
Definition parse_u64 (s : string) : option N :=
  let digits s :=
    match span_digits s with
    | (d :: ds, EmptyString) =>
        let n := Z.to_N (number_of (d :: ds)) in
        if (n <? 2 ^ 64)%N then Some n else None
    | _ => None
    end in
  match s with
  | String "+"%char s' => digits s'
  | _ => digits s
  end.

(** The loop over the literals of the tag — layouts/src/value/cbor/mod.rs 49-64. *)
Fixpoint tag_of_literals (ls : list rdf_literal) : outcome invalid_tag (option N) :=
  match ls with
  | [] => Err TagNonLiteral
  | RdfLiteral v (TypeAny ty) :: _ =>
      if is_unsigned_long ty
      then match parse_u64 v with Some n => Ok (Some n) | None => Err (TagValue v) end
      else Err (TagType ty)
  | _ :: ls' => tag_of_literals ls'
  end.

(** [get_layout_tag] — layouts/src/value/cbor/mod.rs 33-71. *)
Definition get_layout_tag (ref : R) : outcome invalid_tag (option N) :=
  match extra_properties ref with
  | None => Panic "missing layout definition"
  | Some extra =>
      match tag_property with
      | Some prop =>
          match bt_get prop extra with
          | Some value => tag_of_literals (literals_of value)
          | None => Ok None
          end
      | None => Ok None
      end
  end.

(** The end of [try_into_tagged_serde_cbor_with_ref] — layouts/src/value/cbor/serde_cbor.rs 108-114. *)
Definition with_tag (c : cbor) (ty : option R) : outcome invalid_tag cbor :=
  match ty with
  | Some ty =>
      let* t := get_layout_tag ty in
      match t with
      | Some t => Ok (CTag t c)
      | None => Ok c
      end
  | None => Ok c
  end.

(** [try_into_tagged_serde_cbor_with_ref] — layouts/src/value/cbor/serde_cbor.rs 42-115. *)
Fixpoint tagged_cbor (v : typed_value R) : outcome invalid_tag cbor :=
  match v with
  | TAlways v => let* c := no_error (value_to_cbor v) in with_tag c None
  | TLit (TUnit _ ty) => with_tag CNull (Some ty)
  | TLit (TBool b ty) => with_tag (CBool b) (Some ty)
  | TLit (TNum n ty) => let* c := no_error (number_to_cbor n) in with_tag c (Some ty)
  | TLit (TBytes s ty) => with_tag (CBytes s) (Some ty)
  | TLit (TText s ty) => with_tag (CText s) (Some ty)
  | TLit (TId s ty) => with_tag (CText s) (Some ty)
  | TVariant v ty _ => let* c := tagged_cbor v in with_tag c (Some ty)
  | TMap m ty =>
      let* m := traverse (fun kv => let* k := no_error (value_to_cbor (fst kv)) in
                                    let* v := tagged_cbor (snd kv) in Ok (k, v)) m in
      with_tag (CMap (bt_collect m)) (Some ty)
  | TList l ty => let* l := traverse tagged_cbor l in with_tag (CArray l) (Some ty)
  end.
End Cbor.
