(** * Reading layout documents with their positions
      ([TryFromJson] in [layouts/src/abs/syntax/**], [Error::into_diagnostic] in [src/main.rs])

    The same readers as in [AbsJsonModel], with the code map and the positions ([offset]) that they
    carry along: each error says where it is.  The parts of [json_syntax] (external) that number the
    fragments of a document are modelled from its documentation: the fragments are numbered in the
    order of the text, a value before what it contains, and each entry of an object counts as three
    fragments, the entry, its key and its value; the code map gives for each fragment its volume, the
    number of fragments in it (and its place in the text, not modelled). *)

From Coq Require Import String Ascii List Bool Arith NArith ZArith QArith Qcanon.
Import ListNotations.
From Verif Require Import Base Orders PatternModel ValueModel LayoutModel NumberModel JsonModel
  RegexpModel AbsModel AbsJsonModel.
Open Scope list_scope.
Open Scope nat_scope.

(** ** Documents and their code map *)

(** [json_syntax::FragmentRef] (external): a value, an entry of an object, or a key. *)
Inductive fragment : Type :=
| FrValue (j : json)
| FrEntry (key : string) (j : json)
| FrKey (key : string).

(** [json_syntax::Value::traverse] (external): the fragments of a document in the order of their
    positions. *)
Fixpoint fragments (j : json) : list fragment :=
  FrValue j ::
  match j with
  | JArr l =>
      (fix go (l : list json) := match l with [] => [] | j :: l' => fragments j ++ go l' end) l
  | JObj o =>
      (fix go (o : object) :=
         match o with
         | [] => []
         | (k, j) :: o' => FrEntry k j :: FrKey k :: fragments j ++ go o'
         end) o
  | _ => []
  end.

(** [json_syntax::code_map::Entry::volume] (external). *)
Definition volume (f : fragment) : nat :=
  match f with
  | FrValue j => length (fragments j)
  | FrEntry _ j => S (S (length (fragments j)))
  | FrKey _ => 1
  end.

(** [json_syntax::CodeMap] (external): the volume of each fragment. *)
Definition code_map : Type := list nat.

(** The code map that comes with a document ([json_syntax::Parse::parse_str], external). *)
Definition code_map_of (j : json) : code_map := map volume (fragments j).

(** ** Errors *)

(** [Error] — layouts/src/abs/syntax/mod.rs 21-73: with the position ([offset]) and, for a duplicate
    entry, the other one ([other_offset]). *)
Record pos_error : Type := PosError {
  pe_error : abs_error;
  pe_position : nat;
  pe_other : option nat
}.

(** An error with a single position. *)
Definition at_pos (off : nat) (e : abs_error) : pos_error := PosError e off None.

(** [ErrorHint] — layouts/src/abs/syntax/mod.rs 155-159. *)
Inductive error_hint : Type :=
| HintExpectedType (expected : list string)
| HintFoundType (found : string)
| HintDuplicateEntry (other : nat).

(** [Error::position] — layouts/src/abs/syntax/mod.rs 92-109. *)
Definition position (e : pos_error) : nat := pe_position e.

(** [Error::hints] — layouts/src/abs/syntax/mod.rs 111-126. *)
Definition hints (e : pos_error) : list error_hint :=
  match pe_error e, pe_other e with
  | DuplicateEntry _, Some other => [HintDuplicateEntry other]
  | InvalidType expected found, _ => [HintExpectedType expected; HintFoundType found]
  | _, _ => []
  end.

(** [ErrorHint::position] — layouts/src/abs/syntax/mod.rs 161-168. *)
Definition hint_position (h : error_hint) : option nat :=
  match h with HintDuplicateEntry other => Some other | _ => None end.

Section Read.
Context {TS : TextSyntax} (cm : code_map).

(** [code_map.get(offset).unwrap().volume]. *)
Definition volume_at (off : nat) : outcome pos_error nat :=
  unwrap "code_map.get" (nth_error cm off).

(** ** Entries of an object *)

(** [json_syntax::Object::iter_mapped] (external): each entry with the position of its key and of its
    value; [off]: the position of the first entry.  The iterator of the code is lazy; here all the
    positions are computed first. *)
Fixpoint map_entries (o : object) (off : nat) : outcome pos_error (list (nat * nat * (string * json))) :=
  match o with
  | [] => Ok []
  | e :: o' =>
      let* v := volume_at (S (S off)) in
      let* r := map_entries o' (S (S off) + v) in
      Ok ((S off, S (S off), e) :: r)
  end.

(** The entries with a given key: their index, the position of their key, of their value, and their
    value. *)
Fixpoint mapped_entries_of (key : string) (l : list (nat * nat * (string * json))) (i : nat)
  : list (nat * nat * nat * json) :=
  match l with
  | [] => []
  | (ko, vo, (k, j)) :: l' =>
      if String.eqb k key then (i, ko, vo, j) :: mapped_entries_of key l' (S i)
      else mapped_entries_of key l' (S i)
  end.

(** [json_syntax::Object::get_unique_mapped_entry_with_index] (external) with [Error::duplicate] —
    layouts/src/abs/syntax/mod.rs 78-90: the index of the entry, the position of its value and its
    value. *)
Definition get_unique_at (o : object) (off : nat) (key : string)
  : outcome pos_error (option (nat * nat * json)) :=
  let* l := map_entries o (S off) in
  match mapped_entries_of key l 0 with
  | [] => Ok None
  | [(i, _, vo, j)] => Ok (Some (i, vo, j))
  | (_, ko, _, _) :: (_, ko', _, _) :: _ => Err (PosError (DuplicateEntry key) ko (Some ko'))
  end.

(** [ObjectUnusedEntries] — layouts/src/abs/syntax/mod.rs 244-247: the position of the key of each
    entry, with a flag. *)
Definition unused_at : Type := list (nat * bool).

(** [ObjectUnusedEntries::new] — layouts/src/abs/syntax/mod.rs 250-260. *)
Definition unused_new_at (o : object) (off : nat) : outcome pos_error unused_at :=
  let* l := map_entries o (S off) in
  Ok (map (fun e : nat * nat * (string * json) => (fst (fst e), true)) l).

(** [ObjectUnusedEntries::remove] — layouts/src/abs/syntax/mod.rs 262-264: an index that is not in
    the list is a panic. *)
Fixpoint unused_remove_at (i : nat) (u : unused_at) : outcome pos_error unused_at :=
  match u, i with
  | [], _ => Panic "index out of bounds"
  | (off, _) :: u', 0 => Ok ((off, false) :: u')
  | b :: u', S i' => let* u' := unused_remove_at i' u' in Ok (b :: u')
  end.

(** [ObjectUnusedEntries::check] — layouts/src/abs/syntax/mod.rs 266-277. *)
Fixpoint unused_check_at (o : object) (u : unused_at) : outcome pos_error unit :=
  match u with
  | [] => Ok tt
  | (off, b) :: u' =>
      if b then
        let* e := unwrap "index out of bounds" (hd_error o) in
        Err (at_pos off (UnexpectedEntry (fst e)))
      else unused_check_at (tl o) u'
  end.

(** Computations that use the entries of an object. *)
Definition entries_at (A : Type) : Type := unused_at -> outcome pos_error (A * unused_at).
Definition p_ret {A} (a : A) : entries_at A := fun u => Ok (a, u).
Definition p_bind {A B} (m : entries_at A) (k : A -> entries_at B) : entries_at B := fun u =>
  let* r := m u in k (fst r) (snd r).

(** [new], the reading of the entries, then [check]. *)
Definition with_entries_at {A} (o : object) (off : nat) (m : entries_at A) : outcome pos_error A :=
  let* u := unused_new_at o off in
  let* r := m u in
  let* _ := unused_check_at o (snd r) in
  Ok (fst r).

(** [get_entry] — layouts/src/abs/syntax/mod.rs 280-304; [parse] is [T::try_from_json_at]. *)
Definition get_entry_at {T} (o : object) (off : nat) (key : string)
    (parse : json -> nat -> outcome pos_error T) : entries_at (option T) := fun u =>
  let* e := get_unique_at o off key in
  match e with
  | Some (i, vo, j) =>
      let* u := unused_remove_at i u in
      let* t := parse j vo in
      Ok (Some t, u)
  | None => Ok (None, u)
  end.

(** [get_entry(..)?.unwrap_or_default()] and [.unwrap_or_else(..)]. *)
Definition get_entry_or_at {T} (o : object) (off : nat) (key : string)
    (parse : json -> nat -> outcome pos_error T) (default : T) : entries_at T :=
  p_bind (get_entry_at o off key parse)
    (fun t => p_ret (match t with Some t => t | None => default end)).

(** [require_entry] — layouts/src/abs/syntax/mod.rs 306-331. *)
Definition require_entry_at {T} (o : object) (off : nat) (key : string)
    (parse : json -> nat -> outcome pos_error T) : entries_at T := fun u =>
  let* e := get_unique_at o off key in
  match e with
  | Some (i, vo, j) =>
      let* u := unused_remove_at i u in
      let* t := parse j vo in
      Ok (t, u)
  | None => Err (at_pos off (MissingRequiredEntry key))
  end.

(** [expect_string] — layouts/src/abs/syntax/mod.rs 233-242; [String::try_from_json_at]
    (external). *)
Definition from_string_at (j : json) (off : nat) : outcome pos_error string :=
  match j with JStr s => Ok s | j => Err (at_pos off (Unexpected [KdString] (kind_of j))) end.

(** [bool::try_from_json_at] (external). *)
Definition from_bool_at (j : json) (off : nat) : outcome pos_error bool :=
  match j with JBool b => Ok b | j => Err (at_pos off (Unexpected [KdBoolean] (kind_of j))) end.

(** The items of an array read one after the other; [off]: the position of the first one
    ([json_syntax::array::JsonArray::iter_mapped], external). *)
Fixpoint traverse_at {T} (parse : json -> nat -> outcome pos_error T) (l : list json) (off : nat)
  : outcome pos_error (list T) :=
  match l with
  | [] => Ok []
  | j :: l' =>
      let* v := volume_at off in
      let* t := parse j off in
      let* r := traverse_at parse l' (off + v) in
      Ok (t :: r)
  end.

(** [Vec::try_from_json_at] (external). *)
Definition from_vec_at {T} (parse : json -> nat -> outcome pos_error T) (j : json) (off : nat)
  : outcome pos_error (list T) :=
  match j with
  | JArr l => traverse_at parse l (S off)
  | j => Err (at_pos off (Unexpected [KdArray] (kind_of j)))
  end.

(** [BTreeMap::try_from_json_at] (external): a key is read at its own position. *)
Definition from_btreemap_at {K V} {CK : Cmp K} (from_str : string -> nat -> outcome pos_error K)
    (parse : json -> nat -> outcome pos_error V) (j : json) (off : nat)
  : outcome pos_error (list (K * V)) :=
  match j with
  | JObj o =>
      let* l := map_entries o (S off) in
      let* l := traverse (fun e : nat * nat * (string * json) =>
                  let* k := from_str (fst (snd e)) (fst (fst e)) in
                  let* v := parse (snd (snd e)) (snd (fst e)) in
                  Ok (k, v)) l in
      Ok (bt_collect l)
  | j => Err (at_pos off (Unexpected [KdObject] (kind_of j)))
  end.

(** [Option::try_from_json_at] (external). *)
Definition from_option_at {T} (parse : json -> nat -> outcome pos_error T) (j : json) (off : nat)
  : outcome pos_error (option T) :=
  match j with JNull => Ok None | j => let* t := parse j off in Ok (Some t) end.

(** [expect_object] — layouts/src/abs/syntax/mod.rs 205-217. *)
Definition expect_object_at (j : json) (off : nat) : outcome pos_error object :=
  match j with JObj o => Ok o | j => Err (at_pos off (Unexpected [KdObject] (kind_of j))) end.

(** [require_type] — layouts/src/abs/syntax/mod.rs 333-358: the index of the entry, the position of
    its value, and its value. *)
Definition require_type_at (o : object) (off : nat) : outcome pos_error (nat * (nat * string)) :=
  let* e := get_unique_at o off "type" in
  match e with
  | None => Err (at_pos off MissingType)
  | Some (i, vo, JStr s) => Ok (i, (vo, s))
  | Some (_, vo, j) => Err (at_pos vo (Unexpected [KdString] (kind_of j)))
  end.

(** [check_type] — layouts/src/abs/syntax/mod.rs 360-378. *)
Definition check_type_at (o : object) (off : nat) (expected : string) : entries_at unit := fun u =>
  let* r := require_type_at o off in
  let* u := unused_remove_at (fst r) u in
  if String.eqb (snd (snd r)) expected then Ok (tt, u)
  else Err (at_pos (fst (snd r)) (InvalidType [expected] (snd (snd r)))).

(** [OneOrMany::try_from_json_at] — layouts/src/abs/syntax/mod.rs 425-443. *)
Definition one_or_many_at {T} (parse : json -> nat -> outcome pos_error T) (j : json) (off : nat)
  : outcome pos_error (list T) :=
  match j with
  | JArr l => traverse_at parse l (S off)
  | j => let* t := parse j off in Ok [t]
  end.

(** [CompactIri::try_from_json_at] — layouts/src/abs/syntax/pattern/compact_iri.rs 62-75, and
    [CompactIri::from_str], 45-54. *)
Definition iri_from_str_at (s : string) (off : nat) : outcome pos_error compact_iri :=
  if is_iri_ref s then Ok s else Err (at_pos off (InvalidCompactIri s)).
Definition iri_from_json_at (j : json) (off : nat) : outcome pos_error compact_iri :=
  let* s := from_string_at j off in iri_from_str_at s off.

(** [LiteralValue::try_from_json_object_at] — layouts/src/abs/syntax/pattern/literal.rs 20-45. *)
Definition literal_value_from_at (o : object) (off : nat) : outcome pos_error apattern :=
  with_entries_at o off
    (p_bind (get_entry_at o off "type" iri_from_json_at) (fun ty =>
     p_bind (match ty with
             | Some ty => p_ret (ATypeIri ty)
             | None =>
                 p_bind (require_entry_at o off "language" from_string_at) (fun tag => fun u =>
                   if is_lang_tag tag then Ok (ATypeLang tag, u) else Err (at_pos off (InvalidLangTag tag)))
             end) (fun ty =>
     p_bind (require_entry_at o off "value" from_string_at) (fun v =>
     p_ret (ALiteral v ty))))).

(** [Pattern::try_from_json_at] — layouts/src/abs/syntax/pattern/mod.rs 74-98. *)
Definition pattern_from_json_at (j : json) (off : nat) : outcome pos_error apattern :=
  match j with
  | JStr s =>
      match blank_suffix s with
      | Some name => Ok (AVar name)
      | None => if is_iri_ref s then Ok (AIri s) else Err (at_pos off (InvalidPattern s))
      end
  | JObj o => literal_value_from_at o off
  | j => Err (at_pos off (Unexpected [KdString; KdObject] (kind_of j)))
  end.

(** [Quad::try_from_json_at] — layouts/src/abs/syntax/dataset.rs 58-90. *)
Definition quad_from_json_at (j : json) (off : nat) : outcome pos_error (quad apattern) :=
  match j with
  | JArr (s :: p :: o :: g) =>
      match g with
      | _ :: _ :: _ => Err (at_pos off TooManyQuadPatterns)
      | _ =>
          let off := S off in
          let* s' := pattern_from_json_at s off in
          let* v := volume_at off in
          let off := off + v in
          let* p' := pattern_from_json_at p off in
          let* v := volume_at off in
          let off := off + v in
          let* o' := pattern_from_json_at o off in
          let* v := volume_at off in
          let off := off + v in
          match g with
          | g :: _ => let* g' := pattern_from_json_at g off in Ok (Quad s' p' o' (Some g'))
          | [] => Ok (Quad s' p' o' None)
          end
      end
  | JArr _ => Err (at_pos off MissingQuadPattern)
  | j => Err (at_pos off (Unexpected [KdArray] (kind_of j)))
  end.

(** [Dataset::try_from_json_at] — layouts/src/abs/syntax/dataset.rs 22-32. *)
Definition dataset_from_json_at (j : json) (off : nat) : outcome pos_error (list (quad apattern)) :=
  from_vec_at quad_from_json_at j off.

(** [TypedString::try_from_json_object_at] — layouts/src/abs/syntax/resource.rs 102-116. *)
Definition typed_string_from_at (o : object) (off : nat) : outcome pos_error aresource :=
  with_entries_at o off
    (p_bind (require_entry_at o off "value" from_string_at) (fun v =>
     p_bind (require_entry_at o off "type" iri_from_json_at) (fun ty =>
     p_ret (ATypedString v ty)))).

(** [Resource::try_from_json_at] — layouts/src/abs/syntax/resource.rs 27-60. *)
Definition resource_from_json_at (j : json) (off : nat) : outcome pos_error aresource :=
  match j with
  | JBool b => Ok (ABoolean b)
  | JNum n =>
      if has_dot n then Err (at_pos off (ExpectedInteger n))
      else match parse_i64 n with
           | Some z => Ok (ANumber z)
           | None => Err (at_pos off (IntegerOverflow n))
           end
  | JStr s => Ok (AString s)
  | JObj o => typed_string_from_at o off
  | j => Err (at_pos off (Unexpected [KdBoolean; KdNumber; KdString; KdObject] (kind_of j)))
  end.

(** [RegExp::try_from_json_at] — layouts/src/abs/regexp.rs 9-20. *)
Definition regexp_from_json_at (j : json) (off : nat) : outcome pos_error regexp :=
  let* s := from_string_at j off in
  match re_parse (chars s) with
  | Ok e => Ok e
  | Err e => Err (at_pos off (InvalidRegex e))
  | Panic w => Panic w
  | OutOfFuel => OutOfFuel
  end.

(** [Value::try_from_json_at] — layouts/src/value/mod.rs 339-378 (its error type is empty). *)
Fixpoint const_from_json_at (j : json) (off : nat) : outcome pos_error value :=
  match j with
  | JNull => Ok (VLit LUnit)
  | JBool b => Ok (VLit (LBool b))
  | JNum s => let* q := no_error (number_from_json s) in Ok (VLit (LNum q))
  | JStr s => Ok (VLit (LText s))
  | JArr l =>
      let* l := (fix go (l : list json) (off : nat) :=
        match l with
        | [] => Ok []
        | j :: l' =>
            let* v := volume_at off in
            let* t := const_from_json_at j off in
            let* r := go l' (off + v) in
            Ok (t :: r)
        end) l (S off) in
      Ok (VList l)
  | JObj o =>
      let* m := (fix go (o : object) (off : nat) :=
        match o with
        | [] => Ok []
        | (k, j) :: o' =>
            let* v := volume_at (S (S off)) in
            let* t := const_from_json_at j (S (S off)) in
            let* r := go o' (S (S off) + v) in
            Ok ((VLit (LText k), t) :: r)
        end) o (S off) in
      Ok (VMap (bt_collect m))
  end.

(** [LayoutHeader::try_from_json_object_at] — layouts/src/abs/syntax/layout/mod.rs 415-437, with the
    defaults of [LayoutInput] (365-369).  The map [extra] (468-489) is ordered here by the text of
    its keys. *)
Definition header_from_at (o : object) (off : nat) : entries_at aheader :=
  p_bind (get_entry_at o off "base" iri_from_json_at) (fun base =>
  p_bind (get_entry_or_at o off "prefixes" (from_btreemap_at (fun s _ => Ok s) iri_from_json_at) []) (fun prefixes =>
  p_bind (get_entry_at o off "id" iri_from_json_at) (fun id =>
  p_bind (get_entry_or_at o off "input" (one_or_many_at from_string_at) ["self"%string]) (fun input =>
  p_bind (get_entry_or_at o off "intro" (one_or_many_at from_string_at) []) (fun intro =>
  p_bind (get_entry_or_at o off "dataset" dataset_from_json_at []) (fun dataset =>
  p_bind (get_entry_or_at o off "extra" (from_btreemap_at iri_from_str_at resource_from_json_at) []) (fun extra =>
  p_ret (AHeader base prefixes id input intro dataset extra)))))))).

(** ** Layouts

    [nested] reads a layout object. *)
Section Nested.
Context {L : Type} (nested : object -> nat -> outcome pos_error L).

(** [LayoutRef::try_from_json_at] — layouts/src/abs/syntax/layout/mod.rs 273-319. *)
Definition ref_from_json_at (j : json) (off : nat) : outcome pos_error (alayout_ref L) :=
  match j with
  | JStr s => let* i := iri_from_str_at s off in Ok (RefIri i)
  | JObj o => let* l := nested o off in Ok (RefLayout l)
  | j => Err (at_pos off (Unexpected [KdString; KdObject] (kind_of j)))
  end.

(** [ValueFormat::try_from_json_object_at] — layouts/src/abs/syntax/mod.rs 510-531, and
    [VariantFormat::try_from_json_object_at] — syntax/layout/sum.rs 229-249; [default] is the
    variable of the default input (syntax/layout/mod.rs 534-538, syntax/layout/sum.rs 297-301).  The reader of
    [graph] is [Option<Option<Pattern>>::try_from_json_at]. *)
Definition format_from_at (default : string) (o : object) (off : nat) : outcome pos_error (aformat L) :=
  with_entries_at o off
    (p_bind (require_entry_at o off "layout" ref_from_json_at) (fun layout =>
     p_bind (get_entry_or_at o off "input" (one_or_many_at pattern_from_json_at) [AVar default]) (fun input =>
     p_bind (get_entry_or_at o off "graph" (from_option_at (from_option_at pattern_from_json_at)) None) (fun graph =>
     p_ret (AFormat layout input graph))))).

(** [ValueFormatOrLayout::try_from_json_at] — layouts/src/abs/syntax/mod.rs 452-478, and
    [VariantFormatOrLayout::try_from_json_at] — syntax/layout/sum.rs 158-184. *)
Definition format_from_json_at (default : string) (j : json) (off : nat) : outcome pos_error (aformat L) :=
  match j with
  | JStr s => let* i := iri_from_str_at s off in Ok (AFormatLayout (RefIri i))
  | JObj o =>
      if contains_key o "type" then let* l := nested o off in Ok (AFormatLayout (RefLayout l))
      else format_from_at default o off
  | j => Err (at_pos off (Unexpected [KdString; KdObject] (kind_of j)))
  end.

(** [ListItem::try_from_json_at] — layouts/src/abs/syntax/layout/list.rs 420-454; default of
    [ValueIntro]: syntax/mod.rs 555-559. *)
Definition item_from_json_at (j : json) (off : nat) : outcome pos_error (aitem L) :=
  let* o := expect_object_at j off in
  with_entries_at o off
    (p_bind (get_entry_or_at o off "intro" (one_or_many_at from_string_at) ["value"%string]) (fun intro =>
     p_bind (require_entry_at o off "value" (format_from_json_at "value")) (fun v =>
     p_bind (get_entry_or_at o off "dataset" dataset_from_json_at []) (fun ds =>
     p_bind (get_entry_at o off "property" pattern_from_json_at) (fun property =>
     p_ret (AItem intro v ds property)))))).

(** [Field::try_from_json_at] — layouts/src/abs/syntax/layout/product.rs 153-188. *)
Definition field_from_json_at (j : json) (off : nat) : outcome pos_error (afield L) :=
  let* o := expect_object_at j off in
  with_entries_at o off
    (p_bind (get_entry_or_at o off "intro" (one_or_many_at from_string_at) ["value"%string]) (fun intro =>
     p_bind (require_entry_at o off "value" (format_from_json_at "value")) (fun v =>
     p_bind (get_entry_or_at o off "dataset" dataset_from_json_at []) (fun ds =>
     p_bind (get_entry_at o off "property" pattern_from_json_at) (fun property =>
     p_bind (get_entry_or_at o off "required" from_bool_at false) (fun required =>
     p_ret (AField (AItem intro v ds property) required))))))).

(** [Variant::try_from_json_at] — layouts/src/abs/syntax/layout/sum.rs 86-119. *)
Definition variant_from_json_at (j : json) (off : nat) : outcome pos_error (avariant L) :=
  let* o := expect_object_at j off in
  with_entries_at o off
    (p_bind (get_entry_or_at o off "intro" (one_or_many_at from_string_at) []) (fun intro =>
     p_bind (require_entry_at o off "value" (format_from_json_at "self")) (fun v =>
     p_bind (get_entry_or_at o off "dataset" dataset_from_json_at []) (fun ds =>
     p_ret (AVariant intro v ds))))).

(** [ListNode::try_from_json_object_at] — layouts/src/abs/syntax/layout/list.rs 280-303, 263-273. *)
Definition node_from_at (o : object) (off : nat) : outcome pos_error (anode L) :=
  with_entries_at o off
    (p_bind (get_entry_or_at o off "head" from_string_at "head"%string) (fun head =>
     p_bind (get_entry_or_at o off "rest" from_string_at "rest"%string) (fun rest =>
     p_bind (get_entry_or_at o off "intro" (one_or_many_at from_string_at) ["value"%string]) (fun intro =>
     p_bind (require_entry_at o off "value" (format_from_json_at "value")) (fun v =>
     p_bind (get_entry_at o off "dataset" dataset_from_json_at) (fun ds =>
     p_ret (ANode head rest intro v ds))))))).

(** [ListNodeOrLayout::try_from_json_at] — layouts/src/abs/syntax/layout/list.rs 155-183. *)
Definition node_from_json_at (j : json) (off : nat) : outcome pos_error (anode L) :=
  match j with
  | JStr s => let* i := iri_from_str_at s off in Ok (ANodeLayout (RefIri i))
  | JObj o =>
      if contains_key o "type" then let* l := nested o off in Ok (ANodeLayout (RefLayout l))
      else node_from_at o off
  | j => Err (at_pos off (Unexpected [KdString; KdObject] (kind_of j)))
  end.
End Nested.

(** The objects of the literal layouts — layouts/src/abs/syntax/layout/literal.rs 200-228
    ([UnitLayout]), 310-339 ([BooleanLayout]), 379-408 ([NumberLayout]), 448-477
    ([ByteStringLayout]), 496-527 ([TextStringLayout]), 574-603 ([IdLayout]). *)
Definition unit_from_at (o : object) (off : nat) : outcome pos_error alayout :=
  with_entries_at o off
    (p_bind (check_type_at o off "unit") (fun _ =>
     p_bind (header_from_at o off) (fun h =>
     p_bind (get_entry_or_at o off "const" const_from_json_at (VLit LUnit)) (fun c =>
     p_ret (AUnit h c))))).

Definition boolean_from_at (o : object) (off : nat) : outcome pos_error alayout :=
  with_entries_at o off
    (p_bind (check_type_at o off "boolean") (fun _ =>
     p_bind (header_from_at o off) (fun h =>
     p_bind (get_entry_at o off "resource" pattern_from_json_at) (fun res =>
     p_bind (get_entry_at o off "datatype" iri_from_json_at) (fun dt =>
     p_ret (ALiteralL (AKBoolean dt) h res)))))).

Definition number_from_at (o : object) (off : nat) : outcome pos_error alayout :=
  with_entries_at o off
    (p_bind (check_type_at o off "number") (fun _ =>
     p_bind (header_from_at o off) (fun h =>
     p_bind (get_entry_at o off "resource" pattern_from_json_at) (fun res =>
     p_bind (require_entry_at o off "datatype" iri_from_json_at) (fun dt =>
     p_ret (ALiteralL (AKNumber dt) h res)))))).

Definition bytes_from_at (o : object) (off : nat) : outcome pos_error alayout :=
  with_entries_at o off
    (p_bind (check_type_at o off "bytes") (fun _ =>
     p_bind (header_from_at o off) (fun h =>
     p_bind (get_entry_at o off "resource" pattern_from_json_at) (fun res =>
     p_bind (require_entry_at o off "datatype" iri_from_json_at) (fun dt =>
     p_ret (ALiteralL (AKByteString dt) h res)))))).

Definition text_from_at (o : object) (off : nat) : outcome pos_error alayout :=
  with_entries_at o off
    (p_bind (check_type_at o off "string") (fun _ =>
     p_bind (header_from_at o off) (fun h =>
     p_bind (get_entry_at o off "pattern" regexp_from_json_at) (fun pat =>
     p_bind (get_entry_at o off "resource" pattern_from_json_at) (fun res =>
     p_bind (get_entry_at o off "datatype" iri_from_json_at) (fun dt =>
     p_ret (ALiteralL (AKTextString pat dt) h res))))))).

Definition id_from_at (o : object) (off : nat) : outcome pos_error alayout :=
  with_entries_at o off
    (p_bind (check_type_at o off "id") (fun _ =>
     p_bind (header_from_at o off) (fun h =>
     p_bind (get_entry_at o off "pattern" regexp_from_json_at) (fun pat =>
     p_bind (get_entry_at o off "resource" pattern_from_json_at) (fun res =>
     p_ret (ALiteralL (AKId pat) h res)))))).

(** The objects of the other layouts; [nested] reads the nested layouts. *)
Section Compound.
Context (nested : object -> nat -> outcome pos_error alayout).

(** [ProductLayout::try_from_json_object_at] — layouts/src/abs/syntax/layout/product.rs 45-77: the
    entry [fields] is read first. *)
Definition product_from_at (o : object) (off : nat) : outcome pos_error alayout :=
  with_entries_at o off
    (p_bind (check_type_at o off "record") (fun _ =>
     p_bind (get_entry_or_at o off "fields" (from_btreemap_at (fun s _ => Ok s) (field_from_json_at nested)) [])
       (fun fields =>
     p_bind (header_from_at o off) (fun h =>
     p_ret (AProduct h
       (bt_collect (map (fun f : string * afield alayout => (VLit (LText (fst f)), snd f)) fields))))))).

(** [SumLayout::try_from_json_object_at] — layouts/src/abs/syntax/layout/sum.rs 42-71. *)
Definition sum_from_at (o : object) (off : nat) : outcome pos_error alayout :=
  with_entries_at o off
    (p_bind (check_type_at o off "sum") (fun _ =>
     p_bind (header_from_at o off) (fun h =>
     p_bind (get_entry_or_at o off "variants" (from_btreemap_at (fun s _ => Ok s) (variant_from_json_at nested)) [])
       (fun variants =>
     p_ret (ASum h variants))))).

(** [OrderedListLayout::try_from_json_object_at] — layouts/src/abs/syntax/layout/list.rs 113-145, with
    [Pattern::default_head] and [Pattern::default_tail] (syntax/pattern/mod.rs 32-45). *)
Definition ordered_from_at (o : object) (off : nat) : outcome pos_error alayout :=
  with_entries_at o off
    (p_bind (check_type_at o off "list") (fun _ =>
     p_bind (header_from_at o off) (fun h =>
     p_bind (require_entry_at o off "node" (node_from_json_at nested)) (fun node =>
     p_bind (get_entry_or_at o off "head" pattern_from_json_at (AVar "self")) (fun head =>
     p_bind (get_entry_or_at o off "tail" pattern_from_json_at (AIri (rdf "nil"))) (fun tail =>
     p_ret (AOrdered h node head tail))))))).

(** [UnorderedListLayout::try_from_json_object_at] — layouts/src/abs/syntax/layout/list.rs 374-402. *)
Definition unordered_from_at (o : object) (off : nat) : outcome pos_error alayout :=
  with_entries_at o off
    (p_bind (check_type_at o off "set") (fun _ =>
     p_bind (header_from_at o off) (fun h =>
     p_bind (require_entry_at o off "item" (item_from_json_at nested)) (fun item =>
     p_ret (AUnordered h item))))).

(** [SizedListLayout::try_from_json_object_at] — layouts/src/abs/syntax/layout/list.rs 538-567. *)
Definition sized_from_at (o : object) (off : nat) : outcome pos_error alayout :=
  with_entries_at o off
    (p_bind (check_type_at o off "tuple") (fun _ =>
     p_bind (header_from_at o off) (fun h =>
     p_bind (get_entry_or_at o off "items" (from_vec_at (item_from_json_at nested)) []) (fun items =>
     p_ret (ASized h items))))).

(** [UnionLayout::try_from_json_object_at] — layouts/src/abs/syntax/layout/union.rs 22-49, and
    [IntersectionLayout::try_from_json_object_at] — syntax/layout/intersection.rs 22-49. *)
Definition union_from_at (o : object) (off : nat) : outcome pos_error alayout :=
  with_entries_at o off
    (p_bind (check_type_at o off "union") (fun _ =>
     p_bind (header_from_at o off) (fun h => p_ret (AUnion h)))).
Definition intersection_from_at (o : object) (off : nat) : outcome pos_error alayout :=
  with_entries_at o off
    (p_bind (check_type_at o off "intersection") (fun _ =>
     p_bind (header_from_at o off) (fun h => p_ret (AIntersection h)))).

(** [Layout::try_from_json_object_at] — layouts/src/abs/syntax/layout/mod.rs 171-228, with
    [LiteralLayout], [DataLayout] and [ListLayout] (syntax/layout/literal.rs 37-70, 122-160, syntax/layout/list.rs 36-68), which
    read the type again. *)
Definition object_body_at (o : object) (off : nat) : outcome pos_error alayout :=
  let* r := require_type_at o off in
  let ty := snd (snd r) in
  if String.eqb ty "id" then id_from_at o off
  else if String.eqb ty "unit" then unit_from_at o off
  else if String.eqb ty "boolean" then boolean_from_at o off
  else if String.eqb ty "number" then number_from_at o off
  else if String.eqb ty "bytes" then bytes_from_at o off
  else if String.eqb ty "string" then text_from_at o off
  else if String.eqb ty "record" then product_from_at o off
  else if String.eqb ty "sum" then sum_from_at o off
  else if String.eqb ty "list" then ordered_from_at o off
  else if String.eqb ty "set" then unordered_from_at o off
  else if String.eqb ty "tuple" then sized_from_at o off
  else if String.eqb ty "union" then union_from_at o off
  else if String.eqb ty "intersection" then intersection_from_at o off
  else Err (at_pos (fst (snd r)) (InvalidType layout_types ty)).
End Compound.

(** [Layout::try_from_json_object_at]: the recursion follows the nesting of the document, bounded by
    [fuel]. *)
Fixpoint object_from_at (fuel : nat) (o : object) (off : nat) : outcome pos_error alayout :=
  match fuel with
  | 0 => OutOfFuel
  | S fuel => object_body_at (object_from_at fuel) o off
  end.

(** [Layout::try_from_json_at] — layouts/src/abs/syntax/layout/mod.rs 149-169. *)
Definition layout_from_json_at (j : json) (off : nat) : outcome pos_error alayout :=
  match j with
  | JBool b => Ok (ABool b)
  | JObj o => object_from_at (json_size j) o off
  | j => Err (at_pos off (Unexpected [KdBoolean; KdObject] (kind_of j)))
  end.
End Read.

(** [Layout::try_from_json] ([json_syntax::TryFromJson::try_from_json], external) with the code map of
    the document — src/main.rs 368-370. *)
Definition read_layout {TS : TextSyntax} (j : json) : outcome pos_error alayout :=
  layout_from_json_at (code_map_of j) j 0.

(** ** Diagnostics *)

(** The labels and the notes of a diagnostic ([codespan_reporting], external); a label is placed on a
    fragment (its place in the text is not modelled).  The messages are those of the error and of the
    hint. *)
Inductive label : Type :=
| LabelPrimary (fr : nat) (e : abs_error)
| LabelSecondary (fr : nat) (h : error_hint).
Record diagnostic : Type := Diagnostic { labels : list label; notes : list error_hint }.

(** [code_map.get(i).unwrap().span] — src/main.rs 314 and 322: here the number of the fragment. *)
Definition span_of (cm : code_map) (i : nat) : outcome Empty_set nat :=
  let* _ := unwrap "code_map.get" (nth_error cm i) in Ok i.

(** The loop over the hints — src/main.rs 319-330. *)
Fixpoint add_hints (cm : code_map) (hs : list error_hint) (d : diagnostic)
  : outcome Empty_set diagnostic :=
  match hs with
  | [] => Ok d
  | h :: hs' =>
      match hint_position h with
      | Some i =>
          let* sp := span_of cm i in
          add_hints cm hs' (Diagnostic (labels d ++ [LabelSecondary sp h]) (notes d))
      | None => add_hints cm hs' (Diagnostic (labels d) (notes d ++ [h]))
      end
  end.

(** [Error::into_diagnostic], the case [LayoutSyntax] — src/main.rs 313-337. *)
Definition syntax_diagnostic (cm : code_map) (e : pos_error) : outcome Empty_set diagnostic :=
  let* sp := span_of cm (position e) in
  add_hints cm (hints e) (Diagnostic [LabelPrimary sp (pe_error e)] []).
