(** * What the position of an error must be

    Written from the English of the messages, over the fragments of the document. *)

From Coq Require Import String List Bool Arith.
Import ListNotations.
From Verif Require Import Base JsonModel RegexpModel AbsJsonModel PositionModel.
Open Scope list_scope.
Open Scope nat_scope.

(** The fragment at a position of a document. *)
Definition fragment_at (doc : json) (i : nat) (f : fragment) : Prop :=
  nth_error (fragments doc) i = Some f.

(** The position of the key of the entry that comes after the entries [before] in an object which is
    at [off]: the object itself, the three parts of each entry before, the entry. *)
Definition key_position (off : nat) (before : object) : nat :=
  off + 2 + list_sum (map (fun e : string * json => 2 + length (fragments (snd e))) before).

(** The key [k] at position [i] belongs to the object [o] of the document, which is at [off], and
    comes after the entries [before]. *)
Definition key_of (doc : json) (off : nat) (o before : object) (k : string) (i : nat) : Prop :=
  fragment_at doc off (FrValue (JObj o)) /\
  (exists j after, o = before ++ (k, j) :: after) /\
  i = key_position off before /\
  fragment_at doc i (FrKey k).

Definition has_entry (o : object) (k : string) : Prop := exists j, In (k, j) o.

(** The error is about what is found at its position. *)
Definition points_at {TS : TextSyntax} (doc : json) (e : abs_error) (i : nat) (other : option nat)
  : Prop :=
  match e with
  | Unexpected expected found =>
      exists j, fragment_at doc i (FrValue j) /\ kind_of j = found /\ ~ In found expected
  | MissingRequiredEntry k =>
      exists o, fragment_at doc i (FrValue (JObj o)) /\ ~ has_entry o k
  | DuplicateEntry k =>
      exists off o before between i',
        other = Some i' /\ i < i' /\
        key_of doc off o before k i /\ ~ has_entry before k /\
        (exists j, key_of doc off o (before ++ (k, j) :: between) k i') /\ ~ has_entry between k
  | UnexpectedEntry k => exists off o before, key_of doc off o before k i
  | MissingType => exists o, fragment_at doc i (FrValue (JObj o)) /\ ~ has_entry o "type"
  | InvalidType expected found =>
      fragment_at doc i (FrValue (JStr found)) /\ ~ In found expected
  | InvalidRegex err =>
      exists s, fragment_at doc i (FrValue (JStr s)) /\ re_parse (chars s) = Err err
  | InvalidPattern s =>
      fragment_at doc i (FrValue (JStr s)) /\ blank_suffix s = None /\ is_iri_ref s = false
  | InvalidLangTag s =>
      exists o, fragment_at doc i (FrValue (JObj o)) /\ In ("language"%string, JStr s) o /\
        is_lang_tag s = false
  | InvalidCompactIri s =>
      (fragment_at doc i (FrValue (JStr s)) \/ fragment_at doc i (FrKey s)) /\ is_iri_ref s = false
  | MissingQuadPattern => exists l, fragment_at doc i (FrValue (JArr l)) /\ length l < 3
  | TooManyQuadPatterns => exists l, fragment_at doc i (FrValue (JArr l)) /\ 4 < length l
  | ExpectedInteger n => fragment_at doc i (FrValue (JNum n)) /\ has_dot n = true
  | IntegerOverflow n =>
      fragment_at doc i (FrValue (JNum n)) /\ has_dot n = false /\ parse_i64 n = None
  end.

(** Only a duplicate entry has another position. *)
Definition other_only_for_duplicates (e : abs_error) (other : option nat) : Prop :=
  other <> None -> exists k, e = DuplicateEntry k.
