(** * The texts of the errors of layout documents *)

From Coq Require Import String Ascii List Bool Arith.
Import ListNotations.
From Verif Require Import Base JsonModel RegexpModel AbsJsonModel PositionModel.
Open Scope list_scope.
Open Scope nat_scope.
Open Scope string_scope.

(** External: [Display for json_syntax::KindSet] and [Display for json_syntax::Kind]. *)
Class KindTexts : Type := {
  kinds_text : list json_kind -> string;
  kind_text : json_kind -> string
}.

(** A text between backquotes, as in the messages. *)
Definition quoted (s : string) : string := "`" ++ s ++ "`".

(** [Display for regexp::ParseError] — layouts/src/abs/regexp.rs 341-354. *)
Definition parse_error_text (e : parse_error) : string :=
  match e with
  | UnmatchedClosingParenthesis => "missing opening `(`"
  | MissingClosingParenthesis => "missing closing `)`"
  | IncompleteEscapeSequence => "incomplete escape sequence"
  | IncompleteCharacterSet => "incomplete character set"
  end.

(** [Display for Error] — layouts/src/abs/syntax/mod.rs 20-73. *)
Definition error_text {KT : KindTexts} (e : abs_error) : string :=
  match e with
  | Unexpected expected found => "expected " ++ kinds_text expected ++ ", found " ++ kind_text found
  | MissingRequiredEntry key => "missing required entry " ++ quoted key
  | DuplicateEntry key => "duplicate entry " ++ quoted key
  | UnexpectedEntry key => "unexpected entry " ++ quoted key
  | MissingType => "missing `type` entry"
  | InvalidType _ _ => "invalid type value"
  | InvalidRegex e => "invalid regular expression: " ++ parse_error_text e
  | InvalidPattern s => "invalid IRI or blank node identifier " ++ quoted s
  | InvalidLangTag s => "invalid language tag " ++ quoted s
  | InvalidCompactIri s => "invalid compact IRI " ++ quoted s
  | MissingQuadPattern => "quad must have at least 3 patterns (subject, predicate, object)"
  | TooManyQuadPatterns => "quad must have at most 4 patterns (subject, predicate, object, graph)"
  | ExpectedInteger n => "expected integer number, found " ++ n
  | IntegerOverflow n => "integer number is too large: " ++ n
  end.

(** The loop of [Display for ErrorHint] — layouts/src/abs/syntax/mod.rs 179-189; [i]: the index of the
    first of the types, [len]: the number of all of them. *)
Fixpoint write_types (i len : nat) (tys : list string) : string :=
  match tys with
  | [] => ""
  | ty :: tys' =>
      (if Nat.ltb 0 i then if Nat.eqb (i + 1) len then " and " else ", " else "") ++ quoted ty ++ write_types (S i) len tys'
  end.

(** [Display for ErrorHint] — layouts/src/abs/syntax/mod.rs 170-196.  [ExpectedType::One] is a list
    with one element ([Many] is never used with one). *)
Definition hint_text (h : error_hint) : string :=
  match h with
  | HintExpectedType [ty] => "only possible value is " ++ quoted ty
  | HintExpectedType tys => "possible values are " ++ write_types 0 (length tys) tys
  | HintFoundType ty => "found type " ++ quoted ty
  | HintDuplicateEntry _ => "also defined here"
  end.
