(** * What the texts of the errors must be *)

From Coq Require Import String Ascii List Bool Arith.
Import ListNotations.
From Verif Require Import Base JsonModel AbsModel AbsJsonModel PositionModel.
Open Scope list_scope.
Open Scope nat_scope.
Open Scope string_scope.

(** The types that a layout may have: those of the objects that are read. *)
Definition layout_type {TS : TextSyntax} (t : string) : Prop :=
  exists o l, In ("type", JStr t) o /\ read_layout (JObj o) = Ok l.

(** An enumeration in English. *)
Inductive enumeration : list string -> string -> Prop :=
| enum_one x : enumeration [x] ("`" ++ x ++ "`")
| enum_two x y : enumeration [x; y] ("`" ++ x ++ "` and `" ++ y ++ "`")
| enum_more x y z l t : enumeration (y :: z :: l) t -> enumeration (x :: y :: z :: l) ("`" ++ x ++ "`, " ++ t).

(** What a text has between backquotes; [inside]: we are after an opening one, [part]: what has been
    seen since. *)
Fixpoint quotations (inside : bool) (part s : string) : list string :=
  match s with
  | EmptyString => []
  | String c s' =>
      if Ascii.eqb c "`" then
        if inside then part :: quotations false "" s' else quotations true "" s'
      else if inside then quotations true (part ++ String c "") s' else quotations false "" s'
  end.
Definition names_in (s : string) : list string := quotations false "" s.

Fixpoint no_backquote (s : string) : Prop :=
  match s with EmptyString => True | String c s' => c <> "`"%char /\ no_backquote s' end.
