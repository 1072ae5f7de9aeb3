(** * The texts of values ([Display], layouts/src/value/mod.rs 183-187, 282-299, 419-448)

    What is written to the formatter is returned; the formatter does not fail.  The escapes of
    [json_syntax::print::string_literal] are a parameter. *)

From Coq Require Import String Ascii List Bool Arith NArith ZArith QArith Qcanon.
Import ListNotations.
From Verif Require Import Base ValueModel TermModel NumberModel.
Open Scope list_scope.
Open Scope nat_scope.
Open Scope string_scope.

(** [json_syntax::print::string_literal] (external): a JSON string literal. *)
Class JsonText : Type := { json_string : string -> string }.

(** [Display for Number] — layouts/src/value/mod.rs 183-187: the one of [num_rational::Ratio] (external), the
    numerator, then the denominator if it is not one. *)
Definition number_display (q : Qc) : string :=
  if is_integer q then integer_print (numer q) else integer_print (numer q) ++ "/" ++ integer_print (denom q).

(** [{b:02x}] — layouts/src/value/mod.rs 292. *)
Definition hex_digit (n : nat) : ascii :=
  match get n "0123456789abcdef" with Some c => c | None => "0"%char end.
Definition byte_display (c : ascii) : string :=
  let n := nat_of_ascii c in String (hex_digit (n / 16)) (String (hex_digit (n mod 16)) EmptyString).

(** The loop on the bytes — layouts/src/value/mod.rs 291-293. *)
Fixpoint bytes_display (s : string) : string :=
  match s with
  | EmptyString => EmptyString
  | String c s' => byte_display c ++ bytes_display s'
  end.

Section Display.
Context {J : JsonText}.

(** [Display for Literal] — layouts/src/value/mod.rs 282-299. *)
Definition literal_display (l : literal) : string :=
  match l with
  | LUnit => "null"
  | LBool true => "true"
  | LBool false => "false"
  | LNum n => number_display n
  | LBytes s => "x" ++ bytes_display s
  | LText s => json_string s
  end.

(** [Display for Value] — layouts/src/value/mod.rs 419-448. *)
Fixpoint value_display (v : value) : string :=
  match v with
  | VLit l => literal_display l
  | VList l =>
      "[" ++
      (fix go (i : nat) (l : list value) : string :=
         match l with
         | [] => ""
         | v :: l' => (if Nat.ltb 0 i then "," else "") ++ value_display v ++ go (S i) l'
         end) 0 l ++ "]"
  | VMap m =>
      "{" ++
      (fix go (i : nat) (m : list (value * value)) : string :=
         match m with
         | [] => ""
         | (k, v) :: m' => (if Nat.ltb 0 i then "," else "") ++ value_display k ++ ":" ++ value_display v ++ go (S i) m'
         end) 0 m ++ "}"
  end.
End Display.
