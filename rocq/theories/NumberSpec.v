(** * Specification of decimal numerals *)

From Coq Require Import String Ascii List Bool Arith ZArith QArith Qcanon.
Import ListNotations.
Open Scope list_scope.

(** The character of a digit, and the text of a list of digits. *)
Definition digit_char (d : nat) : ascii := ascii_of_nat (48 + d).
Fixpoint digits_text (ds : list nat) : string :=
  match ds with [] => EmptyString | d :: ds' => String (digit_char d) (digits_text ds') end.

(** Positional value: the last digit counts for itself, the others ten times their own value. *)
Fixpoint digits_value_rev (ds : list nat) : Z :=
  match ds with [] => 0 | d :: ds' => Z.of_nat d + 10 * digits_value_rev ds' end%Z.
Definition digits_value (ds : list nat) : Z := digits_value_rev (rev ds).

Definition digits (ds : list nat) : Prop := Forall (fun d => (d < 10)%nat) ds.

(** The rational [z / 10^k]. *)
Definition scaled (z : Z) (k : nat) : Qc := Q2Qc (z # Z.to_pos (10 ^ Z.of_nat k)).

(** [numeral neg ip fp]: the text [-]ip[.fp], as in the examples [-0.5], [12], [3.25]. *)
Definition numeral (neg : bool) (ip fp : list nat) : string :=
  ((if neg then "-" else "") ++ digits_text ip ++
   match fp with [] => "" | _ => "." ++ digits_text fp end)%string.

(** The text [s] is a decimal numeral that denotes the rational number [q]. *)
Definition Denotes (s : string) (q : Qc) : Prop :=
  exists (neg : bool) (ip fp : list nat),
    digits ip /\ digits fp /\ ip <> [] /\ s = numeral neg ip fp /\
    q = (if neg then Qcopp (scaled (digits_value (ip ++ fp)) (length fp))
         else scaled (digits_value (ip ++ fp)) (length fp)).

(** [q] has a finite decimal expansion. *)
Definition Finite (q : Qc) : Prop := exists (k : nat) (z : Z), q = scaled z k.
