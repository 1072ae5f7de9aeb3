(** * Numbers and machine numbers: specification (C114) *)

From Coq Require Import ZArith QArith Qcanon.
From Coq.Floats Require Import SpecFloat.
From Verif Require Import Base FloatModel.
Open Scope Z_scope.

(** The formats: digits of the mantissa, and bound of the exponent. *)
Definition is_f64 (x : spec_float) : Prop := valid_binary 53 1024 x = true.
Definition is_f32 (x : spec_float) : Prop := valid_binary 24 128 x = true.

(** The numbers [m * 2 ^ e], with [prec] binary digits at most and an exponent in the range of the format. *)
Definition representable (prec emax : Z) (q : Qc) : Prop :=
  exists m e, Z.abs m < 2 ^ prec /\ 3 - emax - prec <= e <= emax - prec /\ (this q == inject_Z m * inject_Z 2 ^ e)%Q.

(** The integers of the types [u8] .. [i64]. *)
Definition machine_integer (n : Z) : Prop := - 2 ^ 63 <= n < 2 ^ 64.

(** What is expected of [BigRational::to_f64] (external): a double that is not [NaN], the same number if there is one, and no negative zero for zero. *)
Record to_f64_laws (to_f64 : Qc -> spec_float) : Prop := {
  to_f64_valid : forall q, is_f64 (to_f64 q);
  to_f64_number : forall q, to_f64 q <> S754_nan;
  to_f64_exact : forall q, (exists x, is_f64 x /\ rational_from_float x = Some q) -> rational_from_float (to_f64 q) = Some q;
  to_f64_zero : to_f64 (Q2Qc (inject_Z 0)) = S754_zero false
}.

(** A number made from a machine number. *)
Inductive machine_number (q : Qc) : Prop :=
| mn_integer n : machine_integer n -> q = number_from_integer n -> machine_number q
| mn_f32 x : is_f32 x -> number_from_float x = Ok q -> machine_number q
| mn_f64 x : is_f64 x -> number_from_float x = Ok q -> machine_number q.
