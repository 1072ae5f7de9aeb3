(** * Numbers and machine numbers ([layouts/src/value/mod.rs])

    Machine floats are those of [SpecFloat] (standard library): a sign, a mantissa and an exponent, in binary with [prec] digits. *)

From Coq Require Import ZArith QArith Qcanon.
From Coq.Floats Require Import SpecFloat.
From Verif Require Import Base.

(** [From<u8>] .. [From<i64>] for [Number] — layouts/src/value/mod.rs 146-156, 179: [BigRational::from_integer]. *)
Definition number_from_integer (n : Z) : Qc := Q2Qc (inject_Z n).

(** [BigRational::from_float] (external crate [num_rational]): the mantissa shifted by the exponent, of a finite float. *)
Definition rational_from_float (x : spec_float) : option Qc :=
  match x with
  | S754_zero _ => Some (Q2Qc (inject_Z 0))
  | S754_finite s m e => Some (Q2Qc (inject_Z (if s then Zneg m else Zpos m) * inject_Z 2 ^ e))
  | S754_infinity _ | S754_nan => None
  end.

(** [TryFrom<f32>], [TryFrom<f64>] for [Number] — layouts/src/value/mod.rs 158-177, 180; the error [NonFiniteFloat] has the float. *)
Definition number_from_float (x : spec_float) : outcome spec_float Qc :=
  match rational_from_float x with
  | Some v => Ok v
  | None => Err x
  end.
