(** * Specification of the reading of CBOR texts *)

From Coq Require Import String List Bool Arith NArith ZArith QArith Qcanon.
Import ListNotations.
From Verif Require Import Base BaseProofs Orders ValueModel LayoutModel HydrateModel JsonModel JsonSpec JsonProperties CborModel CborSpec AbsModel CliModel CliSpec CborReadModel.
Open Scope list_scope.
Open Scope nat_scope.

Section Read.
Context {F : Type}.
Variables (from_f64 : F -> option Qc) (to_f64 : Qc -> F).

(** The numbers that CBOR gives back: the integers that are not zero and fit in 64 bits (with a sign if they are negative),
    and the other numbers that are exactly a float. *)
Definition cbor_exact (q : Qc) : Prop :=
  (exists n, n <> 0 /\ - 2 ^ 63 <= n < 2 ^ 64 /\ q = Q2Qc (inject_Z n))%Z \/
  ((forall n, q <> Q2Qc (inject_Z n)) /\ from_f64 (to_f64 q) = Some q).

(** What is expected of [serde_cbor] on its own values: it reads what it writes, up to 128 levels, if the visitor accepts
    it, and otherwise fails. *)
Record value_laws {FM : Formats F} : Prop := {
  value_reads_back : forall c s, cbor_read to_f64 c = Ok s -> serde_depth s < 128 -> cbor_parse (cbor_value_print c) = Some s;
  value_refused : forall c, cbor_read to_f64 c = Err tt -> cbor_parse (cbor_value_print c) = None
}.
End Read.

(** The constant of the unit layouts is the unit; the keys of the records are well formed. *)
Definition plain_units {R} (reg : registry R) : Prop := forall r h c, reg r = Some (UnitL h c) -> c = VLit LUnit.
Definition plain_keys {R} (reg : registry R) : Prop := forall r h fs k f, reg r = Some (ProductL h fs) -> In (k, f) fs -> value_wf k.
