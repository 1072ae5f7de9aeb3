(** * Numbers out of the range of their datatype: examples (C95) *)

From Coq Require Import String List Bool Arith NArith ZArith QArith Qcanon Permutation Lia.
Import ListNotations.
From Verif Require Import Base BaseProofs Orders PatternModel MatchingModel ValueModel LayoutModel HydrateModel TermModel
  DehydrateModel RoundTripSpec GenDataModel GenDataSpec NumberRange.
Open Scope list_scope.
Open Scope nat_scope.
Open Scope string_scope.

(** [xsd_types::Datatype::from_iri] (external crate) knows the datatypes derived from [xsd:decimal]; here three of them,
    with the integers as decimals. *)
Definition unsigned_byte : string := "http://www.w3.org/2001/XMLSchema#unsignedByte".
Local Instance range_xsd : Xsd := {|
  is_decimal_type := fun ty => (String.eqb ty unsigned_byte || String.eqb ty xsd_integer || String.eqb ty xsd_decimal)%bool;
  decimal_parse := @decimal_parse xsd_integers;
  decimal_print := @decimal_print xsd_integers
|}.
Local Instance range_iris : IriSyntax := fun _ => true.

Definition bytes_reg : term -> option (layout term) :=
  fun r => if eqb r (TmIri "byte") then Some (number_layout unsigned_byte) else None.

(** The full statement is false: 300 is written as an unsigned byte … *)
Theorem C95_write_refuted : exists s,
  dehydrate (fun l => l) bytes_reg 1 (VLit (LNum (Qc_of_Z 300))) (TmIri "byte") default_options
    = Ok ([], [TmLit (RdfLiteral s (TypeAny unsigned_byte))]) /\
  integer_parse s = Some 300%Z /\ ~ (exists lo hi, xsd_value_space unsigned_byte lo hi /\ (lo <= 300 <= hi)%Z).
Proof.
  exists "300". split; [|split].
  - apply C95_dehydrate_unchecked; [intros l; apply Permutation_refl| | |]; vm_compute; reflexivity.
  - vm_compute. reflexivity.
  - intros (lo & hi & H & B). inversion H; subst. lia.
Qed.

(** … and read as one; a negative number too. *)
Theorem C95_read_refuted (D : dataset term) : exists s z,
  hydrate_with D bytes_reg 1 None (TmIri "byte") [TmLit (RdfLiteral s (TypeAny unsigned_byte))]
    = Ok (TLit (TNum (Qc_of_Z z) (TmIri "byte"))) /\
  ~ (exists lo hi, xsd_value_space unsigned_byte lo hi /\ (lo <= z <= hi)%Z).
Proof.
  exists "-1", (-1)%Z. split.
  - apply C95_hydrate_unchecked with (ty := unsigned_byte); vm_compute; reflexivity.
  - intros (lo & hi & H & B). inversion H; subst. lia.
Qed.

(** A literal of another datatype is not read, even when its value is in the range. *)
Example other_datatype (D : dataset term) tv :
  hydrate_with D bytes_reg 1 None (TmIri "byte") [TmLit (RdfLiteral "12" (TypeAny xsd_integer))] <> Ok tv.
Proof.
  intros H. apply (C95_hydrate D bytes_reg (TmIri "byte") unsigned_byte) in H; [|reflexivity].
  destruct H as [H _]. discriminate H.
Qed.

Print Assumptions C95_dehydrate.
Print Assumptions C95_hydrate.
Print Assumptions C95_write_refuted.
Print Assumptions C95_read_refuted.
