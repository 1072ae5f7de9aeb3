(** * Specification of the runtime of the generated code: identifiers, texts and integers *)

From Coq Require Import String List Bool Arith ZArith QArith Qcanon.
Import ListNotations.
From Verif Require Import Base ValueModel HydrateModel TermModel GenDataModel.
Open Scope list_scope.

(** The laws of an interpretation: the lexical representations of a resource are sets, and those
    assigned are added. *)
Class RuntimeLaws (R I : Type) {RT : Runtime R I} : Prop := {
  rt_iris_nodup : forall i r, NoDup (rt_iris i r);
  rt_blanks_nodup : forall i r, NoDup (rt_blanks i r);
  rt_literals_nodup : forall i r, NoDup (rt_literals i r);
  rt_iris_assign : forall i (r : R) s x, In x (rt_iris (rt_assign_iri r s i) r) <-> x = s \/ In x (rt_iris i r);
  rt_blanks_assign : forall i (r : R) s x, In x (rt_blanks (rt_assign_blank r s i) r) <-> x = s \/ In x (rt_blanks i r);
  rt_iris_assign_blank : forall i (r : R) s x, In x (rt_iris (rt_assign_blank r s i) r) <-> In x (rt_iris i r);
  rt_literals_assign : forall i (r : R) l x, In x (rt_literals (rt_assign_literal r l i) r) <-> x = l \/ In x (rt_literals i r)
}.

(** The only element of a list with a property. *)
Definition only {A} (P : A -> Prop) (a : A) (l : list A) : Prop :=
  exists l1 l2, l = l1 ++ a :: l2 /\ P a /\ (forall b, In b (l1 ++ l2) -> ~ P b).

(** The literals of a datatype. *)
Definition has_type (iri : string) (l : rdf_literal) : Prop := rl_type l = TypeAny iri.

(** The values of the integer types. *)
Definition int_range (ty : int_type) (z : Z) : Prop :=
  match ty with
  | U8 => 0 <= z < 2 ^ 8
  | U16 => 0 <= z < 2 ^ 16
  | U32 => 0 <= z < 2 ^ 32
  | U64 => 0 <= z < 2 ^ 64
  | I8 => - 2 ^ 7 <= z < 2 ^ 7
  | I16 => - 2 ^ 15 <= z < 2 ^ 15
  | I32 => - 2 ^ 31 <= z < 2 ^ 31
  | I64 => - 2 ^ 63 <= z < 2 ^ 63
  end%Z.

(** The decimal writing of an integer of the type is one of its lexical forms. *)
Class IntSyntaxLaws {IS : IntSyntax} : Prop :=
  { int_parse_print : forall ty z, int_range ty z -> int_parse ty (integer_print z) = Some z }.

(** The integer datatypes of XML Schema (part 2, section 3.4) and the bounds of their values. *)
Inductive xsd_value_space : string -> Z -> Z -> Prop :=
| xi_unsigned_byte : xsd_value_space "http://www.w3.org/2001/XMLSchema#unsignedByte" 0 255
| xi_unsigned_short : xsd_value_space "http://www.w3.org/2001/XMLSchema#unsignedShort" 0 65535
| xi_unsigned_int : xsd_value_space "http://www.w3.org/2001/XMLSchema#unsignedInt" 0 4294967295
| xi_unsigned_long : xsd_value_space "http://www.w3.org/2001/XMLSchema#unsignedLong" 0 18446744073709551615
| xi_byte : xsd_value_space "http://www.w3.org/2001/XMLSchema#byte" (-128) 127
| xi_short : xsd_value_space "http://www.w3.org/2001/XMLSchema#short" (-32768) 32767
| xi_int : xsd_value_space "http://www.w3.org/2001/XMLSchema#int" (-2147483648) 2147483647
| xi_long : xsd_value_space "http://www.w3.org/2001/XMLSchema#long" (-9223372036854775808) 9223372036854775807.
