(** * What is read may be written (C120): vocabulary *)

From Coq Require Import String List Bool Arith NArith.
Import ListNotations.
From Verif Require Import Base BaseProofs Orders PatternModel MatchingSpec ValueModel LayoutModel LayoutSpec HydrateModel DehydrateModel AcceptSpec.
Open Scope list_scope.
Open Scope nat_scope.

Section Taken.
Context {R : Type} {IS : IriSyntax}.

(** The identifiers in a typed value. *)
Inductive id_of : typed_value R -> string -> Prop :=
| id_here i ref : id_of (TLit (TId i ref)) i
| id_variant v ref j i : id_of v i -> id_of (TVariant v ref j) i
| id_map m ref k v i : In (k, v) m -> id_of v i -> id_of (TMap m ref) i
| id_list l ref v i : In v l -> id_of v i -> id_of (TList l ref) i.

(** They are IRIs. *)
Definition ids_valid (v : typed_value R) : Prop := forall i, id_of v i -> is_iri i = true.

(** The variants of a sum exclude each other: a value that is taken by one is refused by the others. *)
Definition decided_sums (reg : registry R) : Prop :=
  forall ref h vs i va v, reg ref = Some (SumL h vs) -> nth_error vs i = Some va ->
    Variant_takes reg (h_input h + h_intro h) (va_item va) v ->
    forall j vb, nth_error vs j = Some vb -> j <> i -> Variant_refuses reg (h_input h + h_intro h) (va_item vb) v.

(** No layout uses a variable that it does not declare. *)
Definition declared_registry (reg : registry R) : Prop :=
  forall ref l x, reg ref = Some l -> ~ undeclared_in l x.
End Taken.
