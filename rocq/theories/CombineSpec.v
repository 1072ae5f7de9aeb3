(** * Specification of the combination of documents (C102) *)

From Coq Require Import String List.
Import ListNotations.
From Verif Require Import Base Orders PatternModel ValueModel LayoutModel HydrateModel TermModel DehydrateModel RoundTripSpec
  CombineModel.
Open Scope list_scope.
Open Scope nat_scope.

(** The [n]-th term of a generator. *)
Fixpoint nth_state {Gn} (next : Gn -> term * Gn) (gn : Gn) (n : nat) : Gn :=
  match n with 0 => gn | S n => snd (next (nth_state next gn n)) end.
Definition nth_name {Gn} (next : Gn -> term * Gn) (gn : Gn) (n : nat) : term := fst (next (nth_state next gn n)).

(** The generator never gives twice the same blank node, nor the one of an input. *)
Definition good_names {Gn} (next : Gn -> term * Gn) (gn : Gn) (docs : list document) : Prop :=
  (forall n, exists b, nth_name next gn n = TmBlank b) /\
  (forall n m, nth_name next gn n = nth_name next gn m -> n = m) /\
  (forall d, In d docs ->
     (forall i, exists b, d_input d i = TmBlank b) /\
     (forall i j, d_input d i = d_input d j -> i = j) /\
     (forall i n, d_input d i <> nth_name next gn n)).

Section Documents.
Context {X : Xsd}.
Variable reg : registry term.

(** The value gives the IRI [i] to one of its nodes. *)
Definition identifies (d : document) (i : string) : Prop :=
  exists ids, Identifiers reg (d_layout d) (d_value d) ids /\ In i ids.

(** Two documents may be about the same resource only if it is the subject of both, and if their layouts use
    different properties of it. *)
Definition compatible (d : document) (r : list (quad term) * list term) (d' : document) (r' : list (quad term) * list term) : Prop :=
  (forall i, identifies d i -> identifies d' i -> In (TmIri i) (snd r) /\ In (TmIri i) (snd r')) /\
  (forall t p, In t (snd r) -> In t (snd r') -> Owns reg (d_layout d) p -> ~ Owns reg (d_layout d') p).

(** The document can be read back alone (C30). *)
Definition readable (d : document) : Prop :=
  Proper reg (d_layout d) (d_value d) /\ distinct_identifiers reg (d_layout d) (d_value d) /\
  not_terminators reg (d_layout d) (d_value d).
End Documents.
