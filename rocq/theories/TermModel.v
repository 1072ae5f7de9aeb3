(** * RDF terms ([rdf_types::Term]) and their trivial interpretation

    [rdf_types] is an external crate: this file states the part of its contract the
    functions [hydrate] and [dehydrate] rely on (resources are terms, interpreted by the unit
    interpretation [()]), and a concrete fragment of [xsd_types] (the integers) used in
    the examples. *)

From Coq Require Import String Ascii List Bool Arith NArith ZArith QArith Qcanon.
From Coq Require Decimal DecimalString DecimalZ.
Import ListNotations.
From Verif Require Import Base BaseProofs Orders PatternModel HydrateModel.
Open Scope list_scope.
Open Scope nat_scope.

(** [rdf_types::Term] (IRIs, blank node identifiers, literals) — external crate, used by
    layouts/src/distill/hy/mod.rs 116-126 and layouts/src/distill/de/mod.rs 269-290. *)
Inductive term : Type :=
| TmIri (iri : string)
| TmBlank (id : string)
| TmLit (l : rdf_literal).

(** Derived order: constructors first, then the lexical representations. *)
Definition term_key (t : term) : nat * (string * (nat * string)) :=
  match t with
  | TmIri i => (0, (i, (0, EmptyString)))
  | TmBlank b => (1, (b, (0, EmptyString)))
  | TmLit (RdfLiteral v (TypeAny ty)) => (2, (v, (0, ty)))
  | TmLit (RdfLiteral v (TypeLang tag)) => (2, (v, (1, tag)))
  end.

Global Instance cmp_term : Cmp term := fun a b => cmp (term_key a) (term_key b).

Lemma cmp_term_def a b : cmp a b = cmp (term_key a) (term_key b).
Proof. reflexivity. Qed.

Lemma term_key_inj a b : term_key a = term_key b -> a = b.
Proof.
  destruct a as [i|i|[v [ty|ty]]], b as [i'|i'|[v' [ty'|ty']]]; simpl; congruence.
Qed.

Global Instance cmp_term_laws : CmpLaws term.
Proof.
  split; intros *; rewrite !cmp_term_def.
  - rewrite cmp_eq. split; [apply term_key_inj|congruence].
  - apply cmp_opp.
  - apply cmp_trans.
Qed.

(** Unit interpretation: a term is its own and only lexical representation. *)
Global Instance interp_term : Interp term := {
  iris_of := fun t => match t with TmIri i => [i] | _ => [] end;
  literals_of := fun t => match t with TmLit l => [l] | _ => [] end
}.

(** ** Integers of [xsd:integer] *)

Definition xsd_integer : string := "http://www.w3.org/2001/XMLSchema#integer".
Definition xsd_decimal : string := "http://www.w3.org/2001/XMLSchema#decimal".

Definition Qc_of_Z (z : Z) : Qc := Q2Qc (inject_Z z).

Definition integer_parse (s : string) : option Z :=
  option_map Z.of_int (DecimalString.NilZero.int_of_string s).

Definition integer_print (z : Z) : string := DecimalString.NilZero.string_of_int (Z.to_int z).

(** An instance of [Xsd] restricted to integers. *)
Global Instance xsd_integers : Xsd := {
  is_decimal_type := fun ty => eqb ty xsd_integer || eqb ty xsd_decimal;
  decimal_parse := fun s => option_map Qc_of_Z (integer_parse s);
  decimal_print := fun q =>
    match Qden (this q) with
    | xH => Some (integer_print (Qnum (this q)))
    | _ => None
    end
}.

Lemma integer_parse_print z : integer_parse (integer_print z) = Some z.
Proof.
  unfold integer_parse, integer_print.
  rewrite DecimalString.NilZero.isi; simpl.
  - now rewrite DecimalZ.of_to.
  - intros C. destruct z; simpl in C; try discriminate; injection C as C;
      assert (E := DecimalPos.Unsigned.of_to p); rewrite C in E; discriminate.
  - intros C. destruct z; simpl in C; try discriminate; injection C as C;
      assert (E := DecimalPos.Unsigned.of_to p); rewrite C in E; discriminate.
Qed.

Lemma decimal_parse_print q s :
  decimal_print q = Some s -> decimal_parse s = Some q.
Proof.
  destruct q as [[n d] C]. simpl. destruct d; try discriminate. intros [= <-].
  rewrite integer_parse_print. cbn [option_map]. f_equal. apply Qc_is_canon.
  unfold Qc_of_Z, Q2Qc. cbn [this]. rewrite Qred_correct. reflexivity.
Qed.
