(** * The runtime of the generated Rust code: identifiers, texts and integers
      ([generators/rust/treeldr-rs/src/datatypes.rs])

    Vocabulary look-ups are the identity: IRIs, blank node identifiers and literals are represented
    by their lexical form. *)

From Coq Require Import String List Bool Arith ZArith QArith Qcanon.
Import ListNotations.
From Verif Require Import Base Orders ValueModel HydrateModel TermModel.
Open Scope list_scope.

(** [DeserializeError] — generators/rust/treeldr-rs/src/de/mod.rs 39-70. *)
Inductive de_error : Type :=
| DataAmbiguity
| MissingData
| MissingField (name : string)
| MissingId
| AmbiguousId
| InvalidId
| AmbiguousLiteralValue
| InvalidLiteralValue
| LiteralTypeMismatch
| ExpectedLiteral.

(** [rdf_types::Id] (external). *)
Inductive rdf_id : Type :=
| IdIri (iri : string)
| IdBlank (name : string).

(** [rdf_types]: [ReverseTermInterpretation] and [ReverseTermInterpretationMut] (external), for
    interpretations [I] with resources [R]. *)
Class Runtime (R I : Type) : Type := {
  rt_iris : I -> R -> list string;
  rt_blanks : I -> R -> list string;
  rt_literals : I -> R -> list rdf_literal;
  rt_assign_iri : R -> string -> I -> I;
  rt_assign_blank : R -> string -> I -> I;
  rt_assign_literal : R -> rdf_literal -> I -> I
}.

(** The types of [xsd_datatypes!] — datatypes.rs 213-222. *)
Inductive int_type : Type := U8 | U16 | U32 | U64 | I8 | I16 | I32 | I64.

Definition xsd (name : string) : string := ("http://www.w3.org/2001/XMLSchema#" ++ name)%string.

(** Their datatypes — datatypes.rs 213-222, [xsd_types::XSD_*] (external). *)
Definition int_datatype (ty : int_type) : string :=
  match ty with
  | U8 => xsd "unsignedByte"
  | U16 => xsd "unsignedShort"
  | U32 => xsd "unsignedInt"
  | U64 => xsd "unsignedLong"
  | I8 => xsd "byte"
  | I16 => xsd "short"
  | I32 => xsd "int"
  | I64 => xsd "long"
  end.

(** [xsd_types::ParseXsd] for the integers (external). *)
Class IntSyntax : Type := { int_parse : int_type -> string -> option Z }.

Section Data.
Context {R I : Type} {RT : Runtime R I}.

(** The loops [for i in rdf.interpretation.iris_of(&inputs[0])] and [for b in ..blank_ids_of(..)] —
    datatypes.rs 63-68, 71-76: [id.replace(..).is_some()]. *)
Fixpoint id_loop (wrap : string -> rdf_id) (names : list string) (id : option rdf_id)
  : outcome de_error (option rdf_id) :=
  match names with
  | [] => Ok id
  | n :: names' =>
      match id with
      | Some _ => Err AmbiguousId
      | None => id_loop wrap names' (Some (wrap n))
      end
  end.

(** [DeserializeLd for Id] — datatypes.rs 51-83. *)
Definition id_de (i : I) (r : R) : outcome de_error rdf_id :=
  let* id := id_loop IdIri (rt_iris i r) None in
  let* id := match id with
             | None => id_loop IdBlank (rt_blanks i r) None
             | Some id => Ok (Some id)
             end in
  match id with
  | Some id => Ok id
  | None => Err MissingId
  end.

(** [SerializeLd for Id] — datatypes.rs 23-41. *)
Definition id_ser (id : rdf_id) (i : I) (r : R) : I :=
  match id with
  | IdIri iri => rt_assign_iri r iri i
  | IdBlank b => rt_assign_blank r b i
  end.

(** The loop of [DeserializeLd for String] — datatypes.rs 121-129. *)
Fixpoint text_loop (ls : list rdf_literal) : outcome de_error string :=
  match ls with
  | [] => Err MissingData
  | l :: ls' =>
      match rl_type l with
      | TypeAny iri => if eqb iri xsd_string then Ok (rl_value l) else text_loop ls'
      | TypeLang _ => text_loop ls'
      end
  end.

(** [DeserializeLd for String] — datatypes.rs 112-133. *)
Definition text_de (i : I) (r : R) : outcome de_error string := text_loop (rt_literals i r).

(** [SerializeLd for String] — datatypes.rs 93-103. *)
Definition text_ser (s : string) (i : I) (r : R) : I :=
  rt_assign_literal r (RdfLiteral s (TypeAny xsd_string)) i.

Section Integers.
Context {IS : IntSyntax}.

(** The loop of [DeserializeLd] for an integer type — datatypes.rs 181-199. *)
Fixpoint int_loop (ty : int_type) (ls : list rdf_literal) (result : option Z) (has_literal : bool)
  : outcome de_error (option Z * bool) :=
  match ls with
  | [] => Ok (result, has_literal)
  | l :: ls' =>
      match rl_type l with
      | TypeAny iri =>
          if eqb iri (int_datatype ty) then
            match int_parse ty (rl_value l) with
            | Some z =>
                match result with
                | Some _ => Err AmbiguousLiteralValue
                | None => int_loop ty ls' (Some z) true
                end
            | None => Err InvalidLiteralValue
            end
          else int_loop ty ls' result true
      | TypeLang _ => int_loop ty ls' result true
      end
  end.

(** [DeserializeLd] for an integer type — datatypes.rs 168-209. *)
Definition int_de (ty : int_type) (i : I) (r : R) : outcome de_error Z :=
  let* res := int_loop ty (rt_literals i r) None false in
  match fst res with
  | Some z => Ok z
  | None => if snd res then Err LiteralTypeMismatch else Err ExpectedLiteral
  end.
End Integers.

(** [SerializeLd] for an integer type — datatypes.rs 147-157; [integer_print] is [to_string]
    (TermModel.v). *)
Definition int_ser (ty : int_type) (z : Z) (i : I) (r : R) : I :=
  rt_assign_literal r (RdfLiteral (integer_print z) (TypeAny (int_datatype ty))) i.
End Data.
