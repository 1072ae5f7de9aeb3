(** * C57, C58, C73: an interpretation, cases, a refutation and assumptions *)

From Coq Require Import String List Bool Arith ZArith QArith Qcanon Lia.
Import ListNotations.
From Verif Require Import Base BaseProofs Orders ValueModel HydrateModel TermModel GenDataModel GenDataSpec
  GenDataProperties.
Open Scope list_scope.
Open Scope nat_scope.

Definition lit_type_dec (a b : lit_type) : {a = b} + {a <> b}.
Proof. decide equality; apply string_dec. Defined.
Definition literal_dec (a b : rdf_literal) : {a = b} + {a <> b}.
Proof. decide equality; [apply lit_type_dec|apply string_dec]. Defined.

(** An interpretation: the lexical representations assigned to each resource. *)
Inductive lexical : Type := LexIri (s : string) | LexBlank (s : string) | LexLiteral (l : rdf_literal).
Definition table : Type := list (nat * lexical).

Definition pick {A} (f : lexical -> list A) (r : nat) (t : table) : list A :=
  flat_map (fun e : nat * lexical => if Nat.eqb (fst e) r then f (snd e) else []) t.

#[local] Instance table_runtime : Runtime nat table := {
  rt_iris t r := nodup string_dec (pick (fun l => match l with LexIri s => [s] | _ => [] end) r t);
  rt_blanks t r := nodup string_dec (pick (fun l => match l with LexBlank s => [s] | _ => [] end) r t);
  rt_literals t r := nodup literal_dec (pick (fun l => match l with LexLiteral s => [s] | _ => [] end) r t);
  rt_assign_iri r s t := t ++ [(r, LexIri s)];
  rt_assign_blank r s t := t ++ [(r, LexBlank s)];
  rt_assign_literal r l t := t ++ [(r, LexLiteral l)]
}.

Lemma pick_app {A} (f : lexical -> list A) r t l :
  pick f r (t ++ [(r, l)]) = pick f r t ++ f l.
Proof. unfold pick. rewrite flat_map_app. cbn. now rewrite Nat.eqb_refl, app_nil_r. Qed.

#[local] Instance table_laws : RuntimeLaws nat table.
Proof.
  constructor; cbn [rt_iris rt_blanks rt_literals rt_assign_iri rt_assign_blank rt_assign_literal table_runtime]; intros;
    [apply NoDup_nodup|apply NoDup_nodup|apply NoDup_nodup| | | |]; rewrite !nodup_In, pick_app, ?app_nil_r; try tauto;
    rewrite in_app_iff; cbn; intuition congruence.
Qed.

(** Integers in range, in decimal. *)
Definition int_rangeb (ty : int_type) (z : Z) : bool :=
  match ty with
  | U8 => (0 <=? z) && (z <? 2 ^ 8)
  | U16 => (0 <=? z) && (z <? 2 ^ 16)
  | U32 => (0 <=? z) && (z <? 2 ^ 32)
  | U64 => (0 <=? z) && (z <? 2 ^ 64)
  | I8 => (- 2 ^ 7 <=? z) && (z <? 2 ^ 7)
  | I16 => (- 2 ^ 15 <=? z) && (z <? 2 ^ 15)
  | I32 => (- 2 ^ 31 <=? z) && (z <? 2 ^ 31)
  | I64 => (- 2 ^ 63 <=? z) && (z <? 2 ^ 63)
  end%Z.
#[local] Instance decimal_syntax : IntSyntax := {
  int_parse ty s :=
    match integer_parse s with
    | Some z => if int_rangeb ty z then Some z else None
    | None => None
    end
}.
#[local] Instance decimal_laws : IntSyntaxLaws.
Proof.
  constructor. intros ty z H. cbn [int_parse decimal_syntax]. rewrite integer_parse_print.
  assert (int_rangeb ty z = true) as ->; [|reflexivity].
  destruct ty; unfold int_range in H; unfold int_rangeb; apply andb_true_intro;
    (split; [apply Z.leb_le|apply Z.ltb_lt]; apply H).
Qed.

(** ** Cases *)

Definition byte_literal (s : string) : lexical := LexLiteral (RdfLiteral s (TypeAny (int_datatype I8))).

Example id_iri : id_de [(0, LexBlank "b"); (0, LexIri "e:x"); (1, LexIri "e:y")]%string 0 = Ok (IdIri "e:x").
Proof. reflexivity. Qed.
Example id_blank : id_de [(0, LexBlank "b"); (1, LexIri "e:y")]%string 0 = Ok (IdBlank "b").
Proof. reflexivity. Qed.
Example id_ambiguous : id_de [(0, LexIri "e:x"); (0, LexIri "e:y")]%string 0 = Err AmbiguousId.
Proof. reflexivity. Qed.
Example id_missing : id_de [(1, LexIri "e:x")]%string 0 = Err MissingId.
Proof. reflexivity. Qed.
Example id_back : id_de (id_ser (IdBlank "b") [(1, LexBlank "c")]%string 0) 0 = Ok (IdBlank "b").
Proof. apply C57_roundtrip; reflexivity. Qed.

Example int_read :
  int_de I8 [(0, byte_literal "-128"); (0, LexLiteral (RdfLiteral "7" (TypeAny xsd_string)))]%string 0 = Ok (-128)%Z.
Proof. reflexivity. Qed.
Example int_invalid : int_de I8 [(0, byte_literal "128")]%string 0 = Err InvalidLiteralValue.
Proof. reflexivity. Qed.
Example int_ambiguous : int_de I8 [(0, byte_literal "1"); (0, byte_literal "01")]%string 0 = Err AmbiguousLiteralValue.
Proof. reflexivity. Qed.
Example int_mismatch : int_de I16 [(0, byte_literal "1")]%string 0 = Err LiteralTypeMismatch.
Proof. reflexivity. Qed.
Example int_none : int_de I16 [(0, LexIri "e:x")]%string 0 = Err ExpectedLiteral.
Proof. reflexivity. Qed.
Example int_back : int_de U64 (int_ser U64 (2 ^ 64 - 1)%Z [(0, byte_literal "1")]%string 0) 0 = Ok (2 ^ 64 - 1)%Z.
Proof.
  apply C58_roundtrip; [split; [discriminate|reflexivity]|].
  intros l [<-|[]]. discriminate.
Qed.

Example text_read :
  text_de [(0, LexLiteral (RdfLiteral "a" (TypeLang "en"))); (0, LexLiteral (RdfLiteral "b" (TypeAny xsd_string)))]%string 0
  = Ok "b"%string.
Proof. reflexivity. Qed.
Example text_back : text_de (text_ser "é" [(0, byte_literal "1")]%string 0) 0 = Ok "é"%string.
Proof. apply C73_roundtrip. intros l [<-|[]]. discriminate. Qed.

(** A resource with two texts is not ambiguous: one of them is read. *)
Theorem C73_text_refuted :
  exists (t : table) (r : nat) s l,
    text_de t r = Ok s /\ In l (rt_literals t r) /\ has_type xsd_string l /\ rl_value l <> s.
Proof.
  exists [(0, LexLiteral (RdfLiteral "a" (TypeAny xsd_string))); (0, LexLiteral (RdfLiteral "b" (TypeAny xsd_string)))]%string,
    0, "a"%string, (RdfLiteral "b" (TypeAny xsd_string)).
  repeat split; [right; now left|discriminate].
Qed.

Print Assumptions C57_identifier.
Print Assumptions C57_errors.
Print Assumptions C57_roundtrip.
Print Assumptions C58_integer.
Print Assumptions C58_datatypes.
Print Assumptions C58_errors.
Print Assumptions C58_roundtrip.
Print Assumptions C73_first.
Print Assumptions C73_text_partial.
Print Assumptions C73_text_refuted.
Print Assumptions C73_roundtrip.
