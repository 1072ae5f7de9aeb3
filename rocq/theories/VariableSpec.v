(** * Specification of the names of variables

    The grammar of the names of blank nodes in RDF 1.1 N-Triples (https://www.w3.org/TR/n-triples/#n-triples-grammar),
    without the dots. *)

From Coq Require Import String List NArith.
Import ListNotations.
From Verif Require Import Base PatternModel HydrateModel TermModel AbsModel AbsSpec AbsJsonModel.
Open Scope list_scope.
Open Scope N_scope.

(** A character in one of the ranges of a table. *)
Definition in_table (t : list (N * N)) (c : N) : Prop := exists r, In r t /\ fst r <= c <= snd r.

(** [PN_CHARS_BASE] *)
Definition base_table : list (N * N) :=
  [(65, 90); (97, 122); (0x00C0, 0x00D6); (0x00D8, 0x00F6); (0x00F8, 0x02FF); (0x0370, 0x037D); (0x037F, 0x1FFF);
   (0x200C, 0x200D); (0x2070, 0x218F); (0x2C00, 0x2FEF); (0x3001, 0xD7FF); (0xF900, 0xFDCF); (0xFDF0, 0xFFFD);
   (0x10000, 0xEFFFF)].
(** [PN_CHARS_U], with [_] and [:]. *)
Definition pn_chars_u (c : N) : Prop := in_table ([(95, 95); (58, 58)] ++ base_table) c.
(** The digits. *)
Definition digit (c : N) : Prop := 48 <= c <= 57.
(** [PN_CHARS], with [-], the digits and the combining characters. *)
Definition pn_chars (c : N) : Prop :=
  pn_chars_u c \/ c = 45 \/ digit c \/ in_table [(0x00B7, 0x00B7); (0x0300, 0x036F); (0x203F, 0x2040)] c.

(** A name: a first character, then others. *)
Definition name_word (w : list N) : Prop :=
  exists c w', w = c :: w' /\ (digit c \/ pn_chars_u c) /\ Forall pn_chars w'.

(** [BLANK_NODE_LABEL] after [_:]: dots are allowed inside. *)
Definition dot : N := 46.
Definition label_word (w : list N) : Prop :=
  exists c, (digit c \/ pn_chars_u c) /\
    (w = [c] \/ exists w' z, w = c :: w' ++ [z] /\ Forall (fun x => pn_chars x \/ x = dot) w' /\ pn_chars z).

Section Names.
Context {TS : TextSyntax}.

(** The text is the name of a variable. *)
Definition variable_name (s : string) : Prop := name_word (chars s).

(** What [BlankId::new] (external) takes as the identifier of a blank node has the name of a variable. *)
Definition blank_names : Prop := forall s name, blank_suffix s = Some name -> variable_name name.
End Names.

(** ** Patterns as terms *)
Section Terms.
Context {TS : TextSyntax}.

(** [BlankId::new] follows N-Triples: the labels are those of the grammar. *)
Definition ntriples_blanks : Prop :=
  forall s name, blank_suffix s = Some name <-> s = ("_:" ++ name)%string /\ label_word (chars name).
(** The same without the dots. *)
Definition dotless_blanks : Prop :=
  forall s name, blank_suffix s = Some name <-> s = ("_:" ++ name)%string /\ name_word (chars name).

(** The IRIs of a term. *)
Definition term_iri (t : term) (i : string) : Prop :=
  match t with
  | TmIri j => i = j
  | TmBlank _ => False
  | TmLit (RdfLiteral _ (TypeAny j)) => i = j
  | TmLit (RdfLiteral _ (TypeLang _)) => False
  end.
(** The IRI keeps its meaning in the scope: it is absolute and its scheme is not the name of a prefix. *)
Definition kept_iri (sc : scope) (i : string) : Prop :=
  exists scheme suffix, absolute i scheme suffix /\ forall prefix, ~ In (scheme, prefix) (sc_prefixes sc).
(** The identifier of a blank node is one ([Term] holds a [BlankIdBuf]). *)
Definition valid_blank (t : term) : Prop :=
  match t with TmBlank b => blank_suffix ("_:" ++ b) = Some b | _ => True end.
End Terms.
