(** * What it means to write back what was read (C100)

    Specification vocabulary for "hydrate then dehydrate".  Only the data types of the model and the notion of variable of a
    pattern ([MatchingSpec.v]) are used. *)

From Coq Require Import String List Bool Arith NArith Qcanon.
Import ListNotations.
From Verif Require Import Base BaseProofs Orders PatternModel MatchingModel MatchingSpec ValueModel LayoutModel HydrateModel HydrateSpec
  TermModel.
Open Scope list_scope.
Open Scope nat_scope.

(** ** The layouts *)

(** The variables [n], ..., [n + k - 1] are used by the patterns that come with them. *)
Definition used_where_introduced (n k : nat) (ps : list (qpat term)) : Prop := forall x, n <= x < n + k -> var_of ps x.

(** The value is not read in another named graph. *)
Definition no_named_graph (vf : vformat term) : Prop := vf_graph vf = None \/ vf_graph vf = Some None.

Definition plain_header (n : nat) (h : header term) : Prop := used_where_introduced n (h_intro h) (h_dataset h).
Definition plain_item (n : nat) (it : item_layout term) : Prop :=
  used_where_introduced n (it_intro it) (it_dataset it) /\ no_named_graph (it_value it).

(** The values a layout takes, from their shape only. *)
Definition takes (l : layout term) (v : value) : Prop :=
  match l with
  | Never => False
  | UnitL _ c => v = c
  | DataL KBoolean _ _ _ => exists b, v = VLit (LBool b)
  | DataL KNumber _ _ _ => exists n, v = VLit (LNum n)
  | DataL KByteString _ _ _ => exists s, v = VLit (LBytes s)
  | DataL (KTextString _) _ _ _ | IdL _ _ _ => exists s, v = VLit (LText s)
  | ProductL _ _ => exists m, v = VMap m
  | UnorderedL _ _ | OrderedL _ _ _ _ | SizedL _ _ => exists m, v = VList m
  | SumL _ _ | Always => True
  end.

Section Class.
Variable reg : registry term.

(** No value is taken by two variants. *)
Definition exclusive (vs : list (variant term)) : Prop :=
  forall i j vi vj li lj v, i <> j -> nth_error vs i = Some vi -> nth_error vs j = Some vj ->
    reg (vf_layout (it_value (va_item vi))) = Some li -> reg (vf_layout (it_value (va_item vj))) = Some lj ->
    takes li v -> takes lj v -> False.

Definition plain_layout (l : layout term) : Prop :=
  match l with
  | Never | Always => True
  | UnitL h _ | DataL _ h _ _ | IdL h _ _ => plain_header 1 h
  | ProductL h fs =>
      plain_header (h_input h) h /\ forall k f, In (k, f) fs -> plain_item (h_input h + h_intro h) (f_item f)
  | SumL h vs =>
      plain_header (h_input h) h /\ (forall va, In va vs -> plain_item (h_input h + h_intro h) (va_item va)) /\ exclusive vs
  | UnorderedL h it => plain_header (h_input h) h /\ plain_item (h_input h + h_intro h) it
  | OrderedL h node _ _ => plain_header (h_input h) h /\ plain_item (h_input h + h_intro h + 2) node
  | SizedL h its => plain_header (h_input h) h /\ forall it, In it its -> plain_item (h_input h + h_intro h) it
  end.

Definition plain_registry : Prop := forall ref l, reg ref = Some l -> plain_layout l.
End Class.

(** ** The terms *)

(** [normal_literal l l']: [l] is [l'], or the boolean or the decimal [l'] written in the normal form of its datatype. *)
Inductive normal_literal {X : Xsd} : rdf_literal -> rdf_literal -> Prop :=
| nl_refl l : normal_literal l l
| nl_true v : boolean_lexical v true ->
    normal_literal (RdfLiteral "true" (TypeAny xsd_boolean)) (RdfLiteral v (TypeAny xsd_boolean))
| nl_false v : boolean_lexical v false ->
    normal_literal (RdfLiteral "false" (TypeAny xsd_boolean)) (RdfLiteral v (TypeAny xsd_boolean))
| nl_decimal ty v v' n : is_decimal_type ty = true -> decimal_print n = Some v -> decimal_parse v' = Some n ->
    normal_literal (RdfLiteral v (TypeAny ty)) (RdfLiteral v' (TypeAny ty)).

Inductive normal_term {X : Xsd} : term -> term -> Prop :=
| nt_refl t : normal_term t t
| nt_literal l l' : normal_literal l l' -> normal_term (TmLit l) (TmLit l').

Inductive normal_graph {X : Xsd} : option term -> option term -> Prop :=
| ng_default : normal_graph None None
| ng_named g g' : normal_term g g' -> normal_graph (Some g) (Some g').

Definition normal_quad {X : Xsd} (q q' : quad term) : Prop :=
  normal_term (q_s q) (q_s q') /\ normal_term (q_p q) (q_p q') /\ normal_term (q_o q) (q_o q') /\ normal_graph (q_g q) (q_g q').

(** The term is its only normal form. *)
Definition is_normal {X : Xsd} (t : term) : Prop := forall t', normal_term t' t -> t' = t.

Definition term_of_quad (q : quad term) (t : term) : Prop := q_s q = t \/ q_p q = t \/ q_o q = t \/ q_g q = Some t.
