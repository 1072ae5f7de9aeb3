(** * Numbers out of the range of their datatype (C95) *)

From Coq Require Import String List Bool Arith NArith ZArith QArith Qcanon Permutation Lia.
Import ListNotations.
From Verif Require Import Base BaseProofs Orders PatternModel MatchingModel ValueModel LayoutModel HydrateModel TermModel
  DehydrateModel RoundTripSpec GenDataModel GenDataSpec.
Open Scope list_scope.
Open Scope nat_scope.
Open Scope string_scope.

(** The layout of the numbers of a datatype, as in the prelude. *)
Definition number_layout (ty : string) : layout term := DataL KNumber (Header 1 0 []) (PVar 0) (TmIri ty).

Section Unchecked.
Context {X : Xsd} {IS : IriSyntax}.

(** Whatever the datatype derived from [xsd:decimal], every number that is a decimal is written with it … *)
Theorem C95_dehydrate_unchecked order reg ref ty n s fuel :
  (forall l, Permutation (order l) l) -> reg ref = Some (number_layout ty) ->
  is_decimal_type ty = true -> decimal_print n = Some s ->
  dehydrate order reg (S fuel) (VLit (LNum n)) ref default_options = Ok ([], [TmLit (RdfLiteral s (TypeAny ty))]).
Proof.
  intros P E T D. unfold dehydrate. rewrite E. cbn [ok_or bind input_count number_layout h_input seq map dehydrate_with]. unfold dehydrate_body. rewrite E.
  assert (O : order [] = []) by (apply Permutation_nil, Permutation_sym, P).
  cbn -[is_decimal_type decimal_print]. unfold dehydrate_number, bindM. cbn -[is_decimal_type decimal_print].
  rewrite T, D. cbn. rewrite O. reflexivity.
Qed.

(** … and every literal that is a decimal is read with it. *)
Theorem C95_hydrate_unchecked (D : dataset term) reg ref ty n s fuel g :
  reg ref = Some (number_layout ty) -> is_decimal_type ty = true -> decimal_parse s = Some n ->
  hydrate_with D reg (S fuel) g ref [TmLit (RdfLiteral s (TypeAny ty))] = Ok (TLit (TNum n ref)).
Proof.
  intros E T P. cbn [hydrate_with]. unfold hydrate_body. rewrite E. cbn [ok_or bind input_count number_layout h_input length Nat.eqb].
  cbn -[is_decimal_type decimal_parse eqb]. destruct (eqb_spec ty ty) as [_|N]; [|contradiction]. cbn -[is_decimal_type decimal_parse].
  unfold hydrate_number_value. rewrite T, P. reflexivity.
Qed.
(** Exactly: a number is written when the datatype derives from [xsd:decimal] and the number is a decimal; nothing else of
    the datatype is considered. *)
Theorem C95_dehydrate order reg ref ty n fuel r :
  (forall l, Permutation (order l) l) -> reg ref = Some (number_layout ty) ->
  (dehydrate order reg (S fuel) (VLit (LNum n)) ref default_options = Ok r <->
   is_decimal_type ty = true /\ exists s, decimal_print n = Some s /\ r = ([], [TmLit (RdfLiteral s (TypeAny ty))])).
Proof.
  intros P E. split.
  - intros H. assert (is_decimal_type ty = true /\ exists s, decimal_print n = Some s) as [T [s D]].
    { revert H. unfold dehydrate. rewrite E. cbn [ok_or bind input_count number_layout h_input seq map dehydrate_with]. unfold dehydrate_body. rewrite E.
      cbn -[is_decimal_type decimal_print]. unfold dehydrate_number, bindM. cbn -[is_decimal_type decimal_print].
      destruct (is_decimal_type ty); cbn -[decimal_print]; [|discriminate].
      destruct (decimal_print n) as [s|]; cbn; [|discriminate]. intros _. split; [reflexivity|eauto]. }
    split; [exact T|]. exists s. split; [exact D|].
    rewrite (C95_dehydrate_unchecked order reg ref ty n s fuel P E T D) in H. congruence.
  - intros [T (s & D & ->)]. now apply C95_dehydrate_unchecked.
Qed.

(** A literal of any datatype is read when its datatype is that of the layout, which derives from [xsd:decimal], and its
    lexical value is a decimal. *)
Theorem C95_hydrate (D : dataset term) reg ref ty ty' s fuel g tv :
  reg ref = Some (number_layout ty) ->
  (hydrate_with D reg (S fuel) g ref [TmLit (RdfLiteral s (TypeAny ty'))] = Ok tv <->
   ty' = ty /\ is_decimal_type ty = true /\ exists n, decimal_parse s = Some n /\ tv = TLit (TNum n ref)).
Proof.
  intros E. cbn [hydrate_with]. unfold hydrate_body. rewrite E. cbn [ok_or bind input_count number_layout h_input length Nat.eqb].
  cbn -[is_decimal_type decimal_parse eqb]. destruct (eqb_spec ty' ty) as [->|N]; cbn -[is_decimal_type decimal_parse].
  - unfold hydrate_number_value. destruct (is_decimal_type ty); cbn -[decimal_parse].
    + destruct (decimal_parse s) as [n|]; cbn; split.
      * intros [= <-]. eauto.
      * intros (_ & _ & m & [= <-] & ->). reflexivity.
      * discriminate.
      * intros (_ & _ & m & [=] & _).
    + split; [discriminate|]. intros (_ & [=] & _).
  - split; [discriminate|]. intros (-> & _). contradiction.
Qed.
End Unchecked.
