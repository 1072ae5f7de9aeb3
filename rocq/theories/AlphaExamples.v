(** * Names of variables and spellings of IRIs: witnesses (C108) *)

From Coq Require Import String Ascii List Bool Arith NArith ZArith Lia.
Import ListNotations.
From Verif Require Import Base BaseProofs Orders PatternModel ValueModel LayoutModel LayoutSpec
  MatchingSpec HydrateModel TermModel DehydrateModel AbsModel AbsSpec AbsProofs AbsProperties
  AbsMeaning AbsRedefine AbsScoping AbsAcceptSpec AbsAccept AbsExamples AlphaSpec AlphaProofs AlphaProperties.
Open Scope list_scope.
Open Scope nat_scope.
Open Scope string_scope.

Local Existing Instance abs_iris.
Local Existing Instance abs_external.

(** The document [person] (AbsExamples.v) with other names, without base and with another prefix, or with IRIs in full. *)
Definition person' : alayout :=
  AProduct {| ah_base := None; ah_prefixes := [("p", "http://example.org/")];
              ah_id := Some "http://example.org/Person"; ah_input := ["someone"]; ah_intro := ["alias"];
              ah_dataset := [Quad (AVar "someone") (AIri "p:same") (AVar "alias") None]; ah_extra := [] |}
    [(VLit (LText "id"),
      AField {| ai_intro := ["other"]; ai_value := AFormat (RefLayout id_layout) [AVar "someone"] None;
                ai_dataset := [Quad (AVar "other") (AIri "http://base/knows") (AVar "someone") None];
                ai_property := None |} true);
     (VLit (LText "name"),
      AField {| ai_intro := ["value"];
                ai_value := AFormatLayout (RefLayout (ALiteralL (AKTextString None None)
                              {| ah_base := Some "http://example.org/t"; ah_prefixes := []; ah_id := None; ah_input := ["text"];
                                 ah_intro := ["tag"];
                                 ah_dataset := [Quad (AVar "text") (AIri "ag") (AVar "tag") None];
                                 ah_extra := [] |} None));
                ai_dataset := []; ai_property := Some (AIri "http://example.org/name") |} false)].

Lemma iri_by e e' sc sc' i i' j : agrees e sc -> agrees e' sc' -> resolve i sc = Ok j -> resolve i' sc' = Ok j -> same_iri e e' i i'.
Proof. intros A A' E E' k. rewrite (denotes_resolve _ _ _ _ A), (denotes_resolve _ _ _ _ A'). rewrite E, E'. reflexivity. Qed.

Lemma name_by ns ns' x x' k : scope_variable (with_intro ns scope_default) x = Ok k -> scope_variable (with_intro ns' scope_default) x' = Ok k ->
  same_name ns ns' x x'.
Proof.
  intros E E' y. destruct (sees_intro ns _ _ sees_default) as [_ S], (sees_intro ns' _ _ sees_default) as [_ S'].
  cbn [app] in S, S'. rewrite <- S, <- S', E, E'. reflexivity.
Qed.

Lemma header_by env env' sc sc' h h' sc1 sc1' Q : agrees env sc -> agrees env' sc' ->
  with_header h sc = Ok sc1 -> with_header h' sc' = Ok sc1' ->
  same_option (same_iri env env') (ah_id h) (ah_id h') ->
  length (ah_input h) = length (ah_input h') -> length (ah_intro h) = length (ah_intro h') ->
  (forall e e', agrees e sc1 -> agrees e' sc1' ->
    Forall2 (same_quad e e' (header_names h) (header_names h')) (ah_dataset h) (ah_dataset h') /\
    Forall2 (same_extra e e') (ah_extra h) (ah_extra h') /\ Q e e') ->
  same_header env env' h h' Q.
Proof.
  intros A A' E E' I L1 L2 K. split; [exact I|split; [exact L1|split; [exact L2|split]]].
  - split; intros _; [exists (env_of sc1'); exact (header_scope _ _ _ _ A' E')|exists (env_of sc1); exact (header_scope _ _ _ _ A E)].
  - intros e e' [O1 O2] [O1' O2']. destruct (scope_header _ _ _ _ A O1 O2) as (s & X & Y), (scope_header _ _ _ _ A' O1' O2') as (s' & X' & Y').
    rewrite E in X. rewrite E' in X'. injection X as <-. injection X' as <-. now apply K.
Qed.

Ltac same :=
  repeat first
    [ match goal with |- same_iri _ _ _ _ => eapply iri_by; [eassumption|eassumption|vm_compute; reflexivity|vm_compute; reflexivity] end
    | match goal with |- same_name _ _ _ _ => eapply name_by; vm_compute; reflexivity end
    | match goal with |- _ /\ _ => split end
    | match goal with |- Forall2 _ _ _ => constructor end
    | match goal with |- same_header _ _ _ _ _ =>
        eapply header_by; [eassumption|eassumption|vm_compute; reflexivity|vm_compute; reflexivity| |reflexivity|reflexivity|intros ? ? ? ?] end
    | match goal with |- True => exact Logic.I end
    | match goal with |- _ = _ => reflexivity end
    | progress cbn [same_body same_layout all2 same_field same_item same_variant same_node same_format same_ref same_kind same_option same_pattern
        same_quad person person' id_layout header0 header_names fst snd af_item af_required ai_intro ai_value ai_dataset ai_property ah_id ah_input ah_intro ah_dataset
        ah_extra app q_s q_p q_o q_g]
    | progress unfold same_field, same_item, same_variant, same_quad ].

Example person_same : same_layout no_env no_env person person'.
Proof.
  assert (agrees no_env scope_default) as A by (split; reflexivity). unfold person, person'. same.
Qed.

(** The two documents define the same layouts. *)
Example person_compiles : exists s,
  build_with_context term_context person (0, []) = (Ok (TmIri "http://example.org/Person"), s) /\
  build_with_context term_context person' (0, []) = (Ok (TmIri "http://example.org/Person"), s).
Proof.
  destruct (build_with_context term_context person (0, [])) as [o s] eqn:E. pose proof E as E1. vm_compute in E1. injection E1 as <- E1.
  exists s. split; [reflexivity|]. exact (C108_compiles term_context _ _ _ _ _ person_same E).
Qed.

(** Renaming: every name that is not "value" or "self" is prefixed. *)
Definition prime (x : string) : string := if String.eqb x "value" then x else if String.eqb x "self" then x else "_" ++ x.
Lemma prime_injective x y : prime x = prime y -> x = y.
Proof.
  unfold prime. destruct (String.eqb_spec x "value") as [->|N1], (String.eqb_spec y "value") as [->|N2]; auto.
  - destruct (String.eqb_spec y "self") as [->|]; [auto|discriminate].
  - destruct (String.eqb_spec x "self") as [->|]; [auto|discriminate].
  - destruct (String.eqb_spec x "self") as [->|], (String.eqb_spec y "self") as [->|]; auto; try discriminate. intros H. now injection H.
Qed.
Example person_renamed : build_document (rename prime person') [] = build_document person' [] /\ rename prime person' <> person'.
Proof. split; [vm_compute; reflexivity|discriminate]. Qed.
Example person_renamed' o s o' s' : build_with_context term_context person' (0, []) = (o, s) ->
  build_with_context term_context (rename prime person') (0, []) = (o', s') -> same_outcome o o' /\ s' = s.
Proof. exact (C108_renamed prime prime_injective eq_refl eq_refl term_context person' (0, []) o s o' s'). Qed.

(** The name "value" has a role: the documents where it is renamed too do not compile. *)
Example value_not_renamed : fst (build_document (rename (fun x => "_" ++ x) person') []) = Err (UndeclaredVariable "value").
Proof. vm_compute. reflexivity. Qed.

(** Errors: the name in the error is the one of the document. *)
Example undeclared_renamed :
  fst (build_document parent_variable []) = Err (UndeclaredVariable "item") /\
  fst (build_document (rename prime parent_variable) []) = Err (UndeclaredVariable "_item").
Proof. split; vm_compute; reflexivity. Qed.

Print Assumptions C108_same.
Print Assumptions C108_compiles.
Print Assumptions C108_renamed.
