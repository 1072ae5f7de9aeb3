(** * The documents that compile: examples (C83) *)

From Coq Require Import String Ascii List Bool Arith NArith.
Import ListNotations.
From Verif Require Import Base BaseProofs Orders PatternModel ValueModel LayoutModel LayoutSpec
  MatchingSpec HydrateModel TermModel DehydrateModel DehydrateFinish AbsModel AbsSpec AbsProofs AbsProperties
  AbsMeaning AbsRedefine AbsAcceptSpec AbsAccept AbsExamples.
Open Scope list_scope.
Open Scope string_scope.

Local Existing Instance abs_iris.
Local Existing Instance abs_external.

(** The document of [AbsExamples.v], with a prefix, a base, hidden variables and two anonymous nested
    layouts, is well formed. *)
Example C83_example : exists ids, well_formed no_env person ids /\ NoDup ids.
Proof. apply C83_document. eexists _, _. exact (surjective_pairing _). Qed.

(** The identifiers of a document. *)
Definition two (i : string) : alayout :=
  AUnordered (with_id "http://e/list")
    {| ai_intro := ["value"]; ai_value := AFormatLayout (RefLayout (AUnit (with_id i) (VLit LUnit)));
       ai_dataset := []; ai_property := None |}.

Example two_ids i : is_iri i = true -> iri_denotes no_env i i -> well_formed no_env (two i) ["http://e/list"; i].
Proof.
  intros _ D. exists ["http://e/list"], [i]. split; [|split; [|reflexivity]].
  { exists "http://e/list". split; [|reflexivity]. apply (resolve_denotes "http://e/list" scope_default). reflexivity. }
  assert (forall h, ah_base h = None -> ah_prefixes h = [] -> header_env no_env h no_env) as HE.
  { intros h B P. split; [|now rewrite B]. intros name. split; [|reflexivity].
    intros p (before & after & E & _). rewrite P in E. now destruct before. }
  assert (forall j, header_ok no_env (with_id j) no_env) as HO.
  { intros j. split; [now apply HE|]. split; [intros name p []|]. split; [intros q []|intros pv []]. }
  exists no_env. split; [apply HO|]. split; [intros q []|]. split; [intros p; discriminate|].
  split; [right; now left|]. exists [i], []. split; [|split; [|reflexivity]].
  - exists i. auto.
  - split; [|reflexivity]. exists no_env. apply HO.
Qed.

(** Accepted with distinct identifiers, and rejected when they are the same. *)
Example C83_rejected_example :
  fst (build_document (two "http://e/unit") []) = Ok (TmIri "http://e/list") /\
  fst (build_document (two "http://e/list") []) = Err LayoutRedefinition /\
  ~ (exists ids, well_formed no_env (two "http://e/list") ids /\ NoDup ids).
Proof.
  split; [reflexivity|]. split; [reflexivity|]. intros H. apply C83_document in H as (r & b & H).
  assert (fst (build_document (two "http://e/list") []) = Err LayoutRedefinition) as E by reflexivity. rewrite H in E. discriminate.
Qed.

Print Assumptions C83_accepted.
Print Assumptions C83_defines.
Print Assumptions C83_document.
