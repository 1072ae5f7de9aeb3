(** * The command line: a value that does not come back *)

From Coq Require Import String Ascii List Bool Arith NArith ZArith QArith Qcanon Permutation Sorted Lia.
Import ListNotations.
From Verif Require Import Base BaseProofs Orders PatternModel MatchingModel MatchingSpec ValueModel LayoutModel HydrateModel
  HydrateProperties TermModel JsonModel JsonSpec CborModel LayoutSpec HydrateExamples AbsModel AbsJsonModel DehydrateModel DehydrateExamples RoundTripSpec
  RoundTripExamples CliModel CliSpec CliData CliCodec CliDataProperties CliExamples.
Open Scope list_scope.
Open Scope nat_scope.
Open Scope string_scope.
Local Existing Instances cli_text cli_iris cli_external cli_xsd cli_cbor.

Lemma hydrate_determined (D : dataset term) reg fuel r vals o :
  hydrate D reg fuel r vals = o -> o <> OutOfFuel ->
  forall fuel' tv, hydrate D reg fuel' r vals = Ok tv -> o = Ok tv.
Proof.
  unfold hydrate. intros H N fuel' tv H'. destruct (le_lt_dec fuel fuel') as [L|L].
  - subst o. rewrite (C11_fuel D reg fuel fuel' None r vals N L) in H'. exact H'.
  - rewrite (C11_fuel D reg fuel' fuel None r vals) in H; [congruence|rewrite H'; discriminate|lia].
Qed.

(** C88 in full is false: a set of literals with a duplicate, on the command line.  It is accepted and written, but
    what is read from [_:input0] is another value, whatever the fuel. *)
Definition tags_registry : registry term :=
  layouts_get [(iri "tags", UnorderedL no_header (prop "tag" (iri "string")));
    (iri "string", DataL (KTextString None) no_header (PVar 0) (iri xsd_string))].
Definition tags_value : value := VList [vtext "a"; vtext "a"].
Definition tags_input : string := json_print false (JArr [JStr "a"; JStr "a"]).
Theorem C88_duplicates_refuted : exists reg r v stdin text,
  tree_registry reg /\ ~ leaf reg r /\
  holds (Some : Qc -> option Qc) Json stdin v /\ writable (Some : Qc -> option Qc) (fun q => q) Json v /\
  command_sample stdin 9 (Dehydrate Json (Some r)) reg DefaultNone = Ok text /\
  forall fuel pretty text', command_sample text fuel (Hydrate Json (Some r) [TmBlank "input0"] pretty) reg DefaultNone = Ok text' ->
    ~ holds (Some : Qc -> option Qc) Json text' v.
Proof.
  exists tags_registry, (iri "tags"), tags_value, tags_input.
  eexists. split; [|split; [|split; [|split; [|split]]]].
  - refine (layouts_get_all _ _ _). constructor; [|constructor; [|constructor]]; cbn [snd].
    + apply (tl_set _ []). intros [].
    + apply (tl_data _ (KTextString None) xsd_string). exact Logic.I.
  - vm_compute. intros [].
  - eexists. split; vm_compute; reflexivity.
  - intro N. inversion N as [| | | |? v I H]; subst. destruct I as [<-|[<-|[]]]; inversion H.
  - vm_compute. reflexivity.
  - intros fuel pretty text' H (j & P & V). unfold run_command in H. cbn [default_get bind] in H.
    apply bind_Ok in H as (ds & L & H). vm_compute in L. injection L as <-.
    apply bind_Ok in H as (tv & HY & H).
    match type of HY with map_err _ ?o = _ => destruct o as [tv'| | |] eqn:E; try discriminate HY end. injection HY as ->.
    eapply (hydrate_determined _ _ 20) in E; [|vm_compute; reflexivity|discriminate]. injection E as <-.
    cbn [write_typed] in H. vm_compute in H. destruct pretty; injection H as <-; vm_compute in P; injection P as <-; vm_compute in V; discriminate V.
Qed.

Print Assumptions C88_duplicates_refuted.
