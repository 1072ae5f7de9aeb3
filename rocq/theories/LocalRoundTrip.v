(** * Round trips with any other layouts around (C30, C88, C94) *)

From Coq Require Import String List Bool Arith NArith QArith Qcanon Permutation Sorted Lia.
Import ListNotations.
From Verif Require Import Base BaseProofs Orders PatternModel MatchingModel MatchingSpec ValueModel LayoutModel LayoutSpec HydrateModel
  TermModel CborModel DehydrateModel DehydrateSpec DehydrateProofs DehydrateFinish DehydrateProperties RoundTripSpec RoundTripProperties
  AbsModel AbsJsonModel CliModel CliSpec CliData CliDataProperties LocalProperties.
Open Scope list_scope.
Open Scope nat_scope.

(** C30 (what holds, locally).  Only the layouts reached from the given one have to be tree layouts:
    the registry used agrees on them with a tree registry. *)
Theorem C30_round_trip_local_partial {Gn} {X : Xsd} {IS : IriSyntax} (opts : options Gn) reg tree order
    (order_perm : forall l, Permutation (order l) l) fuel v ref ds vals D :
  agree_from reg tree ref -> tree_registry tree ->
  Proper tree ref v -> distinct_identifiers tree ref v -> not_terminators tree ref v ->
  blank_identifiers opts -> fresh_identifiers opts -> decimals_read_back X ->
  dehydrate order reg fuel v ref opts = Ok (ds, vals) -> enumerates D (fun q => In q ds) ->
  exists tv N, (forall fuel', N <= fuel' -> hydrate D reg fuel' ref vals = Ok tv) /\
    Same tree ref v (into_untyped tv) /\ (no_sets tree -> into_untyped tv = v).
Proof.
  intros A TR HP DI NT BI FI DR H EN. rewrite (C94_dehydrate_public order opts reg tree fuel v ref A) in H.
  destruct (C30_round_trip_partial opts tree order order_perm fuel v ref ds vals D TR HP DI NT BI FI DR H EN) as (tv & N & HY & SA).
  exists tv, N. split; [|split; [exact SA|]].
  - intros fuel' LE. unfold hydrate. rewrite (C94_hydrate D reg tree fuel' None ref vals A). exact (HY fuel' LE).
  - intros NS. symmetry. eapply same_equal; eassumption.
Qed.

Section Cli.
Context {TS : TextSyntax} {IS : IriSyntax} {AE : AbsExternal} {X : Xsd} {CC : Cmp cbor} {F : Type} {FM : Formats F}.
Variables (from_f64 : F -> option Qc) (to_f64 : Qc -> F).
Variable index : list (quad term) -> dataset term.
Variable order : list (quad res) -> list (quad res).
Variable lines : list (quad term) -> list (quad term).
Variable extra_properties : term -> option (list (term * term)).
Variable is_unsigned_long : string -> bool.
Notation run_command_with := (run_command from_f64 to_f64 index order lines extra_properties is_unsigned_long).

(** C94 (command line).  The commands given a layout only depend on the layouts reached from it. *)
Theorem C94_command stdin fuel c r reg reg' d d' : uses_layout c (Some r) -> agree_from reg reg' r ->
  run_command_with stdin fuel c reg d = run_command_with stdin fuel c reg' d'.
Proof.
  intros U A. inversion U; subst; cbn [run_command default_get bind].
  - destruct (rdf_load stdin); cbn [bind]; try reflexivity. unfold hydrate. now rewrite (C94_hydrate _ reg reg' fuel None r subjects A).
  - destruct (tree_load from_f64 input stdin) as [v|e|w|]; cbn [bind]; try reflexivity.
    now rewrite (C94_dehydrate_public order default_options reg reg' fuel v r A).
Qed.

Hypothesis FL : format_laws to_f64.
Hypothesis DL : dataset_laws index order lines.

(** C88 (what holds, locally). *)
Theorem C88_round_trip_local_partial fuel f r v reg tree d d' stdin text : agree_from reg tree r -> tree_registry tree -> decimals_read_back X ->
  Proper tree r v -> distinct_identifiers tree r v -> not_terminators tree r v -> ~ leaf tree r ->
  holds from_f64 f stdin v ->
  run_command_with stdin fuel (Dehydrate f (Some r)) reg d = Ok text ->
  exists subject w N, (subject = TmBlank "input0" \/ exists i ids, Identifiers tree r v ids /\ In i ids /\ subject = TmIri i) /\
    Same tree r v w /\
    (writable from_f64 to_f64 Json v ->
     forall fuel' pretty, N <= fuel' -> exists text',
       run_command_with text fuel' (Hydrate Json (Some r) [subject] pretty) reg d' = Ok text' /\ holds from_f64 Json text' w).
Proof.
  intros A TR DR HP DI NT NL HO H. rewrite (C94_command stdin fuel _ r reg tree d d (uses_dehydrate _ _) A) in H.
  destruct (C88_round_trip_partial from_f64 to_f64 index order lines extra_properties is_unsigned_long FL DL
    fuel f r v tree d d' stdin text TR DR HP DI NT NL HO H) as (subject & w & N & SU & SA & HY).
  exists subject, w, N. split; [exact SU|]. split; [exact SA|]. intros WR fuel' pretty LE.
  rewrite (C94_command text fuel' _ r reg tree d' d' (uses_hydrate _ _ _ _) A). exact (HY WR fuel' pretty LE).
Qed.
End Cli.
