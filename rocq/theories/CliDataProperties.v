(** * Properties of the command line: the data *)

From Coq Require Import String Ascii List Bool Arith NArith ZArith QArith Qcanon Permutation Sorted Lia.
Import ListNotations.
From Verif Require Import Base BaseProofs Orders PatternModel MatchingModel MatchingSpec ValueModel ValueProofs LayoutModel HydrateModel
  TermModel NumberModel NumberSpec NumberProperties JsonModel JsonSpec JsonProperties CborModel LayoutSpec DehydrateModel DehydrateSpec DehydrateProofs DehydrateFinish
  DehydrateProperties RoundTripSpec RoundTripProperties AbsModel AbsJsonModel CliModel CliSpec CliData.
Open Scope list_scope.
Open Scope nat_scope.

Lemma to_json_wf v j : value_wf v -> value_to_json v = Ok j -> json_wf j.
Proof.
  intros W. revert j. induction v as [l|m IH|l IH] using value_ind'; intros j.
  - destruct l; cbn; try (intros [= <-]; constructor).
    unfold num_to_json, number_to_json. destruct (decimal_string n) as [[s|]|[]| |]; cbn; try discriminate.
    destruct (json_number s) eqn:E; cbn; [|discriminate]. intros [= <-]. now constructor.
  - rewrite value_to_json_map. intros H. apply bind_Ok in H as (o & Ho & H). injection H as <-.
    inversion_clear W as [|? S W'|].
    destruct (entries_ok m [] o) as (new & -> & F); [now apply bt_wf_NoDup|intros s []|exact Ho|].
    cbn [app]. constructor. intros k j' Hin. destruct (AbsProofs.Forall2_In_r _ _ _ _ F Hin) as ([k0 v0] & H0 & _ & E).
    rewrite Forall_forall in IH. destruct (IH _ H0) as [_ I2]. exact (I2 (proj2 (W' _ _ H0)) _ E).
  - cbn. intros H. apply bind_Ok in H as (o & Ho & H). injection H as <-.
    apply traverse_Ok in Ho. inversion_clear W as [| |? W']. constructor. intros j' Hin.
    destruct (AbsProofs.Forall2_In_r _ _ _ _ Ho Hin) as (v0 & H0 & E). rewrite Forall_forall in IH. exact (IH _ H0 (W' _ H0) _ E).
Qed.

Section Data.
Context {F : Type} {FM : Formats F}.
Variables (from_f64 : F -> option Qc) (to_f64 : Qc -> F).

Lemma list_max_map {A B} (f : A -> nat) (g : B -> nat) (P : A -> B -> Prop) l l' :
  (forall a b, P a b -> f a = g b) -> Forall2 P l l' -> list_max (map f l) = list_max (map g l').
Proof. intros H. induction 1 as [|a b l l' Hab _ IH]; [reflexivity|]. cbn [map]. unfold list_max in *. cbn [fold_right]. now rewrite IH, (H _ _ Hab). Qed.

Lemma serialize_native v s : value_serialize to_f64 v = Ok s -> cbor_native to_f64 s /\ serde_depth s = value_depth v.
Proof.
  revert s. induction v as [l|m IH|l IH] using value_ind'; intros s H; cbn [value_serialize] in H.
  - destruct l as [|b|n|b|t]; cbn [literal_serialize] in H; try (injection H as <-; split; [constructor|reflexivity]).
    apply bind_Ok in H as (x & E & H). destruct (C45_native_exact n x E) as [A _].
    destruct x as [z|z|q]; injection H as <-; (split; [|reflexivity]).
    + apply cn_u64. apply (A z eq_refl).
    + apply cn_i64. destruct (A z eq_refl) as [Q R]. split; [apply R|].
      destruct (Z.lt_ge_cases z 0) as [L|L]; [exact L|exfalso].
      unfold as_native in E. destruct (is_integer n); [|discriminate E].
      destruct (Z.ltb_spec (numer n) 0) as [LT|GE].
      * subst n. pose proof (proj1 (of_Z_fraction z)) as E1. rewrite E1 in LT. lia.
      * destruct (_ <=? _)%Z; [|discriminate E]. destruct (first_u64_digit (numer n)); discriminate E.
    + apply cn_f64.
  - apply bind_Ok in H as (m' & E & H). injection H as <-. apply traverse_Ok in E.
    assert (K : Forall2 (fun kv e => (cbor_native to_f64 (fst e) /\ serde_depth (fst e) = value_depth (fst kv)) /\
                                     (cbor_native to_f64 (snd e) /\ serde_depth (snd e) = value_depth (snd kv))) m m').
    { clear - IH E. induction E as [|kv e m m' H _ IHE]; constructor; inversion IH as [|? ? [I1 I2] I3]; subst; [|auto].
      apply bind_Ok in H as (k & Hk & H). apply bind_Ok in H as (v & Hv & H). injection H as <-. cbn [fst snd]. split; auto. }
    split.
    + apply cn_map. intros k s Hin. destruct (AbsProofs.Forall2_In_r _ _ _ _ K Hin) as (kv & _ & [A _] & [B _]). auto.
    + cbn [serde_depth value_depth]. f_equal. symmetry. eapply list_max_map; [|exact K]. cbv beta. intros a b [[_ ->] [_ ->]]. reflexivity.
  - apply bind_Ok in H as (m' & E & H). injection H as <-. apply traverse_Ok in E.
    assert (K : Forall2 (fun v e => cbor_native to_f64 e /\ serde_depth e = value_depth v) l m').
    { clear - IH E. induction E as [|kv e m m' H _ IHE]; constructor; inversion IH as [|? ? I1 I3]; subst; auto. }
    split.
    + apply cn_seq. intros s Hin. destruct (AbsProofs.Forall2_In_r _ _ _ _ K Hin) as (kv & _ & A & _). auto.
    + cbn [serde_depth value_depth]. f_equal. symmetry. eapply list_max_map; [|exact K]. cbv beta. intros a b [_ ->]. reflexivity.
Qed.

Lemma holds_load f text v : holds from_f64 f text v <-> tree_load from_f64 f text = Ok v.
Proof.
  destruct f; cbn [holds tree_load].
  - split.
    + intros (j & -> & E). cbn [ok_or bind]. now rewrite E.
    + destruct (json_parse text) as [j|]; [|discriminate]. cbn [ok_or bind]. intro H. exists j. split; [reflexivity|].
      destruct (value_from_json j) as [v'|e| |]; try discriminate H; [injection H as ->; reflexivity|destruct e].
  - split.
    + intros (s & -> & E). cbn [ok_or bind]. now rewrite E.
    + destruct (cbor_parse text) as [s|]; [|discriminate]. cbn [ok_or bind]. intro H. exists s. split; [reflexivity|].
      destruct (value_deserialize from_f64 s) as [v'|e| |]; try discriminate H; (injection H as ->; reflexivity).
Qed.
Lemma holds_wf f text v : holds from_f64 f text v -> value_wf v.
Proof. destruct f; intros (x & _ & E); [exact (from_json_wf _ _ E)|exact (deserialize_wf _ _ _ E)]. Qed.

Lemma write_back f v pretty : format_laws to_f64 -> value_wf v -> writable from_f64 to_f64 f v ->
  exists text, write_untyped to_f64 f v pretty = Ok text /\ holds from_f64 f text v.
Proof.
  intros LW W WR. destruct f; cbn [writable write_untyped holds] in *.
  - destruct (C46_fails_exactly_partial v) as [(j & E & _)|(e & _ & N)]; [|contradiction]. rewrite E. cbn [map_err bind].
    eexists. split; [reflexivity|]. exists j. split; [apply (json_reads_back _ LW), (to_json_wf _ _ W E)|exact (C46_round_trip _ _ W E)].
  - destruct WR as [N D]. destruct (C68_serde_round_trip_partial to_f64 from_f64 v W N) as (s & E & E'). rewrite E. cbn [no_error bind].
    eexists. split; [reflexivity|]. exists s. split; [|exact E']. destruct (serialize_native _ _ E) as [CN DE].
    apply (cbor_reads_back _ LW); [exact CN|]. now rewrite DE.
Qed.
End Data.

Section Cli.
Context {TS : TextSyntax} {IS : IriSyntax} {AE : AbsExternal} {X : Xsd} {CC : Cmp cbor} {F : Type} {FM : Formats F}.
Variables (from_f64 : F -> option Qc) (to_f64 : Qc -> F).
Variable index : list (quad term) -> dataset term.
Variable order : list (quad res) -> list (quad res).
Variable lines : list (quad term) -> list (quad term).
Variable extra_properties : term -> option (list (term * term)).
Variable is_unsigned_long : string -> bool.
Notation run_command_with := (run_command from_f64 to_f64 index order lines extra_properties is_unsigned_long).
Hypothesis FL : format_laws to_f64.
Hypothesis DL : dataset_laws index order lines.

Lemma load_written qs : exists ds, rdf_load (rdf_write (lines qs)) = Ok ds /\ NoDup ds /\ forall q, In q ds <-> In q qs.
Proof.
  unfold rdf_load. rewrite (nquads_reads_back _ FL). cbn [ok_or bind]. eexists. split; [reflexivity|]. split.
  - apply ds_insert_all_NoDup. constructor.
  - intro q. rewrite ds_insert_all_In. assert (P := lines_all _ _ _ DL qs). split.
    + intros [H|[]]. eapply Permutation_in; eassumption.
    + intro H. left. eapply Permutation_in; [apply Permutation_sym|]; eassumption.
Qed.

(** C89.  Conversion keeps the value, when it can be written in the format. *)
Theorem C89_tree_partial fuel f f' pretty stdin v reg d : holds from_f64 f stdin v -> writable from_f64 to_f64 f' v ->
  exists text, run_command_with stdin fuel (ConvertTree f f' pretty) reg d = Ok text /\ holds from_f64 f' text v.
Proof.
  intros H W. destruct (write_back from_f64 to_f64 f' v pretty FL (holds_wf _ _ _ _ H) W) as (text & E & H').
  exists text. split; [|exact H']. cbn [run_command]. apply holds_load in H. rewrite H. exact E.
Qed.

(** To JSON: a conversion that succeeds keeps the value; a value that comes from JSON is converted, unless it has a number lower
    than or equal to -1: then the conversion fails. *)
Theorem C89_to_json fuel f pretty stdin reg d text :
  run_command_with stdin fuel (ConvertTree f Json pretty) reg d = Ok text ->
  exists v, holds from_f64 f stdin v /\ holds from_f64 Json text v.
Proof.
  cbn [run_command]. intro H. apply bind_Ok in H as (v & L & H). apply holds_load in L. exists v. split; [exact L|].
  cbn [write_untyped] in H. destruct (value_to_json v) as [j|e| |] eqn:E; try discriminate H. injection H as <-.
  pose proof (holds_wf _ _ _ _ L) as W. exists j. split; [apply (json_reads_back _ FL), (to_json_wf _ _ W E)|exact (C46_round_trip _ _ W E)].
Qed.
Theorem C89_json_json_partial fuel pretty stdin reg d v : holds from_f64 Json stdin v ->
  (~ NotJson (fun q => q <= - (1))%Qc v /\
     exists text, run_command_with stdin fuel (ConvertTree Json Json pretty) reg d = Ok text /\ holds from_f64 Json text v) \/
  (NotJson (fun q => q <= - (1))%Qc v /\ exists e, run_command_with stdin fuel (ConvertTree Json Json pretty) reg d = Err (CliNonJson e)).
Proof.
  intros H. pose proof (holds_wf _ _ _ _ H) as W. assert (H' := H). apply holds_load in H'. cbn [run_command]. rewrite H'. cbn [bind write_untyped].
  destruct (C46_fails_exactly_partial v) as [(j & E & N)|(e & E & N)]; rewrite E; cbn [map_err bind].
  - left. split.
    + intro N'. apply N. clear - N'. induction N'.
      * apply nj_bytes.
      * apply nj_num. now right.
      * eapply nj_key; eassumption.
      * eapply nj_value; eassumption.
      * eapply nj_item; eassumption.
    + eexists. split; [reflexivity|]. exists j. split; [apply (json_reads_back _ FL), (to_json_wf _ _ W E)|exact (C46_round_trip _ _ W E)].
  - right. split; [|eauto]. destruct H as (j & _ & P). exact (from_json_refused _ _ P N).
Qed.
(** The full claim is false: a number below, or zero to CBOR. *)
Theorem C89_json_refuted fuel pretty stdin reg d : json_parse stdin = Some (JNum "-1") ->
  holds from_f64 Json stdin (VLit (LNum (Q2Qc (-1 # 1)))) /\
  exists e, run_command_with stdin fuel (ConvertTree Json Json pretty) reg d = Err (CliNonJson e).
Proof.
  intro P. assert (H : holds from_f64 Json stdin (VLit (LNum (Q2Qc (-1 # 1))))).
  { exists (JNum "-1"). split; [exact P|]. vm_compute. reflexivity. }
  split; [exact H|]. apply holds_load in H. cbn [run_command]. rewrite H. eexists. vm_compute. reflexivity.
Qed.
Theorem C89_cbor_refuted fuel pretty stdin reg d : json_parse stdin = Some (JNum "0") ->
  holds from_f64 Json stdin (VLit (LNum (Q2Qc (0 # 1)))) /\
  exists w, run_command_with stdin fuel (ConvertTree Json Cbor pretty) reg d = Panic w.
Proof.
  intro P. assert (H : holds from_f64 Json stdin (VLit (LNum (Q2Qc (0 # 1))))).
  { exists (JNum "0"). split; [exact P|]. vm_compute. reflexivity. }
  split; [exact H|]. apply holds_load in H. cbn [run_command]. rewrite H. eexists. reflexivity.
Qed.

(** Quads: the conversion succeeds exactly when the input can be read, and keeps the set. *)
Theorem C89_rdf fuel stdin reg d :
  (exists G, holds_quads stdin G) <-> exists text, run_command_with stdin fuel ConvertRdf reg d = Ok text.
Proof.
  cbn [run_command]. unfold rdf_load. split.
  - intros (G & qs & -> & _). eexists. reflexivity.
  - intros (t & H). destruct (nquads_parse stdin) as [qs|] eqn:E; [|discriminate H]. exists (fun q => In q qs), qs. split; [exact E|reflexivity].
Qed.
Theorem C89_rdf_quads fuel stdin reg d text G : holds_quads stdin G ->
  run_command_with stdin fuel ConvertRdf reg d = Ok text -> holds_quads text G.
Proof.
  intros (qs & E & H). cbn [run_command]. unfold rdf_load. rewrite E. cbn [ok_or bind]. intros [= <-].
  eexists. split; [apply (nquads_reads_back _ FL)|]. intro q. rewrite <- H.
  assert (P := lines_all _ _ _ DL (fold_left (fun d q => DehydrateModel.ds_insert q d) qs [])). split; intro Hq.
  - apply (Permutation_in _ P) in Hq. apply ds_insert_all_In in Hq as [Hq|[]]. exact Hq.
  - apply (Permutation_in _ (Permutation_sym P)). apply ds_insert_all_In. now left.
Qed.

(** C88.  Dehydrate, then hydrate what was written, with the same layout, at the node [_:input0], or at the identifier that the value
    gives to itself: the value of the input comes back, up to the order of the items of the sets.  Missing: see C30, and the layouts that
    do not describe a node. *)
Theorem C88_round_trip_partial fuel f r v reg d d' stdin text : tree_registry reg -> decimals_read_back X ->
  Proper reg r v -> distinct_identifiers reg r v -> not_terminators reg r v -> ~ leaf reg r ->
  holds from_f64 f stdin v ->
  run_command_with stdin fuel (Dehydrate f (Some r)) reg d = Ok text ->
  exists subject w N, (subject = TmBlank "input0" \/ exists i ids, Identifiers reg r v ids /\ In i ids /\ subject = TmIri i) /\
    Same reg r v w /\
    (writable from_f64 to_f64 Json v ->
     forall fuel' pretty, N <= fuel' -> exists text',
       run_command_with text fuel' (Hydrate Json (Some r) [subject] pretty) reg d' = Ok text' /\ holds from_f64 Json text' w).
Proof.
  intros TR DR HP DI NT NL HO. pose proof (holds_wf _ _ _ _ HO) as W. apply holds_load in HO. cbn [run_command default_get bind]. rewrite HO. cbn [bind].
  destruct (dehydrate order reg fuel v r default_options) as [[ds vals]| | |] eqn:DE; try discriminate. cbn [map_err bind fst]. intros [= <-].
  destruct (load_written ds) as (ds' & L & ND & DS).
  assert (BI : blank_identifiers default_options).
  { split; intro n; [eexists; reflexivity|]. rewrite default_generated. eexists. reflexivity. }
  assert (EN : enumerates (index ds') (fun q => In q ds)).
  { intro p. destruct (index_all _ _ _ DL ds' ND p) as [A B]. split; [exact A|]. intro q. rewrite (B q), DS. reflexivity. }
  destruct (C30_round_trip_partial default_options reg order (order_all _ _ _ DL) fuel v r ds vals (index ds')
    TR HP DI NT BI default_options_fresh DR DE EN) as (tv & N & HY & SA).
  destruct (dehydrated_root default_options reg order (order_all _ _ _ DL) fuel v r ds vals TR HP NL DE) as [->|(i & ids & HI & Hi & ->)].
  - exists (TmBlank "input0"), (into_untyped tv), N. split; [now left|]. split; [exact SA|]. intros WR fuel' pretty LE.
    rewrite L. cbn [bind]. rewrite (HY fuel' LE : hydrate (index ds') reg fuel' r [TmBlank "input0"] = Ok tv). cbn [map_err bind].
    apply (write_back from_f64 to_f64 Json (into_untyped tv) pretty FL).
    + exact (proj1 (Same_wf reg) _ _ _ SA W).
    + intro NJ. apply WR. exact (proj1 (Same_not_json reg refused) _ _ _ SA NJ).
  - exists (TmIri i), (into_untyped tv), N. split; [right; eauto|]. split; [exact SA|]. intros WR fuel' pretty LE.
    rewrite L. cbn [bind]. rewrite (HY fuel' LE). cbn [map_err bind].
    apply (write_back from_f64 to_f64 Json (into_untyped tv) pretty FL).
    + exact (proj1 (Same_wf reg) _ _ _ SA W).
    + intro NJ. apply WR. exact (proj1 (Same_not_json reg refused) _ _ _ SA NJ).
Qed.

(** Without sets, the same value. *)
Theorem C88_round_trip_equal_partial fuel f r v reg d d' stdin text : tree_registry reg -> no_sets reg -> decimals_read_back X ->
  Proper reg r v -> distinct_identifiers reg r v -> not_terminators reg r v -> ~ leaf reg r ->
  holds from_f64 f stdin v -> writable from_f64 to_f64 Json v ->
  run_command_with stdin fuel (Dehydrate f (Some r)) reg d = Ok text ->
  exists subject N, (subject = TmBlank "input0" \/ exists i ids, Identifiers reg r v ids /\ In i ids /\ subject = TmIri i) /\
    forall fuel' pretty, N <= fuel' -> exists text',
      run_command_with text fuel' (Hydrate Json (Some r) [subject] pretty) reg d' = Ok text' /\ holds from_f64 Json text' v.
Proof.
  intros TR NS DR HP DI NT NL HO WR H.
  destruct (C88_round_trip_partial fuel f r v reg d d' stdin text TR DR HP DI NT NL HO H) as (s & w & N & S & SA & HY).
  exists s, N. split; [exact S|]. apply (proj1 (same_equal reg NS)) in SA as <-. auto.
Qed.

(** C88 and C89, on the whole program: [reg] is the registry of the files [layouts] and [includes] (it exists, see [C86_registry]). *)
Variables (arbitrary_precision : bool) (json_float : string -> option F).
Variable file : string -> option string.
Notation run_with := (run arbitrary_precision json_float from_f64 to_f64 index order lines extra_properties is_unsigned_long file).
Theorem C88_run_partial layouts includes no_prelude reg d N0 fuel f r v stdin text :
  (forall stdin fuel c, N0 <= fuel -> run_with stdin fuel (Args layouts includes no_prelude (Some c)) = run_command_with stdin fuel c reg d) ->
  tree_registry reg -> decimals_read_back X -> Proper reg r v -> distinct_identifiers reg r v -> not_terminators reg r v -> ~ leaf reg r ->
  holds from_f64 f stdin v -> writable from_f64 to_f64 Json v -> N0 <= fuel ->
  run_with stdin fuel (Args layouts includes no_prelude (Some (Dehydrate f (Some r)))) = Ok text ->
  exists subject w N, (subject = TmBlank "input0" \/ exists i ids, Identifiers reg r v ids /\ In i ids /\ subject = TmIri i) /\
    Same reg r v w /\
    forall fuel' pretty, N <= fuel' -> exists text',
      run_with text fuel' (Args layouts includes no_prelude (Some (Hydrate Json (Some r) [subject] pretty))) = Ok text' /\
      holds from_f64 Json text' w.
Proof.
  intros U TR DR HP DI NT NL HO WR LE. rewrite (U stdin fuel _ LE). intro H.
  destruct (C88_round_trip_partial fuel f r v reg d d stdin text TR DR HP DI NT NL HO H) as (s & w & N & S & SA & HY).
  exists s, w, (Nat.max N0 N). split; [exact S|]. split; [exact SA|]. intros fuel' pretty LE'. rewrite U by lia. apply HY; [exact WR|lia].
Qed.
Theorem C89_run_partial layouts includes no_prelude reg d N0 f f' pretty stdin v :
  (forall stdin fuel c, N0 <= fuel -> run_with stdin fuel (Args layouts includes no_prelude (Some c)) = run_command_with stdin fuel c reg d) ->
  holds from_f64 f stdin v -> writable from_f64 to_f64 f' v ->
  exists text, holds from_f64 f' text v /\
    forall fuel, N0 <= fuel -> run_with stdin fuel (Args layouts includes no_prelude (Some (ConvertTree f f' pretty))) = Ok text.
Proof.
  intros U H W. destruct (C89_tree_partial N0 f f' pretty stdin v reg d H W) as (text & E & H'). exists text. split; [exact H'|].
  intros fuel LE. rewrite (U stdin fuel _ LE). exact E.
Qed.
End Cli.
