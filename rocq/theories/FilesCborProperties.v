(** * C111 for CBOR: the order of the layout files plays no role on the tags *)

From Coq Require Import String Ascii List Bool Arith NArith ZArith Qcanon Permutation Lia.
Import ListNotations.
From Verif Require Import Base BaseProofs Orders PatternModel MatchingModel MatchingSpec ValueModel LayoutModel LayoutSpec HydrateModel HydrateSpec HydrateProperties TermModel
  DehydrateModel DehydrateFinish DehydrateProofs JsonModel CborModel CborSpec CborProperties AbsModel AbsSpec AbsMeaning AbsRegistry AbsJsonModel
  GenSpec CodeGenModel PreludeSpec PreludeModel CliModel CliSpec CliProofs CliProperties RelabelSpec RelabelProperties RelabelBuild RelabelFiles FilesSpec FilesProperties
  ValueProofs ExtraModel ExtraSpec ExtraProofs ExtraProperties CliExtraModel CliExtraSpec CliExtraProofs CliExtraProperties RelabelExtra.
Open Scope list_scope.
Open Scope nat_scope.

(** Writing in CBOR a value with its layouts renamed, if they have the same properties. *)
Theorem C110_cbor {CC : Cmp cbor} (N : term -> term -> Prop) prop extra extra' unsigned : (forall r r', N r r' -> extra r = extra' r') ->
  forall v v', renamed_value N (fun _ => False) v v' -> tagged_cbor prop extra unsigned v = tagged_cbor prop extra' unsigned v'.
Proof.
  intros SAME. assert (W : forall c r r', N r r' -> with_tag prop extra unsigned c (Some r) = with_tag prop extra' unsigned c (Some r')).
  { intros c r r' H. unfold with_tag, get_layout_tag. cbn [bind]. now rewrite (SAME r r' H). }
  induction v as [l|t ty i IH|m ty IH|l ty IH|v] using typed_value_ind'; intros v' H; inversion H as [t1 t1' L|? v1 ? r' ? V NR|? m' ? r' FM NR|? l' ? r' FL NR|? ? ? ? ? FF|?]; subst; cbn [tagged_cbor].
  - inversion L; subst; try now apply W. apply bind_ext. intro c. now apply W.
  - rewrite (IH _ V). apply bind_ext. intro c. now apply W.
  - match goal with |- bind ?a _ = bind ?b _ => assert (E : a = b) end; [|rewrite E; apply bind_ext; intro c; now apply W].
    clear H NR W. revert IH. induction FM as [|[k t] [k' t'] m m' [E1 E2] FM IHF]; intros IH; cbn [traverse]; [reflexivity|]. cbn [fst snd] in *. subst k'.
    inversion IH as [|? ? H1 H2]; subst. cbn [fst snd] in H1. rewrite (H1 _ E2), (IHF H2). reflexivity.
  - match goal with |- bind ?a _ = bind ?b _ => assert (E : a = b) end; [|rewrite E; apply bind_ext; intro c; now apply W].
    clear H NR W. revert IH. induction FL as [|t t' l l' E FL IHF]; intros IH; cbn [traverse]; [reflexivity|].
    inversion IH as [|? ? H1 H2]; subst. rewrite (H1 _ E), (IHF H2). reflexivity.
  - contradiction.
  - reflexivity.
Qed.

Section Files.
Context {TS : TextSyntax} {IS : IriSyntax} {AE : AbsExternal} {F : Type} {FM : Formats F}.
Variable file : string -> option string.
Variable fuel : nat.

(** All the layouts of a file have properties. *)
Lemma alone_extras name n r o c : alone file fuel name n r o c ->
  exists x, has_extras file name n x c /\ forall q, layouts_get o q <> None -> bt_get q x <> None.
Proof.
  intros (s & FE & H). unfold load_layout in H. destruct (json_parse s) as [j|] eqn:P; [|discriminate H].
  apply bind_Ok in H as (l & R & H). destruct (layout_from_json j) as [l0| | |] eqn:D; try discriminate R. injection R as <-.
  destruct (C105_same_layouts term_context l0 n [] []) as [x E]. destruct (build_with_context term_context l0 (n, [])) as [oc [c1 b1]] eqn:B. unfold extras, builder in E; rewrite ?B in E. cbn [fst snd] in *.
  apply bind_Ok in H as (r0 & R & H). destruct oc as [r1| | |]; try discriminate R. injection R as <-.
  apply bind_Ok in H as (new & BB & H). apply bind_Ok in H as (m1 & I & H). injection H as <- <- <-.
  destruct (C105_described term_context l0 n [] [] r1 c1 x b1 E ltac:(constructor) ltac:(constructor) ltac:(reflexivity)) as (_ & _ & OR & Wb & Wx & KX).
  exists x. split; [exists s, j, l0, r1, b1; auto|]. destruct (registry_keys fuel b1 new Wb BB) as [Wn K].
  destruct (insert_layouts_ok new [] Wn ltac:(constructor) ltac:(reflexivity)) as (m2 & I2 & _ & G). rewrite I in I2. injection I2 as <-.
  intros q Q. rewrite G in Q. assert (Q1 : bt_get q new <> None) by (destruct (bt_get q new); [discriminate|exact Q]). apply K in Q1.
  destruct (bt_get q b1) as [p|] eqn:Eb; [|now elim Q1]. destruct (OR q p Eb) as [N|(l' & env & _ & DD)]; [discriminate N|].
  rewrite described_eq in DD. destruct DD as (_ & (mm & EM & _) & _). congruence.
Qed.

Lemma extras_matched tr tr' m ex ex' r r' l : (forall x, In x (map fst tr) -> In x (map fst tr')) ->
  placed file fuel tr m -> (forall q p, bt_get q ex = Some p <-> exists e x c, In e tr /\ has_extras file (fst e) (snd e) x c /\ bt_get q x = Some p) ->
  (forall q p, bt_get q ex' = Some p <-> exists e x c, In e tr' /\ has_extras file (fst e) (snd e) x c /\ bt_get q x = Some p) ->
  matched file fuel tr tr' r r' -> layouts_get m r = Some l -> bt_get r ex = bt_get r' ex'.
Proof.
  intros SAME K X X' MA E.
  assert (ONE : exists name a a' k q o, In (name, a) tr /\ In (name, a') tr' /\ alone file fuel name a q o (a + k) /\ layouts_get o r <> None /\ shifted a a' k r r').
  { destruct MA as [(i & -> & ->)|(name & a & a' & k & I & I' & (q & o & A) & i & Li & -> & ->)].
    - apply K in E as ([name a] & q & o & c & I & A & G). cbn [fst snd] in *.
      assert (I' : In name (map fst tr')) by (apply SAME, in_map_iff; now exists (name, a)). apply in_map_iff in I' as ([name' a'] & EN & I'). cbn in EN. subst name'.
      destruct (alone_names _ _ _ _ _ _ _ A) as [LE _]. exists name, a, a', (c - a), q, o. replace (a + (c - a)) with c by lia.
      split; [exact I|]. split; [exact I'|]. split; [exact A|]. split; [congruence|]. left. eauto.
    - exists name, a, a', k, q, o. split; [exact I|]. split; [exact I'|]. split; [exact A|]. destruct (alone_names _ _ _ _ _ _ _ A) as [_ NM].
      split; [apply NM; right; exists (a + i); split; [lia|reflexivity]|]. right. exists i. auto. }
  destruct ONE as (name & a & a' & k & q & o & I & I' & A & G & S). destruct (alone_extras _ _ _ _ _ A) as (x & HX & GX). specialize (GX r G).
  destruct (has_extras_elsewhere file name a a' x _ HX) as (k' & x' & EK & HX' & SX). assert (k' = k) by lia. subst k'.
  destruct (bt_get r x) as [p|] eqn:Er; [|now elim GX].
  rewrite (proj2 (X r p)) by (exists (name, a), x, (a + k); auto). symmetry. apply X'. exists (name, a'), x', (a' + k). rewrite <- (SX _ _ S). auto.
Qed.
End Files.

Section Cli.
Context {TS : TextSyntax} {IS : IriSyntax} {AE : AbsExternal} {X : Xsd} {CC : Cmp cbor} {F : Type} {FM : Formats F}.
Variables (arbitrary_precision : bool) (json_float : string -> option F)
  (from_f64 : F -> option Qc) (to_f64 : Qc -> F).
Variable index : list (quad term) -> dataset term.
Variable order : list (quad res) -> list (quad res).
Variable lines : list (quad term) -> list (quad term).
Variable is_unsigned_long : string -> bool.
Variable file : string -> option string.

Notation run_with := (run_extra arbitrary_precision json_float from_f64 to_f64 index order lines is_unsigned_long file).
Notation prelude_of fuel np := (if np : bool then None else Some (prelude_registry arbitrary_precision json_float from_f64 fuel)).
Notation registry_of fuel np m := (union_get (reg_with (layouts_get m) (option_get (prelude_of fuel np)))).

Lemma kept_empty : kept_with [] [].
Proof. split; [constructor|]. split; [constructor|]. reflexivity. Qed.

Theorem C111_cbor_partial stdin fuel ls ls' is is' np layout subjects pretty out : preset_syntax -> dataset_laws index order lines ->
  Permutation ls ls' -> Permutation is is' -> named layout -> no_variant_in_sets file fuel np (ls ++ is) ->
  run_with stdin fuel (Args ls is np (Some (Hydrate Cbor layout subjects pretty))) = Ok out ->
  run_with stdin fuel (Args ls' is' np (Some (Hydrate Cbor layout subjects pretty))) = Ok out.
Proof.
  intros PS DL P1 P2 O NV H.
  destruct (extra_run _ _ _ _ _ _ _ _ _ _ _ _ _ _ _ _ _ _ H) as (rs1 & rs2 & m & ex & n & r & ds & v & L & LEN & D & LD & HY & E); [left; eauto|].
  destruct (all_brings_extra _ _ _ _ _ _ _ _ _ _ L kept_empty) as (LA & _).
  destruct (files_moved arbitrary_precision json_float from_f64 file _ _ _ _ _ np _ _ _ PS P1 P2 LA) as (_ & rs' & m' & n' & LA' & _).
  destruct (all_erase file fuel (ls' ++ is') [] [] 0) as [ex' L']. rewrite LA' in L'. cbn [bind] in L'.
  destruct (row_placed_extra _ _ _ _ _ _ _ _ _ _ L kept_empty) as (tr & ET & FA & G & GX). destruct (row_placed_extra _ _ _ _ _ _ _ _ _ _ L' kept_empty) as (tr' & ET' & FA' & G' & GX').
  assert (K : placed file fuel tr m) by (intros q l; rewrite G; split; [intros [Q|Q]; [discriminate Q|exact Q]|now right]).
  assert (K' : placed file fuel tr' m') by (intros q l; rewrite G'; split; [intros [Q|Q]; [discriminate Q|exact Q]|now right]).
  destruct (files_matched arbitrary_precision json_float from_f64 file fuel ls ls' is is' np tr tr' _ _ m m' PS P1 P2 ET ET' K K' FA FA') as (RR & S & S' & DE).
  assert (SAME : forall x, In x (map fst tr) <-> In x (map fst tr')).
  { intro x. pose proof (Permutation_app P1 P2) as P. rewrite ET, ET'. split; apply Permutation_in; [exact P|now apply Permutation_sym]. }
  assert (EX : forall r r', matched file fuel tr tr' r r' -> run_properties (prelude_of fuel np) m ex r = run_properties (prelude_of fuel np) m' ex' r').
  { intros q q' MA. pose proof (rows_renamed file fuel tr tr' m m' SAME K K' q q' MA) as Q. unfold run_properties, registry_properties.
    destruct (layouts_get m q) as [l|] eqn:E1, (layouts_get m' q') as [l'|] eqn:E2; try contradiction.
    - rewrite (extras_matched file fuel tr tr' m ex ex' q q' l (fun x => proj1 (SAME x)) K); [reflexivity| | |exact MA|exact E1];
        intros q0 p0; [rewrite GX|rewrite GX']; (split; [intros [Q0|Q0]; [discriminate Q0|exact Q0]|now right]).
    - assert (q = q') as <-; [|reflexivity].
      destruct MA as [(i & -> & ->)|(name & a & a' & k & I & I' & (q0 & o & A) & i & Li & -> & ->)]; [reflexivity|]. exfalso.
      destruct (alone_names _ _ _ _ _ _ _ A) as [_ NM].
      assert (DD : layouts_get o (TmBlank (nat_string (a + i))) <> None) by (apply NM; right; exists (a + i); split; [lia|reflexivity]).
      destruct (layouts_get o (TmBlank (nat_string (a + i)))) as [l0|] eqn:E0; [|now elim DD].
      assert (layouts_get m (TmBlank (nat_string (a + i))) = Some l0) by (apply K; exists (name, a), q0, o, (a + k); auto). congruence. }
  rewrite load_extra_app in L'. apply bind_Ok in L' as ([[[rs1' m1'] ex1'] n1'] & L1' & L2'). apply bind_Ok in L2' as ([[[rs2' m2'] ex2'] n2'] & L2' & EQ). injection EQ as <- -> -> ->.
  assert (LEN' : length rs1' = length ls').
  { destruct (all_brings_extra _ _ _ _ _ _ _ _ _ _ L1' kept_empty) as (_ & dl & D1 & _ & _ & _ & DF & _).
    clear - D1 DF. revert rs1' DF. induction D1 as [|? ? ? ? _ _ IH]; intros rs DF; inversion DF; subst; [reflexivity|]. cbn [length]. f_equal. auto. }
  assert (DD : exists r', default_get (fold_left (fun d r => default_set r d) rs1' DefaultNone) layout = Ok r' /\ matched file fuel tr tr' r r').
  { destruct O as [|i]; cbn [default_get] in *; [|injection D as <-; exists (TmIri i); split; [reflexivity|left; eauto]].
    rewrite default_none in *. pose proof (Permutation_length P1) as PL. rewrite <- LEN, <- LEN' in PL.
    destruct rs1 as [|r1 [|r2 rs1]], rs1' as [|r1' [|r2' rs1']]; try discriminate PL; try discriminate D. cbn in D. injection D as <-. cbn [default_set].
    destruct ls as [|f [|f2 ls]]; try discriminate LEN. destruct (DE f eq_refl) as (y & y' & q & q' & E1 & E2 & NN). injection E1 as -> _. injection E2 as -> _. eauto. }
  destruct DD as (r' & D' & MA).
  assert (ND : NoDup ds).
  { pose proof LD as LD'. unfold rdf_load in LD'. apply bind_Ok in LD' as (qs & _ & LD'). injection LD' as <-. apply ds_insert_all_NoDup. constructor. }
  assert (LF : load_files file fuel (ls ++ is) DefaultNone [] 0 = Ok (fold_left (fun d r => default_set r d) (rs1 ++ rs2) DefaultNone, m, n)) by (rewrite load_files_all, LA; reflexivity).
  pose proof (hydrate_in_order (matched file fuel tr tr') (index ds) _ _ _ fuel None r r' subjects (index_all _ _ _ DL ds ND) S S' RR MA
    (NV _ m n LF _ (registry_lookup arbitrary_precision json_float from_f64 fuel np m PS) r)) as KO.
  rewrite extra_loads. cbn [a_layouts a_include a_command a_no_prelude]. rewrite L1'. cbn [bind]. rewrite L2'. cbn [bind run_command]. rewrite D'. cbn [bind]. rewrite LD. cbn [bind].
  unfold hydrate in *. rewrite HY in KO. destruct (hydrate_with (index ds) (registry_of fuel np m') fuel None r' subjects) as [v'| | |]; cbn in KO; try contradiction.
  cbn [map_err bind write_typed]. rewrite E. change "https://schema.treeldr.org/cbor#tag"%string with cbor_tag_iri.
  rewrite <- (C110_cbor _ (Some (TmIri cbor_tag_iri)) (run_properties (prelude_of fuel np) m ex) (run_properties (prelude_of fuel np) m' ex') is_unsigned_long
    (fun q q' Q => EX q q' (proj1 Q)) v v' KO). reflexivity.
Qed.
End Cli.
