(** * The order of the layout files plays no role (C111) *)

From Coq Require Import String Ascii List Bool Arith NArith ZArith Qcanon Permutation Lia.
Import ListNotations.
From Verif Require Import Base BaseProofs Orders PatternModel MatchingModel MatchingSpec ValueModel LayoutModel LayoutSpec HydrateModel HydrateSpec HydrateComplete TermModel
  DehydrateModel DehydrateSpec DehydrateProofs DehydrateFinish JsonModel JsonSpec JsonProperties CborModel AbsModel AbsSpec AbsJsonModel AbsJsonSpec AbsAcceptSpec
  GenSpec CodeGenModel PreludeSpec PreludeModel PreludeProperties CliModel CliSpec CliProofs CliData CliDataProperties CliMono CliProperties
  RelabelSpec RelabelBuild RelabelProperties RelabelFiles FilesSpec.
Open Scope list_scope.
Open Scope nat_scope.

Lemma insert_reordered (k : value) v v' : reordered v v' -> forall m m', Forall2 (fun e e' => fst e = fst e' /\ reordered (snd e) (snd e')) m m' ->
  Forall2 (fun e e' => fst e = fst e' /\ reordered (snd e) (snd e')) (bt_insert k v m) (bt_insert k v' m').
Proof.
  intros V m m' H. induction H as [|[a x] [a' x'] m m' [E1 E2] F IH]; cbn [bt_insert fst snd] in *; [repeat constructor; auto|]. subst a'.
  destruct (cmp k a); constructor; auto.
Qed.
Lemma collect_reordered (l l' : list (value * value)) : Forall2 (fun e e' => fst e = fst e' /\ reordered (snd e) (snd e')) l l' ->
  Forall2 (fun e e' => fst e = fst e' /\ reordered (snd e) (snd e')) (bt_collect l) (bt_collect l').
Proof.
  unfold bt_collect. intros H.
  assert (K : forall y z, Forall2 (fun e e' => fst e = fst e' /\ reordered (snd e) (snd e')) y z ->
    Forall2 (fun e e' => fst e = fst e' /\ reordered (snd e) (snd e')) (fold_left (fun m kv => bt_insert (fst kv) (snd kv) m) l y) (fold_left (fun m kv => bt_insert (fst kv) (snd kv) m) l' z)).
  { induction H as [|[a x] [a' x'] l l' [E1 E2] F IH]; intros y z A; cbn [fold_left fst snd] in *; [exact A|]. subst a'. apply IH. now apply insert_reordered. }
  apply K. constructor.
Qed.
Lemma untyped_reordered {R} (N : R -> R -> Prop) loose : forall v v', renamed_value N loose v v' -> reordered (into_untyped v) (into_untyped v').
Proof.
  fix IH 3. intros v v' H. destruct H as [t t' H|v v' r r' i H H'|m m' r r' H H'|l l' r r' H H'|l l1 l' r r' HL P H H'|v]; cbn [into_untyped].
  - destruct H; apply ro_same.
  - auto.
  - apply ro_map, collect_reordered. clear H'. induction H as [|e e' m m' [E1 E2] F IHF]; cbn [map]; constructor; [|exact IHF]. cbn [fst snd]. auto.
  - apply ro_list with (map into_untyped l); [apply Permutation_refl|]. clear H'. induction H as [|e e' m m' E F IHF]; cbn [map]; constructor; auto.
  - apply ro_list with (map into_untyped l1); [now apply Permutation_map|]. clear H' P. induction H as [|e e' m m' E F IHF]; cbn [map]; constructor; auto.
  - apply ro_same.
Qed.
Lemma reordered_json : forall v v', reordered v v' -> forall j, value_to_json v = Ok j -> exists j', value_to_json v' = Ok j'.
Proof.
  fix IH 3. intros v v' H. destruct H as [v|m m' H|l l1 l' P H]; intros j J.
  - eauto.
  - rewrite value_to_json_map in *. apply bind_Ok in J as (o & J & _).
    assert (K : forall o o1 : list (string * json), entries_to_json m o = Ok o1 -> forall p, exists p1, entries_to_json m' p = Ok p1).
    { clear J. induction H as [|[k x] [k' x'] m m' [E1 E2] F IHF]; intros o0 o1 J p; cbn [entries_to_json fst snd] in *; [eauto|]. subst k'.
      destruct k as [[]| |]; try discriminate J. apply bind_Ok in J as (jx & Jx & J). destruct (IH _ _ E2 _ Jx) as [jx' ->]. cbn [bind]. eauto. }
    destruct (K _ _ J []) as [p1 ->]. cbn [bind]. eauto.
  - cbn [value_to_json] in *. apply bind_Ok in J as (js & J & _).
    assert (A : forall x, In x l1 -> exists jx, value_to_json x = Ok jx).
    { intros x I. apply (Permutation_in _ (Permutation_sym P)) in I. clear - J I. revert js J. induction l as [|y l IHl]; intros js J; [elim I|]. cbn [traverse] in J.
      apply bind_Ok in J as (jy & Jy & J). apply bind_Ok in J as (js' & J & _). destruct I as [->|I]; eauto. }
    assert (K : exists js', traverse value_to_json l' = Ok js').
    { clear P J. induction H as [|x x' l1 l' E F IHF]; cbn [traverse]; [eauto|]. destruct (A x (or_introl eq_refl)) as [jx Jx]. destruct (IH _ _ E _ Jx) as [jx' ->].
      cbn [bind]. destruct IHF as [js' ->]; [intros y I; apply A; now right|]. cbn [bind]. eauto. }
    destruct K as [js' ->]. cbn [bind]. eauto.
Qed.

Section Cli.
Context {TS : TextSyntax} {IS : IriSyntax} {AE : AbsExternal} {X : Xsd} {CC : Cmp cbor} {F : Type} {FM : Formats F}.
Variables (arbitrary_precision : bool) (json_float : string -> option F)
  (from_f64 : F -> option Qc) (to_f64 : Qc -> F).
Variable index : list (quad term) -> dataset term.
Variable order : list (quad res) -> list (quad res).
Variable lines : list (quad term) -> list (quad term).
Variable extra_properties : term -> option (list (term * term)).
Variable is_unsigned_long : string -> bool.
Variable file : string -> option string.

Notation run_with := (run arbitrary_precision json_float from_f64 to_f64 index order lines extra_properties is_unsigned_long file).
Notation run_command_with := (run_command from_f64 to_f64 index order lines extra_properties is_unsigned_long).
Notation registry_of fuel np m := (union_get (reg_with (layouts_get m)
  (option_get (if np : bool then None else Some (prelude_registry arbitrary_precision json_float from_f64 fuel))))).

Lemma registry_lookup fuel np m : preset_syntax -> lookup m np (registry_of fuel np m).
Proof.
  intros PS r l. unfold union_get, reg_with. cbn [u_1 u_0]. destruct (layouts_get m r) as [l0|] eqn:G.
  - split; [intros [= ->]; now left|]. intros [H|(H & _)]; [exact H|discriminate H].
  - destruct np; cbn [option_get].
    + split; [discriminate|]. intros [H|(_ & H & _)]; discriminate H.
    + unfold prelude_registry. destruct (C82_prelude arbitrary_precision json_float from_f64 fuel PS) as (pm & EP & P).
      assert (EG : prelude_get arbitrary_precision json_float from_f64 fuel r = Ok (layouts_get pm r)) by (unfold prelude_get; rewrite EP; reflexivity).
      rewrite EG, (P r l). split.
      * intros (p & -> & ->). right. split; [reflexivity|]. split; [reflexivity|]. eauto.
      * intros [H|(_ & _ & H)]; [discriminate H|exact H].
Qed.

Lemma preset_renamed (N : term -> term -> Prop) p : renamed_layout N (layout_at TmIri (preset_layout p)) (layout_at TmIri (preset_layout p)).
Proof. destruct p; constructor. Qed.
Lemma preset_sorted p : fields_sorted (layout_at TmIri (preset_layout p)).
Proof. destruct p; exact Logic.I. Qed.

(** The layouts of the files that were loaded at [tr]; see [row_placed]. *)
Definition placed (fuel : nat) (tr : list (string * nat)) (m : layouts term) : Prop :=
  forall q l, layouts_get m q = Some l <-> exists e r o c, In e tr /\ alone file fuel (fst e) (snd e) r o c /\ layouts_get o q = Some l.

(** The files in another order: the same layouts, the blank names of which are others. *)
Lemma files_matched fuel ls ls' is is' np tr tr' rs rs' m m' : preset_syntax -> Permutation ls ls' -> Permutation is is' ->
  map fst tr = ls ++ is -> map fst tr' = ls' ++ is' -> placed fuel tr m -> placed fuel tr' m' ->
  Forall2 (fun e r => exists o c, alone file fuel (fst e) (snd e) r o c) tr rs -> Forall2 (fun e r => exists o c, alone file fuel (fst e) (snd e) r o c) tr' rs' ->
  renamed_registry (matched file fuel tr tr') (registry_of fuel np m) (registry_of fuel np m') /\
  registry_sorted (registry_of fuel np m) /\ registry_sorted (registry_of fuel np m') /\
  (forall f, ls = [f] -> exists r r' q q', rs = r :: q /\ rs' = r' :: q' /\ matched file fuel tr tr' r r').
Proof.
  intros PS P1 P2 ET ET' K K' FA FA'. pose proof (Permutation_app P1 P2) as P.
  assert (SO : forall m tr, (forall q l, layouts_get m q = Some l <-> exists e r o c, In e tr /\ alone file fuel (fst e) (snd e) r o c /\ layouts_get o q = Some l) ->
    registry_sorted (registry_of fuel np m)).
  { intros m0 tr0 K0 q l E. apply (registry_lookup fuel np m0 PS) in E as [E|(_ & _ & p & _ & ->)]; [eapply rows_sorted; eauto|apply preset_sorted]. }
  assert (SAME : forall x, In x (map fst tr) <-> In x (map fst tr')).
  { intro x. rewrite ET, ET'. split; apply Permutation_in; [exact P|now apply Permutation_sym]. }
  pose proof (rows_renamed file fuel tr tr' m m' SAME K K') as RR.
  split; [|split; [eapply SO; eauto|split; [eapply SO; eauto|]]].
  - intros r r' MA. pose proof (RR _ _ MA) as Q. pose proof (registry_lookup fuel np m PS r) as U. pose proof (registry_lookup fuel np m' PS r') as U'.
    destruct (layouts_get m r) as [l|] eqn:E, (layouts_get m' r') as [l'|] eqn:E'; try contradiction.
    + rewrite (proj2 (U l)), (proj2 (U' l')); auto.
    + assert (r = r') as <-.
      { destruct MA as [(i & -> & ->)|(name & a & a' & k & I & I' & (q & o & A) & i & Li & -> & ->)]; [reflexivity|]. exfalso.
        destruct (alone_names _ _ _ _ _ _ _ A) as [_ NM].
        assert (D : layouts_get o (TmBlank (nat_string (a + i))) <> None) by (apply NM; right; exists (a + i); split; [lia|reflexivity]).
        destruct (layouts_get o (TmBlank (nat_string (a + i)))) as [l0|] eqn:E0; [|now elim D].
        assert (layouts_get m (TmBlank (nat_string (a + i))) = Some l0) by (apply K; exists (name, a), q, o, (a + k); auto). congruence. }
      clear U U' Q MA. unfold union_get, reg_with. cbn [u_1 u_0]. rewrite E, E'.
      destruct (option_get _ r) as [l|] eqn:O; [|exact Logic.I].
      assert (Q : registry_of fuel np m r = Some l) by (unfold union_get, reg_with; cbn [u_1 u_0]; now rewrite E).
      apply (registry_lookup fuel np m PS) in Q as [Q|(_ & _ & p & _ & ->)]; [congruence|apply preset_renamed].
  - intros f ->. apply Permutation_length_1_inv in P1 as ->. cbn [app] in ET, ET'.
    destruct tr as [|[f1 a] tr]; [discriminate ET|]. destruct tr' as [|[f2 a'] tr']; [discriminate ET'|]. cbn [map fst] in ET, ET'. injection ET as -> ET. injection ET' as -> ET'.
    inversion FA as [|? r ? q (o & c & A) _]; subst. inversion FA' as [|? r' ? q' (o' & c' & A') _]; subst. cbn [fst snd] in A, A'.
    exists r, r', q, q'. split; [reflexivity|]. split; [reflexivity|].
    destruct (alone_elsewhere _ _ _ _ a' _ _ _ A) as (k & r1 & o1 & -> & A1 & S & _). destruct (alone_unique _ _ _ _ _ _ _ _ _ _ A' A1) as (-> & _ & _).
    refine (shifted_matched _ _ _ _ f a a' k _ _ _ _ _ _ A S); now left.
Qed.

Lemma files_moved fuel ls ls' is is' np rs m n : preset_syntax -> Permutation ls ls' -> Permutation is is' ->
  load_all file fuel (ls ++ is) [] 0 = Ok (rs, m, n) ->
  exists (N : term -> term -> Prop) rs' m' n', load_all file fuel (ls' ++ is') [] 0 = Ok (rs', m', n') /\
    (forall i, N (TmIri i) (TmIri i)) /\ renamed_registry N (registry_of fuel np m) (registry_of fuel np m') /\
    registry_sorted (registry_of fuel np m) /\ registry_sorted (registry_of fuel np m') /\
    (forall f, ls = [f] -> exists r r' q q', rs = r :: q /\ rs' = r' :: q' /\ N r r').
Proof.
  intros PS P1 P2 L. pose proof (Permutation_app P1 P2) as P.
  destruct (row_apart _ _ _ _ _ _ _ _ L empty_wf) as (GD & AP & _).
  destruct (row_again file fuel (ls' ++ is') [] 0) as (rs' & m' & n' & L').
  { eapply Permutation_Forall; eauto. }
  { eapply pairs_perm; eauto. apply apart_sym. }
  { apply empty_wf. } { apply empty_later. } { intros; reflexivity. }
  destruct (row_placed _ _ _ _ _ _ _ _ L empty_wf) as (tr & ET & FA & _ & G). destruct (row_placed _ _ _ _ _ _ _ _ L' empty_wf) as (tr' & ET' & FA' & _ & G').
  exists (matched file fuel tr tr'), rs', m', n'. split; [exact L'|]. split; [left; eauto|].
  apply (files_matched fuel ls ls' is is'); auto.
  - intros q l. rewrite G. split; [intros [Q|Q]; [discriminate Q|exact Q]|now right].
  - intros q l. rewrite G'. split; [intros [Q|Q]; [discriminate Q|exact Q]|now right].
Qed.

(** The command with the two registries. *)
Lemma files_run stdin fuel ls ls' is is' np c out : preset_syntax -> Permutation ls ls' -> Permutation is is' -> by_name c ->
  run_with stdin fuel (Args ls is np (Some c)) = Ok out ->
  exists (N : term -> term -> Prop) rs m n m' d d', load_all file fuel (ls ++ is) [] 0 = Ok (rs, m, n) /\
    renamed_registry N (registry_of fuel np m) (registry_of fuel np m') /\
    registry_sorted (registry_of fuel np m) /\ registry_sorted (registry_of fuel np m') /\
    run_command_with stdin fuel c (registry_of fuel np m) d = Ok out /\
    run_with stdin fuel (Args ls' is' np (Some c)) = run_command_with stdin fuel c (registry_of fuel np m') d' /\
    forall o, named o -> match default_get d o, default_get d' o with Ok r, Ok r' => N r r' | Err e, Err e' => e = e' | _, _ => False end.
Proof.
  intros PS P1 P2 B H. pose proof H as H0. apply run_loaded in H0 as (rs & m & n & L). cbn [a_layouts a_include] in L.
  destruct (files_moved _ _ _ _ _ np _ _ _ PS P1 P2 L) as (N & rs' & m' & n' & L' & NI & RR & S & S' & DE).
  destruct (split_load _ _ _ _ _ _ _ L) as (rs1 & rs2 & m1 & n1 & -> & L1 & L2 & LEN). destruct (split_load _ _ _ _ _ _ _ L') as (rs1' & rs2' & m1' & n1' & -> & L1' & L2' & LEN').
  rewrite run_loads in H. cbn [a_layouts a_include a_command a_no_prelude] in H. rewrite L1 in H. cbn [bind] in H. rewrite L2 in H. cbn [bind] in H.
  exists N, (rs1 ++ rs2), m, n, m', (fold_left (fun d r => default_set r d) rs1 DefaultNone), (fold_left (fun d r => default_set r d) rs1' DefaultNone).
  split; [exact L|]. split; [exact RR|]. split; [exact S|]. split; [exact S'|]. split; [exact H|]. split.
  - rewrite run_loads. cbn [a_layouts a_include a_command a_no_prelude]. rewrite L1'. cbn [bind]. rewrite L2'. reflexivity.
  - intros o O. destruct O as [|i]; cbn [default_get]; [|apply NI]. rewrite !default_none.
    apply Permutation_length in P1. rewrite <- LEN, <- LEN' in P1.
    destruct rs1 as [|r [|r2 rs1]], rs1' as [|r' [|r2' rs1']]; try discriminate P1; cbn [default_set]; try reflexivity.
    destruct ls as [|f [|f2 ls]]; try discriminate LEN. destruct (DE f eq_refl) as (x & x' & q & q' & E & E' & NN). injection E as -> _. injection E' as -> _. exact NN.
Qed.

(** C111.  The order of the files, of those that are given and of those that are included, plays no role on what is written, unless the layout of the
    command is given by a blank name ([C111_blank_refuted]).  Dehydration and conversion. *)
Theorem C111_dehydrate_partial stdin fuel ls ls' is is' np c out : preset_syntax -> Permutation ls ls' -> Permutation is is' ->
  by_name c -> (forall output layout subjects pretty, c <> Hydrate output layout subjects pretty) ->
  run_with stdin fuel (Args ls is np (Some c)) = Ok out -> run_with stdin fuel (Args ls' is' np (Some c)) = Ok out.
Proof.
  intros PS P1 P2 B NH H. destruct (files_run _ _ _ _ _ _ _ _ _ PS P1 P2 B H) as (N & rs & m & n & m' & d & d' & _ & RR & _ & _ & R & -> & DG).
  destruct B as [output o subjects pretty O|input o O|input output pretty|].
  - elim (NH output o subjects pretty eq_refl).
  - cbn [run_command] in *. specialize (DG o O). destruct (default_get d o) as [r| | |], (default_get d' o) as [r'| | |]; try contradiction; try discriminate R.
    cbn [bind] in *. apply bind_Ok in R as (v & -> & R). cbn [bind].
    pose proof (C110_dehydrate N order _ _ fuel v r r' default_options RR DG) as K.
    destruct (dehydrate order (registry_of fuel np m) fuel v r default_options) as [x| | |]; try discriminate R.
    destruct (dehydrate order (registry_of fuel np m') fuel v r' default_options) as [x'| | |]; cbn in K; try contradiction. subst x'. exact R.
  - exact R.
  - exact R.
Qed.

(** Hydration: the order of the items of a set may depend on the files when they contain variants ([C111_sets_refuted]). *)
Theorem C111_hydrate_partial stdin fuel ls ls' is is' np layout subjects pretty out : preset_syntax -> dataset_laws index order lines ->
  Permutation ls ls' -> Permutation is is' -> named layout -> no_variant_in_sets file fuel np (ls ++ is) ->
  run_with stdin fuel (Args ls is np (Some (Hydrate Json layout subjects pretty))) = Ok out ->
  run_with stdin fuel (Args ls' is' np (Some (Hydrate Json layout subjects pretty))) = Ok out.
Proof.
  intros PS DL P1 P2 O NV H. destruct (files_run _ _ _ _ _ _ _ _ _ PS P1 P2 (bn_hydrate _ _ _ _ O) H) as (N & rs & m & n & m' & d & d' & L & RR & S & S' & R & -> & DG).
  cbn [run_command] in *. specialize (DG layout O). destruct (default_get d layout) as [r| | |], (default_get d' layout) as [r'| | |]; try contradiction; try discriminate R.
  cbn [bind] in *. apply bind_Ok in R as (ds & LD & R). rewrite LD. cbn [bind].
  assert (ND : NoDup ds).
  { unfold rdf_load in LD. apply bind_Ok in LD as (qs & _ & LD). injection LD as <-. apply ds_insert_all_NoDup. constructor. }
  assert (LF : load_files file fuel (ls ++ is) DefaultNone [] 0 = Ok (fold_left (fun d r => default_set r d) rs DefaultNone, m, n)) by (rewrite load_files_all, L; reflexivity).
  pose proof (C110_hydrate_order_partial N (index ds) _ _ _ fuel None r r' subjects (index_all _ _ _ DL ds ND) S S' RR DG
    (NV _ m n LF _ (registry_lookup fuel np m PS) r)) as K.
  unfold hydrate in *. destruct (hydrate_with (index ds) (registry_of fuel np m) fuel None r subjects) as [v| | |]; try discriminate R.
  destruct (hydrate_with (index ds) (registry_of fuel np m') fuel None r' subjects) as [v'| | |]; cbn in K; try contradiction.
  cbn [map_err bind write_typed] in *. rewrite <- K. exact R.
Qed.

(** In any case, what is written is the same up to the order of the items of the lists. *)
Theorem C111_hydrate_reordered stdin fuel ls ls' is is' np layout subjects pretty out : preset_syntax ->
  Permutation ls ls' -> Permutation is is' -> named layout ->
  run_with stdin fuel (Args ls is np (Some (Hydrate Json layout subjects pretty))) = Ok out ->
  exists v j v' j', value_to_json v = Ok j /\ out = json_print pretty j /\ value_to_json v' = Ok j' /\ reordered v v' /\
    run_with stdin fuel (Args ls' is' np (Some (Hydrate Json layout subjects pretty))) = Ok (json_print pretty j').
Proof.
  intros PS P1 P2 O H. destruct (files_run _ _ _ _ _ _ _ _ _ PS P1 P2 (bn_hydrate _ _ _ _ O) H) as (N & rs & m & n & m' & d & d' & L & RR & _ & _ & R & E & DG).
  cbn [run_command] in *. specialize (DG layout O). destruct (default_get d layout) as [r| | |], (default_get d' layout) as [r'| | |]; try contradiction; try discriminate R.
  cbn [bind] in *. apply bind_Ok in R as (ds & LD & R). rewrite LD in E. cbn [bind] in E.
  pose proof (C110_hydrate N (index ds) _ _ fuel None r r' subjects RR DG) as K.
  unfold hydrate in *. destruct (hydrate_with (index ds) (registry_of fuel np m) fuel None r subjects) as [v| | |]; try discriminate R.
  destruct (hydrate_with (index ds) (registry_of fuel np m') fuel None r' subjects) as [v'| | |]; cbn in K; try contradiction.
  cbn [map_err bind write_typed] in *. apply untyped_reordered in K. apply bind_Ok in R as (j & J & R). injection R as <-.
  destruct (value_to_json (into_untyped v)) as [j0| | |] eqn:J0; try discriminate J. injection J as ->.
  destruct (reordered_json _ _ K _ J0) as [j' J']. exists (into_untyped v), j, (into_untyped v'), j'. rewrite J' in *. cbn [map_err bind] in E.
  split; [exact J0|]. split; [reflexivity|]. split; [reflexivity|]. split; [exact K|exact E].
Qed.

(** Without a command, the files are only checked. *)
Theorem C111_check stdin fuel ls ls' is is' np out : preset_syntax -> Permutation ls ls' -> Permutation is is' ->
  run_with stdin fuel (Args ls is np None) = Ok out -> run_with stdin fuel (Args ls' is' np None) = Ok out.
Proof.
  intros PS P1 P2 H. pose proof H as H0. apply run_loaded in H0 as (rs & m & n & L). cbn [a_layouts a_include] in L.
  destruct (files_moved _ _ _ _ _ np _ _ _ PS P1 P2 L) as (N & rs' & m' & n' & L' & _).
  destruct (split_load _ _ _ _ _ _ _ L) as (rs1 & rs2 & m1 & n1 & -> & L1 & L2 & _). destruct (split_load _ _ _ _ _ _ _ L') as (rs1' & rs2' & m1' & n1' & -> & L1' & L2' & _).
  rewrite run_loads in *. cbn [a_layouts a_include a_command a_no_prelude] in *. rewrite L1 in H. rewrite L1'. cbn [bind] in *. rewrite L2 in H. rewrite L2'. exact H.
Qed.

(** More steps do not change what is written. *)
Lemma run_more_fuel stdin f f' a output layout subjects pretty out : preset_syntax -> f <= f' ->
  a_command a = Some (Hydrate output layout subjects pretty) -> run_with stdin f a = Ok out -> run_with stdin f' a = Ok out.
Proof.
  intros PS LE EC H. rewrite run_loads in *. rewrite EC in *.
  apply bind_Ok in H as ([[rs m] n] & L & H). rewrite (load_all_mono file f f' _ LE _ _ _ L). cbn [bind].
  apply bind_Ok in H as ([[rs' m'] n'] & L' & H). rewrite (load_all_mono file f f' _ LE _ _ _ L'). cbn [bind].
  rewrite (prelude_mono _ _ _ f' PS). rewrite (prelude_mono _ _ _ f PS) in H. cbn [run_command] in *.
  apply bind_Ok in H as (r & R & H). rewrite R. cbn [bind]. apply bind_Ok in H as (ds & D & H). rewrite D. cbn [bind].
  unfold hydrate in *. match type of H with context [hydrate_with ?D ?reg f ?g ?r ?i] => destruct (hydrate_fuel D reg f f' g r i LE) as [E|E] end.
  - rewrite E in H. discriminate H.
  - rewrite <- E. exact H.
Qed.
End Cli.
