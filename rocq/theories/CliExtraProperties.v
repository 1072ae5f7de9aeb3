(** * C112: the tags of the CBOR written by the command line are those of the files *)

From Coq Require Import String Ascii List Bool Arith NArith ZArith Qcanon Lia.
Import ListNotations.
From Verif Require Import Base BaseProofs Orders PatternModel MatchingModel MatchingSpec ValueModel LayoutModel LayoutSpec HydrateModel HydrateSpec HydrateProperties TermModel
  DehydrateModel DehydrateFinish DehydrateProofs JsonModel CborModel CborSpec CborProperties AbsModel AbsSpec AbsMeaning AbsRegistry AbsJsonModel
  GenSpec CodeGenModel PreludeSpec PreludeModel CliModel CliSpec CliProofs CliProperties FilesProperties RelabelSpec
  RegexpModel ValueProofs RelabelFiles ExtraModel ExtraSpec ExtraProofs ExtraProperties CliExtraModel CliExtraSpec CliExtraProofs.
Open Scope list_scope.
Open Scope nat_scope.

(** An error of the conversion is that of a layout of the value. *)
Lemma tagged_error {CC : Cmp cbor} prop extra unsigned (v : typed_value term) e :
  tagged_cbor prop extra unsigned v = Err e -> exists ty, Uses v ty /\ get_layout_tag prop extra unsigned ty = Err e.
Proof.
  assert (W : forall c ty, with_tag prop extra unsigned c (Some ty) = Err e -> get_layout_tag prop extra unsigned ty = Err e).
  { intros c ty. unfold with_tag. cbn [bind]. destruct (get_layout_tag prop extra unsigned ty) as [[t|]| | |]; cbn [bind]; congruence. }
  assert (NE : forall A B (o : outcome Empty_set A) (f : A -> outcome invalid_tag B) x, bind (no_error o) f = Err x -> exists a, o = Ok a /\ f a = Err x).
  { intros A B o f x. destruct o as [a|[]|w|]; cbn [no_error bind]; try discriminate. eauto. }
  induction v as [l|t ty i IH|m ty IH|l ty IH|v] using typed_value_ind'; cbn [tagged_cbor].
  - destruct l as [u ty|b ty|q ty|s ty|s ty|s ty]; intros H; exists ty; (split; [now constructor|]); try (now apply W in H).
    apply NE in H as (c & _ & H). now apply W in H.
  - intros H. destruct (tagged_cbor prop extra unsigned t) as [c|e'|w|] eqn:E; cbn [bind] in H; try discriminate H.
    + exists ty. split; [now constructor|]. now apply W in H.
    + injection H as ->. destruct (IH eq_refl) as (ty' & U & G). exists ty'. split; [now constructor|exact G].
  - intros H. match type of H with bind ?o _ = _ => destruct o as [m'|e'|w|] eqn:E end; cbn [bind] in H; try discriminate H.
    + exists ty. split; [now constructor|]. now apply W in H.
    + injection H as ->. clear W.
      assert (K : exists k t ty', In (k, t) m /\ Uses t ty' /\ get_layout_tag prop extra unsigned ty' = Err e).
      { induction IH as [|[k t] m Ht Hm IHm]; cbn [traverse] in E; [discriminate E|]. cbn [fst snd] in *.
        destruct (no_error (value_to_cbor k)) as [k'|e0|w|] eqn:E1; cbn [bind] in E; try discriminate E.
        - destruct (tagged_cbor prop extra unsigned t) as [c|e0|w|] eqn:E2; cbn [bind] in E; try discriminate E.
          + match type of E with bind ?o _ = _ => destruct o as [m'|e'|w|] eqn:E' end; cbn [bind] in E; try discriminate E.
            injection E as ->. destruct (IHm eq_refl) as (k1 & t1 & ty' & I & U & G). exists k1, t1, ty'. split; [now right|auto].
          + injection E as ->. destruct (Ht eq_refl) as (ty' & U & G). exists k, t, ty'. split; [now left|auto].
        - destruct (value_to_cbor k) as [?|[]|?|]; discriminate E1. }
      destruct K as (k & t & ty' & I & U & G). exists ty'. split; [eapply us_map; eauto|exact G].
  - intros H. match type of H with bind ?o _ = _ => destruct o as [m'|e'|w|] eqn:E end; cbn [bind] in H; try discriminate H.
    + exists ty. split; [now constructor|]. now apply W in H.
    + injection H as ->. clear W.
      assert (K : exists t ty', In t l /\ Uses t ty' /\ get_layout_tag prop extra unsigned ty' = Err e).
      { induction IH as [|t m Ht Hm IHm]; cbn [traverse] in E; [discriminate E|].
        destruct (tagged_cbor prop extra unsigned t) as [c|e0|w|] eqn:E2; cbn [bind] in E; try discriminate E.
        - match type of E with bind ?o _ = _ => destruct o as [m'|e'|w|] eqn:E' end; cbn [bind] in E; try discriminate E.
          injection E as ->. destruct (IHm eq_refl) as (t1 & ty' & I & U & G). exists t1, ty'. split; [now right|auto].
        - injection E as ->. destruct (Ht eq_refl) as (ty' & U & G). exists t, ty'. split; [now left|auto]. }
      destruct K as (t & ty' & I & U & G). exists ty'. split; [eapply us_list; eauto|exact G].
  - intros H. apply NE in H as (c & _ & H). discriminate H.
Qed.

Section Cli.
Context {TS : TextSyntax} {IS : IriSyntax} {AE : AbsExternal} {X : Xsd} {CC : Cmp cbor} {F : Type} {FM : Formats F}.
Variables (arbitrary_precision : bool) (json_float : string -> option F)
  (from_f64 : F -> option Qc) (to_f64 : Qc -> F).
Variable index : list (quad term) -> dataset term.
Variable order : list (quad res) -> list (quad res).
Variable lines : list (quad term) -> list (quad term).
Variable is_unsigned_long : string -> bool.
Variable file : string -> option string.

Notation run_given extra := (run arbitrary_precision json_float from_f64 to_f64 index order lines extra is_unsigned_long file).
Notation run_with := (run_extra arbitrary_precision json_float from_f64 to_f64 index order lines is_unsigned_long file).
Notation prelude_of fuel np := (if np : bool then None else Some (prelude_registry arbitrary_precision json_float from_f64 fuel)).
Notation registry_of fuel np m := (union_get (reg_with (layouts_get m) (option_get (prelude_of fuel np)))).

Lemma extra_loads stdin fuel a : run_with stdin fuel a =
  let* x := load_all_extra file fuel (a_layouts a) [] [] 0 in
  let '(rs, m, ex, n) := x in
  let* y := load_all_extra file fuel (a_include a) m ex n in
  let '(_, m, ex, n) := y in
  match a_command a with
  | None => Ok ""%string
  | Some c => run_command from_f64 to_f64 index order lines (run_properties (prelude_of fuel (a_no_prelude a)) m ex) is_unsigned_long stdin fuel c
      (registry_of fuel (a_no_prelude a) m) (fold_left (fun d r => default_set r d) rs DefaultNone)
  end.
Proof.
  unfold run_extra. rewrite load_files_extra_all, bind_bind. apply bind_ext. intros [[[rs m] ex] n]. cbn [bind]. rewrite include_files_extra_all, bind_bind.
  apply bind_ext. intros [[[rs' m'] ex'] n']. reflexivity.
Qed.

(** The program is that of [CliModel.v] for some extra properties: what is proved of it for all of them holds. *)
Theorem C112_refines stdin fuel a : exists extra, run_with stdin fuel a = run_given extra stdin fuel a.
Proof.
  rewrite extra_loads. destruct (all_erase file fuel (a_layouts a) [] [] 0) as [ex1 ->].
  destruct (load_all file fuel (a_layouts a) [] 0) as [[[rs m] n]|e|w|] eqn:L; cbn [bind];
    [|exists (fun _ => None); rewrite run_loads, L; reflexivity ..].
  destruct (all_erase file fuel (a_include a) m ex1 n) as [ex2 ->].
  destruct (load_all file fuel (a_include a) m n) as [[[rs' m'] n']|e|w|] eqn:L'; cbn [bind];
    [|exists (fun _ => None); rewrite run_loads, L; cbn [bind]; rewrite L'; reflexivity ..].
  exists (run_properties (prelude_of fuel (a_no_prelude a)) m' ex2). rewrite run_loads, L. cbn [bind]. rewrite L'. cbn [bind]. reflexivity.
Qed.

(** Except for the hydration in CBOR, they play no role. *)
Theorem C112_other_commands stdin fuel a extra : no_tags (a_command a) -> run_with stdin fuel a = run_given extra stdin fuel a.
Proof.
  intros NT. destruct (C112_refines stdin fuel a) as [extra' ->]. rewrite !run_loads. apply bind_ext. intros [[rs m] n].
  apply bind_ext. intros [[rs' m'] n']. destruct (a_command a) as [[[|] layout subjects pretty|input layout|input output pretty|]|]; try reflexivity.
  elim (NT layout subjects pretty eq_refl).
Qed.


Lemma load_no_tag fuel names : forall m n e, load_all file fuel names m n <> Err (CliCborTag e).
Proof.
  assert (CP : forall (p : prelayout term) e, compile (E := cli_error) fuel p <> Err e).
  { intros [l|pat h res dt|h res pat|l|l] e; cbn [compile]; try discriminate;
      (destruct pat as [x|]; cbn [compile_pattern bind]; [unfold compile_regexp; destruct (re_build fuel x); discriminate|discriminate]). }
  assert (BB : forall (b : @AbsModel.builder term) m e, builder_build_into (E := cli_error) fuel b m <> Err e).
  { induction b as [|[id p] b IH]; intros m e; cbn [builder_build_into]; [discriminate|]. specialize (CP p).
    destruct (compile fuel p) as [l|e'|w|]; cbn [bind]; [apply IH|now elim (CP e')|discriminate|discriminate]. }
  assert (IL : forall new m e, insert_layouts new m <> Err (CliCborTag e)).
  { induction new as [|[id l] new IH]; intros m e; cbn [insert_layouts]; [discriminate|]. unfold layouts_insert. destruct (bt_get id m); [discriminate|apply IH]. }
  induction names as [|name names IH]; intros m n e; cbn [load_all]; [discriminate|].
  destruct (file name) as [source|]; cbn [ok_or bind]; [|discriminate].
  assert (LL : forall e, load_layout fuel source m n <> Err (CliCborTag e)).
  { intro e0. unfold load_layout. destruct (json_parse source) as [j|]; [|discriminate]. destruct (layout_from_json j) as [l| | |]; cbn [map_err bind]; try discriminate.
    destruct (build_with_context term_context l (n, [])) as [o s]. destruct o as [r| | |]; cbn [map_err bind]; try discriminate.
    specialize (BB (snd s) []). unfold builder_build. destruct (builder_build_into fuel (snd s) []) as [new|e'|w|]; cbn [bind]; try discriminate; [|now elim (BB e')].
    specialize (IL new m). destruct (insert_layouts new m) as [m'|e'|w|]; cbn [bind]; try discriminate. intros [= ->]. now elim (IL e0). }
  destruct (load_layout fuel source m n) as [[[r m1] n1]|e'|w|]; cbn [bind]; try discriminate; [|intros [= ->]; now elim (LL e)].
  specialize (IH m1 n1 e). destruct (load_all file fuel names m1 n1) as [[[rs m2] n2]|e'|w|]; cbn [bind]; try discriminate. intros [= ->]. now elim IH.
Qed.

Notation get_tag extra := (get_layout_tag (Some (TmIri cbor_tag_iri)) extra is_unsigned_long).

(** The tag of a layout of the registry. *)
Lemma tag_known fuel np names rs m ex n : preset_syntax -> load_all_extra file fuel names [] [] 0 = Ok (rs, m, ex, n) ->
  exists ls, Forall2 (document file) names ls /\ Forall2 (defines_with m (fun r => bt_get r ex) no_env) ls rs /\
  forall ty, registry_of fuel np m ty <> None ->
  (forall t, get_tag (run_properties (prelude_of fuel np) m ex) ty = Ok t <-> tag_of is_unsigned_long m (fun r => bt_get r ex) ls np ty t) /\
  forall w, get_tag (run_properties (prelude_of fuel np) m ex) ty <> Panic w.
Proof.
  intros PS L. destruct (all_brings_extra _ _ _ _ _ _ _ _ _ _ L) as (_ & ls & D & K & _ & _ & DF & OR).
  { split; [constructor|]. split; [constructor|]. reflexivity. }
  exists ls. split; [exact D|]. split; [exact DF|]. intros ty R. destruct (layouts_get m ty) as [lay|] eqn:G.
  - assert (GN : layouts_get m ty <> None) by congruence.
    assert (E : get_tag (run_properties (prelude_of fuel np) m ex) ty = get_tag (registry_properties m ex) ty).
    { unfold get_layout_tag, run_properties, registry_properties. rewrite G. reflexivity. }
    rewrite E. destruct (OR ty GN) as [Q|(l & l' & env & I & IN & defs & DD & LK)]; [now elim Q|].
    destruct (C105_tag is_unsigned_long defs env l' ty m ex DD GN) as [T1 T2]. split; [|exact T2]. intros t. split.
    + intros T. left. exists l, l', env. split; [exact I|]. split; [exact IN|]. split; [now exists defs|]. now apply T1.
    + intros [(l1 & l1' & env1 & I1 & IN1 & (defs1 & DD1 & _) & T)|(N & _)]; [|congruence].
      now apply (C105_tag is_unsigned_long defs1 env1 l1' ty m ex DD1 GN).
  - destruct (registry_of fuel np m ty) as [lay|] eqn:RG; [|now elim R].
    pose proof (proj1 (registry_lookup arbitrary_precision json_float from_f64 fuel np m PS ty lay) RG) as [Q|(_ & NP & p & EP & _)]; [congruence|].
    assert (E : run_properties (prelude_of fuel np) m ex ty = Some []).
    { unfold run_properties, registry_properties. rewrite G. unfold union_get, reg_with in RG. cbn [u_1 u_0] in RG. rewrite G in RG. now rewrite RG. }
    unfold get_layout_tag. rewrite E. cbn [bt_get]. split; [|discriminate]. intros t. split.
    + intros [= <-]. right. split; [exact G|]. split; [exact NP|]. split; [now exists p|reflexivity].
    + intros [(l & l' & env & _ & _ & (defs & DD & LK) & _)|(_ & _ & _ & ->)]; [|reflexivity]. exfalso.
      rewrite described_eq in DD. destruct DD as (_ & _ & q & DQ & _). destruct (LK _ _ DQ) as (lay' & G' & _). congruence.
Qed.

(** Loading the two lists of files. *)
Lemma load_extra_app fuel names names' : forall m ex n,
  load_all_extra file fuel (names ++ names') m ex n =
  let* x := load_all_extra file fuel names m ex n in let '(rs, m, ex, n) := x in
  let* y := load_all_extra file fuel names' m ex n in let '(rs', m, ex, n) := y in Ok (rs ++ rs', m, ex, n).
Proof.
  induction names as [|name names IH]; intros m ex n; cbn [load_all_extra app].
  - cbn [bind]. destruct (load_all_extra file fuel names' m ex n) as [[[[rs m1] ex1] n1]| | |]; reflexivity.
  - rewrite bind_bind. apply bind_ext. intro source. rewrite bind_bind. apply bind_ext. intros [[[r m1] ex1] n1]. rewrite IH, !bind_bind.
    apply bind_ext. intros [[[rs m2] ex2] n2]. rewrite bind_bind. cbn [bind]. apply bind_ext. intros [[[rs' m3] ex3] n3]. reflexivity.
Qed.

Lemma extra_run stdin fuel ls is np layout subjects pretty o :
  run_with stdin fuel (Args ls is np (Some (Hydrate Cbor layout subjects pretty))) = o ->
  (exists out, o = Ok out) \/ (exists e, o = Err (CliCborTag e)) ->
  exists rs1 rs2 m ex n r ds v, load_all_extra file fuel (ls ++ is) [] [] 0 = Ok (rs1 ++ rs2, m, ex, n) /\ length rs1 = length ls /\
    default_get (fold_left (fun d r => default_set r d) rs1 DefaultNone) layout = Ok r /\
    rdf_load stdin = Ok ds /\ hydrate (index ds) (registry_of fuel np m) fuel r subjects = Ok v /\
    o = (let* c := map_err CliCborTag (tagged_cbor (Some (TmIri cbor_tag_iri)) (run_properties (prelude_of fuel np) m ex) is_unsigned_long v) in
         Ok (cbor_value_print c)).
Proof.
  rewrite extra_loads. cbn [a_layouts a_include a_command a_no_prelude]. intros H O.
  assert (OK : forall m ex n names, (exists x, load_all_extra file fuel names m ex n = Ok x) \/
    forall A (f : _ -> outcome cli_error A), (forall out, bind (load_all_extra file fuel names m ex n) f <> Ok out) /\ (forall e, bind (load_all_extra file fuel names m ex n) f <> Err (CliCborTag e))).
  { intros m ex n names. destruct (all_erase file fuel names m ex n) as [ex' E]. rewrite E. pose proof (load_no_tag fuel names m n) as NT.
    destruct (load_all file fuel names m n) as [[[rs m1] n1]|e|w|]; cbn [bind]; [left; eauto|right; split; try discriminate ..].
    intros e0 [= ->]. now elim (NT e0). }
  destruct (OK [] [] 0 ls) as [[[[[rs1 m1] ex1] n1] L1]|N].
  2:{ exfalso. destruct (N _ (fun x => let '(rs, m, ex, n) := x in
  let* y := load_all_extra file fuel is m ex n in
  let '(_, m, ex, n) := y in
   run_command from_f64 to_f64 index order lines (run_properties (prelude_of fuel np) m ex) is_unsigned_long stdin fuel (Hydrate Cbor layout subjects pretty)
      (registry_of fuel np m) (fold_left (fun d r => default_set r d) rs DefaultNone))) as [N1 N2]. destruct O as [[out ->]|[e ->]]; [now elim (N1 out)|now elim (N2 e)]. }
  rewrite L1 in H. cbn [bind] in H.
  destruct (OK m1 ex1 n1 is) as [[[[[rs2 m] ex] n] L2]|N].
  2:{ exfalso. destruct (N _ (fun y => 
  let '(_, m, ex, n) := y in
   run_command from_f64 to_f64 index order lines (run_properties (prelude_of fuel np) m ex) is_unsigned_long stdin fuel (Hydrate Cbor layout subjects pretty)
      (registry_of fuel np m) (fold_left (fun d r => default_set r d) rs1 DefaultNone))) as [N1 N2]. destruct O as [[out ->]|[e ->]]; [now elim (N1 out)|now elim (N2 e)]. }
  rewrite L2 in H. cbn [bind run_command] in H.
  destruct (default_get (fold_left (fun d r => default_set r d) rs1 DefaultNone) layout) as [r|e|w|] eqn:D; cbn [bind] in H.
  2:{ exfalso. unfold default_get in D. destruct layout; [discriminate D|]. destruct O as [[? ->]|[? ->]]; [discriminate H|]. injection H as ->.
      destruct (fold_left _ _ _); discriminate D. }
  2,3: exfalso; destruct O as [[? ->]|[? ->]]; discriminate H.
  unfold rdf_load in *. destruct (nquads_parse stdin) as [qs|]; cbn [ok_or bind] in *; [|exfalso; destruct O as [[? ->]|[? ->]]; discriminate H].
  match type of H with context [hydrate ?D ?reg ?f ?r ?s] => destruct (hydrate D reg f r s) as [v|e|w|] eqn:HY end; cbn [map_err bind] in H;
    try (exfalso; destruct O as [[? ->]|[? ->]]; discriminate H).
  exists rs1, rs2, m, ex, n, r, (fold_left (fun d q => DehydrateModel.ds_insert q d) qs []), v.
  split; [rewrite load_extra_app, L1; cbn [bind]; rewrite L2; reflexivity|]. split.
  { destruct (all_brings_extra _ _ _ _ _ _ _ _ _ _ L1) as (_ & dl & D1 & _ & _ & _ & DF & _). { split; [constructor|]. split; [constructor|]. reflexivity. }
    clear - D1 DF. revert rs1 DF. induction D1 as [|? ? ? ? _ _ IH]; intros rs DF; inversion DF; subst; [reflexivity|]. cbn [length]. f_equal. auto. }
  split; [exact D|]. split; [reflexivity|]. split; [exact HY|]. now rewrite <- H.
Qed.

(** The layout of the command: the one that is given, or that of the only file. *)
Lemma extra_default rs1 rs2 ls layout r : length rs1 = length (ls : list string) ->
  default_get (fold_left (fun d r => default_set r d) rs1 DefaultNone) layout = Ok r -> layout_used layout ls (rs1 ++ rs2) r.
Proof.
  intros LEN D. destruct layout as [t|]; cbn [default_get layout_used] in *; [congruence|]. rewrite default_none in D.
  destruct rs1 as [|r1 [|r2 rs1]], ls as [|f [|f2 ls]]; try discriminate LEN; try discriminate D. cbn in D. injection D as ->.
  split; [now exists f|]. now exists rs2.
Qed.

Lemma extra_conforms stdin fuel np names rs m ex n r subjects ds v : preset_syntax -> dataset_laws index order lines ->
  load_all_extra file fuel names [] [] 0 = Ok (rs, m, ex, n) -> rdf_load stdin = Ok ds -> hydrate (index ds) (registry_of fuel np m) fuel r subjects = Ok v ->
  holds_quads stdin (fun q => In q ds) /\ Conforms (registry_of fuel np m) r v.
Proof.
  intros PS DL L LD HY.
  assert (ND : NoDup ds /\ holds_quads stdin (fun q => In q ds)).
  { unfold rdf_load in LD. destruct (nquads_parse stdin) as [qs|] eqn:NP; [|discriminate LD]. injection LD as <-. split; [apply ds_insert_all_NoDup; constructor|].
    exists qs. split; [exact NP|]. intro q. rewrite ds_insert_all_In. cbn. tauto. }
  destruct ND as [ND HQ]. split; [exact HQ|]. eapply C14_conforms; [exact (index_all _ _ _ DL ds ND)| |exact HY].
  intros q lay E. apply (registry_lookup arbitrary_precision json_float from_f64 fuel np m PS) in E as [E|(_ & _ & p & _ & ->)]; [|apply preset_sorted].
  destruct (all_brings_extra _ _ _ _ _ _ _ _ _ _ L) as (LA & _). { split; [constructor|]. split; [constructor|]. reflexivity. }
  destruct (row_placed _ _ _ _ _ _ _ _ LA empty_wf) as (tr & _ & _ & _ & G). refine (rows_sorted file fuel tr m _ q lay E).
  intros q0 l0. rewrite G. split; [intros [Q|Q]; [discriminate Q|exact Q]|now right].
Qed.

(** C112.  What is written is the value of the hydration, each item of which has the tag written in the files for its layout, or none if there is none. *)
Theorem C112_tags stdin fuel ls is np layout subjects pretty out : preset_syntax -> dataset_laws index order lines ->
  run_with stdin fuel (Args ls is np (Some (Hydrate Cbor layout subjects pretty))) = Ok out ->
  exists docs rs m props reg r ds v tag c,
    Forall2 (document file) (ls ++ is) docs /\ Forall2 (defines_with m props no_env) docs rs /\ lookup m np reg /\ layout_used layout ls rs r /\
    holds_quads stdin (fun q => In q ds) /\ hydrate (index ds) reg fuel r subjects = Ok v /\
    out = cbor_value_print c /\ Tagged tag v c /\
    forall ty, Uses v ty -> forall t, tag_of is_unsigned_long m props docs np ty t <-> t = tag ty.
Proof.
  intros PS DL H. destruct (extra_run _ _ _ _ _ _ _ _ _ H) as (rs1 & rs2 & m & ex & n & r & ds & v & L & LEN & D & LD & HY & E); [left; eauto|].
  symmetry in E. apply bind_Ok in E as (c & TC & E). injection E as <-.
  destruct (tagged_cbor _ _ _ v) as [c'| | |] eqn:T; try discriminate TC. injection TC as ->.
  destruct (tag_known fuel np _ _ _ _ _ PS L) as (docs & DC & DF & TK).
  destruct (extra_conforms _ _ _ _ _ _ _ _ _ _ _ _ PS DL L LD HY) as [HQ CF].
  set (gt := get_layout_tag (Some (TmIri cbor_tag_iri)) (run_properties (prelude_of fuel np) m ex) is_unsigned_long) in *.
  pose proof (C69_tags_valid _ _ _ _ _ T) as TV.
  set (tag := fun ty => match gt ty with Ok t => t | _ => None end).
  assert (TT : forall ty, Uses v ty -> gt ty = Ok (tag ty)).
  { intros ty U. destruct (TV ty U) as [t Et]. unfold tag, gt. now rewrite Et. }
  exists docs, (rs1 ++ rs2), m, (fun r => bt_get r ex), (registry_of fuel np m), r, ds, v, tag, c.
  split; [exact DC|]. split; [exact DF|]. split; [now apply registry_lookup|]. split; [now apply extra_default|]. split; [exact HQ|]. split; [exact HY|].
  split; [reflexivity|]. split.
  - now apply (C69_tagged (Some (TmIri cbor_tag_iri)) (run_properties (prelude_of fuel np) m ex) is_unsigned_long tag v c TT).
  - intros ty U t. rewrite <- (proj1 (TK ty (uses_defined _ _ _ _ CF U)) t). fold gt. rewrite (TT ty U). split; [now intros [= ->]|now intros ->].
Qed.

(** The hydration in CBOR is refused because of a tag only when the tag of a layout of the value is invalid: it is not a number below 2^64 of a type of
    unsigned numbers. *)
Theorem C112_refused stdin fuel ls is np layout subjects pretty e : preset_syntax -> dataset_laws index order lines ->
  run_with stdin fuel (Args ls is np (Some (Hydrate Cbor layout subjects pretty))) = Err (CliCborTag e) ->
  exists docs rs m props reg r ds v ty,
    Forall2 (document file) (ls ++ is) docs /\ Forall2 (defines_with m props no_env) docs rs /\ lookup m np reg /\ layout_used layout ls rs r /\
    holds_quads stdin (fun q => In q ds) /\ hydrate (index ds) reg fuel r subjects = Ok v /\
    Uses v ty /\ forall t, ~ tag_of is_unsigned_long m props docs np ty t.
Proof.
  intros PS DL H. destruct (extra_run _ _ _ _ _ _ _ _ _ H) as (rs1 & rs2 & m & ex & n & r & ds & v & L & LEN & D & LD & HY & E); [right; eauto|].
  destruct (tagged_cbor (Some (TmIri cbor_tag_iri)) (run_properties (prelude_of fuel np) m ex) is_unsigned_long v) as [c| e'| |] eqn:T;
    try discriminate E. cbn [map_err bind] in E. injection E as <-.
  destruct (tag_known fuel np _ _ _ _ _ PS L) as (docs & DC & DF & TK).
  destruct (extra_conforms _ _ _ _ _ _ _ _ _ _ _ _ PS DL L LD HY) as [HQ CF].
  destruct (tagged_error _ _ _ _ _ T) as (ty & U & G).
  exists docs, (rs1 ++ rs2), m, (fun r => bt_get r ex), (registry_of fuel np m), r, ds, v, ty.
  split; [exact DC|]. split; [exact DF|]. split; [now apply registry_lookup|]. split; [now apply extra_default|]. split; [exact HQ|]. split; [exact HY|].
  split; [exact U|]. intros t Ht. apply (TK ty (uses_defined _ _ _ _ CF U)) in Ht. congruence.
Qed.
End Cli.
