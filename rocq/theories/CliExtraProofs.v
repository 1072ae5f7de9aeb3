(** * Proofs for C112: loading the layouts with their properties *)

From Coq Require Import String Ascii List Bool Arith NArith ZArith Qcanon Lia.
Import ListNotations.
From Verif Require Import Base BaseProofs Orders PatternModel ValueModel LayoutModel HydrateModel TermModel
  DehydrateModel DehydrateFinish JsonModel CborModel AbsModel AbsSpec AbsProofs AbsProperties AbsMeaning AbsRegistry AbsJsonModel AbsJsonSpec AbsJsonProperties
  GenSpec CodeGenModel PreludeSpec PreludeModel CliModel CliSpec CliProofs CliProperties
  ExtraModel ExtraSpec ExtraProofs ExtraProperties CliExtraModel CliExtraSpec.
Open Scope list_scope.
Open Scope nat_scope.

Lemma add_extras_get (new : @extras term) : bt_wf new -> forall ex, bt_wf ex ->
  bt_wf (add_extras new ex) /\
  forall r, bt_get r (add_extras new ex) = match bt_get r new with Some p => Some p | None => bt_get r ex end.
Proof.
  unfold add_extras. induction new as [|[id p] new IH]; intros W ex We; cbn [fold_left fst snd]; [split; [exact We|reflexivity]|].
  assert (W' : bt_wf new) by (inversion W; assumption). destruct (IH W' (bt_insert id p ex) (bt_insert_wf _ _ _ We)) as [A B]. split; [exact A|].
  intro r. rewrite B, bt_insert_get. cbn [bt_get]. destruct (eqb_spec r id) as [->|NE]; [|reflexivity].
  destruct (bt_get id new) as [l0|] eqn:G; [|reflexivity]. exfalso. apply bt_get_In in G.
  inversion W as [|? ? _ FA]; subst. rewrite Forall_forall in FA.
  assert (I : In id (map fst new)) by (apply in_map_iff; now exists (id, l0)). specialize (FA _ I). now apply lt_irrefl in FA.
Qed.

Lemma inside_refl l : AbsSpec.inside l l.
Proof. constructor. Qed.

Section Load.
Context {TS : TextSyntax} {IS : IriSyntax} {AE : AbsExternal} {F : Type} {FM : Formats F}.
Notation ctx := term_context.

(** Without the properties: [load_layout]. *)
Lemma load_erase fuel source m ex n : exists ex', load_layout_extra fuel source m ex n =
  let* x := load_layout fuel source m n in let '(r, m, n) := x in Ok (r, m, ex', n).
Proof.
  unfold load_layout_extra, load_layout. destruct (json_parse source) as [j|]; [|now exists []].
  destruct (map_err CliLayoutSyntax (layout_from_json j)) as [l|e|w|]; cbn [bind]; try (now exists []).
  destruct (C105_same_layouts ctx l n [] []) as [ex' E]. exists (add_extras ex' ex). unfold extras, builder in E. rewrite E.
  destruct (build_with_context ctx l (n, [])) as [o s]. cbn [fst snd].
  rewrite bind_bind. apply bind_ext. intro r. rewrite bind_bind. apply bind_ext. intro new. rewrite bind_bind. apply bind_ext. reflexivity.
Qed.

(** The properties are those of layouts. *)
Definition kept_with (m : layouts term) (ex : @extras term) : Prop :=
  bt_wf m /\ bt_wf ex /\ forall r, layouts_get m r = None -> bt_get r ex = None.

Lemma defines_with_mono (m m' : layouts term) (ex ex' : @extras term) env l r :
  (forall q lay, layouts_get m q = Some lay -> layouts_get m' q = Some lay) -> (forall q p, bt_get q ex = Some p -> bt_get q ex' = Some p) ->
  defines_with m (fun r => bt_get r ex) env l r -> defines_with m' (fun r => bt_get r ex') env l r.
Proof.
  intros M E (defs & D & L). exists defs. split; [revert D; apply described_mono; auto|]. intros q p Q. destruct (L q p Q) as (lay & G & O). eauto.
Qed.

Lemma load_brings_extra fuel source m ex n r m' ex' n' : load_layout_extra fuel source m ex n = Ok (r, m', ex', n') -> kept_with m ex ->
  load_layout fuel source m n = Ok (r, m', n') /\
  exists j l, json_parse source = Some j /\ layout_doc j l /\ kept_with m' ex' /\
    (forall q lay, layouts_get m q = Some lay -> layouts_get m' q = Some lay) /\
    (forall q p, bt_get q ex = Some p -> bt_get q ex' = Some p) /\
    defines_with m' (fun r => bt_get r ex') no_env l r /\
    (forall q, layouts_get m' q <> None -> layouts_get m q <> None \/
       exists l' env, AbsSpec.inside l l' /\ defines_with m' (fun r => bt_get r ex') env l' q).
Proof.
  intros H (Wm & We & KE). split.
  { destruct (load_erase fuel source m ex n) as [e E]. rewrite E in H. apply bind_Ok in H as ([[r1 m1] n1] & -> & H). now injection H as <- <- _ <-. }
  unfold load_layout_extra in H. destruct (json_parse source) as [j|] eqn:P; [|discriminate H].
  apply bind_Ok in H as (l & R & H). destruct (layout_from_json j) as [l0| | |] eqn:D; try discriminate R. injection R as <-.
  apply C56_reads in D. destruct (build_with_extra ctx l0 (n, [], [])) as [o [[n1 ex1] b1]] eqn:B. cbn [fst snd] in H.
  apply bind_Ok in H as (r0 & R & H). destruct o as [r1| | |]; try discriminate R. injection R as <-.
  apply bind_Ok in H as (new & BB & H). apply bind_Ok in H as (m1 & I & H). injection H as <- <- <- <-.
  destruct (C105_described ctx l0 n [] [] r1 n1 ex1 b1 B ltac:(constructor) ltac:(constructor) ltac:(reflexivity)) as (ME & _ & OR & Wb & Wx & KX).
  destruct (C76_registry fuel b1 new Wb BB) as [Wn G0]. destruct (registry_keys fuel b1 new Wb BB) as [_ K].
  pose proof (insert_layouts_inv new m m1 I) as INV.
  destruct (insert_layouts_ok new m Wn Wm INV) as (m2 & I2 & Wm' & G). rewrite I in I2. injection I2 as <-.
  destruct (add_extras_get ex1 Wx ex We) as [Wa GA].
  assert (NEW : forall q p, bt_get q ex1 = Some p -> layouts_get m q = None).
  { intros q p Q. apply INV, K. intro N. apply KX in N. congruence. }
  assert (DEFS : forall env l q, described (ctx_iri ctx) (ctx_lit ctx) (fun r => bt_get r b1) (fun r => bt_get r ex1) env l q ->
    defines_with m1 (fun r => bt_get r (add_extras ex1 ex)) env l q).
  { intros env l q Q. exists (fun r => bt_get r b1). split.
    - apply (described_mono _ _ (fun r => bt_get r b1) (fun r => bt_get r b1) (fun r => bt_get r ex1)); [auto|intros r p Q'; rewrite GA; now rewrite Q'|].
      revert Q. apply described_res; intros i t [st <-]; reflexivity.
    - intros q' p Q'. specialize (G0 q'). rewrite Q' in G0. destruct G0 as (lay & G1 & G2). exists lay. split; [|exact G2].
      rewrite G. unfold layouts_get in G1. now rewrite G1. }
  exists j, l0. split; [reflexivity|]. split; [exact D|]. split; [|split; [|split; [|split]]].
  - split; [exact Wm'|]. split; [exact Wa|]. intros q Q. rewrite G in Q. destruct (bt_get q new) as [lay|] eqn:E; [discriminate Q|].
    rewrite GA, (KE q Q). destruct (bt_get q ex1) as [p|] eqn:E1; [|reflexivity]. exfalso.
    assert (bt_get q b1 <> None) as Q' by (intro N; apply KX in N; congruence). apply K in Q'. congruence.
  - intros q lay Q. rewrite G. destruct (bt_get q new) eqn:E; [|exact Q]. rewrite INV in Q; congruence.
  - intros q p Q. rewrite GA. destruct (bt_get q ex1) as [p1|] eqn:E; [|exact Q]. rewrite (KE q (NEW q p1 E)) in Q. discriminate Q.
  - now apply DEFS.
  - intros q Q. rewrite G in Q. destruct (bt_get q new) as [lay|] eqn:E; [right|now left].
    assert (Q' : bt_get q b1 <> None) by (apply K; congruence). destruct (bt_get q b1) as [p|] eqn:E'; [|now elim Q'].
    destruct (OR q p E') as [OR'|(l' & env & IN & M)]; [discriminate OR'|]. exists l', env. split; [exact IN|now apply DEFS].
Qed.
End Load.

Section Loops.
Context {TS : TextSyntax} {IS : IriSyntax} {AE : AbsExternal} {F : Type} {FM : Formats F}.
Variable file : string -> option string.

(** Both loops: see [load_all]. *)
Fixpoint load_all_extra (fuel : nat) (names : list string) (m : layouts term) (ex : @extras term) (n : nat)
  : outcome cli_error (list term * layouts term * @extras term * nat) :=
  match names with
  | [] => Ok ([], m, ex, n)
  | name :: names' =>
      let* source := ok_or CliIO (file name) in
      let* x := load_layout_extra fuel source m ex n in
      let '(r, m, ex, n) := x in
      let* y := load_all_extra fuel names' m ex n in
      let '(rs, m, ex, n) := y in Ok (r :: rs, m, ex, n)
  end.

Lemma load_files_extra_all fuel names : forall d m ex n,
  load_files_extra file fuel names d m ex n =
  let* x := load_all_extra fuel names m ex n in let '(rs, m, ex, n) := x in Ok (fold_left (fun d r => default_set r d) rs d, m, ex, n).
Proof.
  induction names as [|name names IH]; intros d m ex n; [reflexivity|]. cbn [load_files_extra load_all_extra]. rewrite bind_bind. apply bind_ext. intro source.
  rewrite bind_bind. apply bind_ext. intros [[[r m1] ex1] n1]. rewrite IH, bind_bind. apply bind_ext. intros [[[rs m2] ex2] n2]. reflexivity.
Qed.
Lemma include_files_extra_all fuel names : forall m ex n,
  include_files_extra file fuel names m ex n = let* x := load_all_extra fuel names m ex n in let '(_, m, ex, n) := x in Ok (m, ex, n).
Proof.
  induction names as [|name names IH]; intros m ex n; [reflexivity|]. cbn [include_files_extra load_all_extra]. rewrite bind_bind. apply bind_ext. intro source.
  rewrite bind_bind. apply bind_ext. intros [[[r m1] ex1] n1]. rewrite IH, bind_bind. apply bind_ext. intros [[[rs m2] ex2] n2]. reflexivity.
Qed.

(** Without the properties: [load_all]. *)
Lemma all_erase fuel names : forall m ex n, exists ex', load_all_extra fuel names m ex n =
  let* x := load_all file fuel names m n in let '(rs, m, n) := x in Ok (rs, m, ex', n).
Proof.
  induction names as [|name names IH]; intros m ex n; cbn [load_all_extra load_all]; [now exists ex|].
  destruct (ok_or CliIO (file name)) as [source|e|w|]; cbn [bind]; try (now exists ex).
  destruct (load_erase fuel source m ex n) as [ex1 ->]. rewrite !bind_bind.
  destruct (load_layout fuel source m n) as [[[r m1] n1]|e|w|]; cbn [bind]; try (now exists ex).
  destruct (IH m1 ex1 n1) as [ex2 ->]. exists ex2. rewrite !bind_bind. apply bind_ext. intros [[rs m2] n2]. reflexivity.
Qed.

Lemma all_brings_extra fuel names : forall m ex n rs m' ex' n', load_all_extra fuel names m ex n = Ok (rs, m', ex', n') -> kept_with m ex ->
  load_all file fuel names m n = Ok (rs, m', n') /\
  exists ls, Forall2 (document file) names ls /\ kept_with m' ex' /\
    (forall q lay, layouts_get m q = Some lay -> layouts_get m' q = Some lay) /\
    (forall q p, bt_get q ex = Some p -> bt_get q ex' = Some p) /\
    Forall2 (defines_with m' (fun r => bt_get r ex') no_env) ls rs /\
    (forall q, layouts_get m' q <> None -> layouts_get m q <> None \/
       exists l l' env, In l ls /\ AbsSpec.inside l l' /\ defines_with m' (fun r => bt_get r ex') env l' q).
Proof.
  induction names as [|name names IH]; intros m ex n rs m' ex' n' H K; cbn [load_all_extra] in H.
  - injection H as <- <- <- <-. split; [reflexivity|]. exists []. split; [constructor|]. split; [exact K|]. split; [auto|]. split; [auto|]. split; [constructor|]. auto.
  - apply bind_Ok in H as (source & FI & H). apply bind_Ok in H as ([[[r m1] ex1] n1] & L & H).
    apply bind_Ok in H as ([[[rs' m2] ex2] n2] & L' & H). injection H as <- <- <- <-.
    destruct (load_brings_extra _ _ _ _ _ _ _ _ _ L K) as (E & j & l & P & D & K1 & M1 & X1 & DF & OR).
    destruct (IH _ _ _ _ _ _ _ L' K1) as (E' & ls & D' & K2 & M2 & X2 & DF' & OR').
    split; [cbn [load_all]; rewrite FI; cbn [bind]; rewrite E; cbn [bind]; rewrite E'; reflexivity|].
    exists (l :: ls). split; [|split; [exact K2|split; [auto|split; [auto|split]]]].
    + constructor; [|exact D']. exists source, j. destruct (file name); [injection FI as <-; auto|discriminate FI].
    + constructor; [eapply defines_with_mono; eassumption|exact DF'].
    + intros q Q. apply OR' in Q as [Q|(l1 & l2 & env & I & IN & Q)]; [|right; exists l1, l2, env; split; [now right|auto]].
      apply OR in Q as [Q|(l2 & env & IN & Q)]; [now left|right]. exists l, l2, env. split; [now left|]. split; [exact IN|].
      eapply defines_with_mono; eassumption.
Qed.
End Loops.
