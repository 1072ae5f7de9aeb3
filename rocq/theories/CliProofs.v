(** * Proofs about the command line *)

From Coq Require Import String Ascii List Bool Arith NArith ZArith Qcanon Permutation Lia.
Import ListNotations.
From Verif Require Import Base BaseProofs Orders PatternModel MatchingModel ValueModel LayoutModel HydrateModel TermModel
  DehydrateModel DehydrateFinish JsonModel CborModel RegexpModel RegexpSpec RegexpGood AbsModel AbsSpec AbsProofs AbsJsonModel
  AbsJsonSpec AbsJsonProperties AbsAcceptSpec AbsAccept AbsMeaning AbsRegistry GenSpec CodeGenModel PreludeSpec PreludeModel
  PreludeProperties CliModel CliSpec.
Open Scope list_scope.
Open Scope nat_scope.

(** ** The documents read from JSON have good patterns *)
Section Good.
Context {TS : TextSyntax}.

Lemma ref_nested D j (r : alayout_ref alayout) l : ref_doc D j r -> nested_ref r l -> exists o, D o l.
Proof. intros H N. destruct H as [|o l' H]; [discriminate N|]. injection N as ->. eauto. Qed.
Lemma format_nested D d j (f : aformat alayout) l : format_doc D d j f -> nested_format f l -> exists o, D o l.
Proof.
  intros H N. destruct H as [j r H _|o r input graph _ (j & _ & H) _ _]; cbn [nested_format] in N; eapply ref_nested; eassumption.
Qed.
Lemma item_nested D j (it : aitem alayout) l : item_doc D j it -> nested_format (ai_value it) l -> exists o, D o l.
Proof. intros H N. destruct H as [o intro f ds p _ _ (j & _ & H) _ _]. eapply format_nested; eassumption. Qed.

Lemma nested_doc l l' o : nested l l' -> object_doc o l -> exists o', object_doc o' l'.
Proof.
  intros N D. destruct N as [h fs k f l I N|h vs k v l I N|h hd rs intro f ds p q l N|h r p q l N|h it l N|h its it l I N].
  - inversion D as [| | | | | |? ? ? _ H| | | | | |]; subst. destruct H as [(j & _ & o1 & raw & _ & F2 & ->)|[_ ->]]; [|destruct I].
    apply bt_collect_In in I as [k' I]. destruct (Forall2_In_r _ _ _ _ F2 I) as ([k2 j2] & _ & _ & H). cbn [fst snd] in H.
    destruct H as [o2 intro f0 ds p req _ _ (j3 & _ & H) _ _ _]. cbn [af_item ai_value] in N. eapply format_nested; eassumption.
  - inversion D as [| | | | | | |? ? ? _ H| | | | |]; subst. destruct H as [(j & _ & o1 & raw & _ & F2 & ->)|[_ ->]]; [|destruct I].
    apply bt_collect_In in I as [k' I]. destruct (Forall2_In_r _ _ _ _ F2 I) as ([k2 j2] & _ & _ & H). cbn [fst snd] in H.
    destruct H as [o2 intro f0 ds _ _ (j3 & _ & H) _]. cbn [av_value] in N. eapply format_nested; eassumption.
  - inversion D as [| | | | | | | |? ? ? ? ? _ (j & _ & H) _ _| | | |]; subst. inversion H as [|? ? ? ? ? ? _ _ _ _ (j3 & _ & H') _]; subst.
    eapply format_nested; eassumption.
  - inversion D as [| | | | | | | |? ? ? ? ? _ (j & _ & H) _ _| | | |]; subst. inversion H as [? ? H' _|]; subst.
    eapply ref_nested; eassumption.
  - inversion D as [| | | | | | | | |? ? ? _ (j & _ & H)| | |]; subst. eapply item_nested; eassumption.
  - inversion D as [| | | | | | | | | |? ? ? _ H| |]; subst. destruct H as [(j & _ & js & _ & F2)|[_ ->]]; [|destruct I].
    destruct (Forall2_In_r _ _ _ _ F2 I) as (j2 & _ & H). eapply item_nested; eassumption.
Qed.

Lemma inside_doc l l' : AbsSpec.inside l l' -> forall j, layout_doc j l -> exists j', layout_doc j' l'.
Proof.
  induction 1 as [l|l l' l'' N I IH]; intros j D; [eauto|]. inversion D as [|o ? D']; subst; [inversion N|].
  destruct (nested_doc _ _ _ N D') as [o' D'']. apply (IH (JObj o')). now constructor.
Qed.

Lemma document_good j l : scalar_values -> layout_doc j l -> good_patterns l.
Proof.
  intros SV D l' h res e I H. destruct (inside_doc _ _ I _ D) as [j' D']. inversion D' as [|o ? D'']; subst.
  - destruct H as [H|[dt H]]; discriminate H.
  - destruct H as [->|[dt ->]].
    + inversion D'' as [| | | | |? ? ? ? _ K _| | | | | | |]; subst. destruct K as (j1 & _ & s & _ & P).
      eapply re_parse_good; [|exact P]. apply SV.
    + inversion D'' as [| | | |? ? ? ? ? _ K _ _| | | | | | | |]; subst. destruct K as (j1 & _ & s & _ & P).
      eapply re_parse_good; [|exact P]. apply SV.
Qed.
End Good.

(** ** Loading *)

(** No layout has the reference of a blank node to come. *)
Definition no_later (n : nat) (m : layouts term) : Prop := forall k, n <= k -> layouts_get m (TmBlank (nat_string k)) = None.
(** The references added. *)
Definition extends (ids : list string) (n : nat) (m : layouts term) (n' : nat) (m' : layouts term) : Prop :=
  n <= n' /\
  forall r, layouts_get m' r <> None <->
    layouts_get m r <> None \/ (exists i, In i ids /\ r = TmIri i) \/ (exists k, n <= k < n' /\ r = TmBlank (nat_string k)).

Lemma insert_layouts_ok new : forall m, bt_wf new -> bt_wf m ->
  (forall r, bt_get r new <> None -> layouts_get m r = None) ->
  exists m', insert_layouts new m = Ok m' /\ bt_wf m' /\
    forall r, layouts_get m' r = match bt_get r new with Some l => Some l | None => layouts_get m r end.
Proof.
  induction new as [|[id l] new IH]; intros m W Wm H; cbn [insert_layouts].
  - exists m. split; [reflexivity|]. split; [exact Wm|]. reflexivity.
  - unfold layouts_insert. assert (E : bt_get id m = None).
    { apply H. cbn [bt_get]. destruct (eqb_spec id id); congruence. }
    rewrite E. assert (W' : bt_wf new) by (inversion W; assumption).
    assert (N : bt_get id new = None).
    { destruct (bt_get id new) as [l0|] eqn:G; [|reflexivity]. exfalso. apply bt_get_In in G.
      inversion W as [|? ? _ FA]; subst. rewrite Forall_forall in FA.
      assert (I : In id (map fst new)) by (apply in_map_iff; now exists (id, l0)). specialize (FA _ I).
      now apply lt_irrefl in FA. }
    destruct (IH (bt_insert id l m) W') as (m' & E' & Wm' & G).
    + now apply bt_insert_wf.
    + intros r Hr. unfold layouts_get. rewrite bt_insert_get. destruct (eqb_spec r id) as [->|NE]; [congruence|].
      apply H. cbn [bt_get]. destruct (eqb_spec r id); congruence.
    + exists m'. split; [exact E'|]. split; [exact Wm'|]. intro r. rewrite G. unfold layouts_get. rewrite bt_insert_get.
      cbn [bt_get]. destruct (eqb_spec r id) as [->|NE]; [now rewrite N|reflexivity].
Qed.

Lemma insert_layouts_inv new : forall m m', insert_layouts new m = Ok m' ->
  forall r, bt_get r new <> None -> layouts_get m r = None.
Proof.
  induction new as [|[id l] new IH]; intros m m' H r Hr; [now elim Hr|]. cbn [insert_layouts] in H.
  unfold layouts_insert in H. destruct (bt_get id m) eqn:E; [discriminate H|].
  cbn [bt_get] in Hr. destruct (eqb_spec r id) as [EQ|NE]; [rewrite EQ; exact E|]. specialize (IH _ _ H r Hr). unfold layouts_get in *.
  rewrite bt_insert_get in IH. destruct (eqb_spec r id); [congruence|exact IH].
Qed.

Section Load.
Context {TS : TextSyntax} {IS : IriSyntax} {AE : AbsExternal} {F : Type} {FM : Formats F}.
Notation ctx := term_context.

Lemma registry_keys {E} fuel (b : @builder term) new : bt_wf b -> builder_build (E := E) fuel b = Ok new ->
  bt_wf new /\ forall r, bt_get r new <> None <-> bt_get r b <> None.
Proof.
  intros W H. destruct (C76_registry fuel b new W H) as [W' G]. split; [exact W'|]. intro r. specialize (G r).
  unfold layouts_get in G. destruct (bt_get r b) as [p|]; [destruct G as (l & -> & _); split; congruence|rewrite G; tauto].
Qed.

(** A document which is accepted is loaded, whatever the layouts there are, if it redefines none. *)
Lemma load_accepts source j l ids n : scalar_values -> json_parse source = Some j -> layout_doc j l ->
  well_formed no_env l ids -> NoDup ids ->
  exists N n', forall fuel, N <= fuel -> forall m, bt_wf m -> no_later n m ->
    (forall i, In i ids -> layouts_get m (TmIri i) = None) ->
    exists r m', load_layout fuel source m n = Ok (r, m', n') /\ bt_wf m' /\ extends ids n m n' m'.
Proof.
  intros SV P D W ND.
  destruct (makes_layout l no_env scope_default (agrees_env scope_default) sees_default (n, [])) as [H1 _]; [intros k _; reflexivity|].
  destruct (H1 ids W) as (r & [n' b'] & B & [L Ad]); [split; [exact ND|reflexivity]|]. clear H1. cbn [fst snd] in *.
  assert (W0 : bt_wf (snd (n, @nil (term * prelayout term)))) by constructor.
  destruct (C70_definitions ctx l (n, []) r (n', b') B W0) as (Wb & _ & _). cbn [snd] in Wb.
  destruct (C76_document (E := cli_error) ctx l (n, []) r (n', b') B W0 (document_good _ _ SV D) ltac:(intros ? ? [])) as [N T].
  exists N, n'. intros fuel LE m Wm NL FR. destruct (T fuel LE) as (new & BB & _). cbn [snd] in BB.
  destruct (registry_keys fuel b' new Wb BB) as [Wn K].
  destruct (insert_layouts_ok new m Wn Wm) as (m' & I & Wm' & G).
  { intros q Hq. apply K, Ad in Hq as [Hq|[(i & Hi & ->)|(k & Lk & ->)]]; [now elim Hq|now apply FR|]. apply NL. lia. }
  exists r, m'. split; [|split; [exact Wm'|split; [exact L|]]].
  - unfold load_layout. rewrite P. rewrite (proj2 (C56_reads j l) D). cbn [map_err bind].
    unfold build_with_context. rewrite B. cbn [map_err bind snd fst]. rewrite BB. cbn [bind]. rewrite I. reflexivity.
  - intros q. rewrite G. specialize (K q). specialize (Ad q). cbn [bt_get] in Ad.
    destruct (bt_get q new) as [lay|].
    + split; [intros _|intros _; discriminate]. assert (Q : bt_get q b' <> None) by (apply K; discriminate).
      apply Ad in Q as [Q|Q]; [now elim Q|now right].
    + split; [intros Q; now left|]. intros [Q|Q]; [exact Q|]. exfalso. assert (bt_get q b' <> None) as Q' by (apply Ad; now right).
      apply K in Q'. now elim Q'.
Qed.

(** What a file loaded has brought. *)
Lemma load_brings fuel source m n r m' n' : load_layout fuel source m n = Ok (r, m', n') -> bt_wf m -> no_later n m ->
  exists j l ids, json_parse source = Some j /\ layout_doc j l /\ well_formed no_env l ids /\ NoDup ids /\
    (forall i, In i ids -> layouts_get m (TmIri i) = None) /\ extends ids n m n' m' /\ bt_wf m' /\
    (forall q lay, layouts_get m q = Some lay -> layouts_get m' q = Some lay) /\
    defines m' l r /\ (forall q, layouts_get m' q <> None -> layouts_get m q <> None \/ written_in m' l q) /\
    (forall i, identifier l i -> r = TmIri i) /\ (anonymous l -> r = TmBlank (nat_string n)).
Proof.
  intros H Wm NL. unfold load_layout in H. destruct (json_parse source) as [j|] eqn:P; [|discriminate H].
  apply bind_Ok in H as (l & R & H). destruct (layout_from_json j) as [l0| | |] eqn:D; try discriminate R. injection R as <-.
  apply C56_reads in D. destruct (build_with_context ctx l0 (n, [])) as [o [n1 b1]] eqn:B. cbn [fst snd] in H.
  apply bind_Ok in H as (r0 & R & H). destruct o as [r1| | |]; try discriminate R. injection R as <-.
  apply bind_Ok in H as (new & BB & H). apply bind_Ok in H as (m1 & I & H). injection H as <- <- <-.
  assert (W0 : bt_wf (snd (n, @nil (term * prelayout term)))) by constructor.
  destruct (makes_layout l0 no_env scope_default (agrees_env scope_default) sees_default (n, [])) as [_ H2]; [intros k _; reflexivity|].
  destruct (H2 _ _ B) as (ids & W & [ND _] & [L Ad]). clear H2. cbn [fst snd] in *.
  destruct (C70_definitions ctx l0 (n, []) r1 (n1, b1) B W0) as (Wb & _ & OR). cbn [snd] in Wb, OR.
  pose proof (C70_meaning ctx l0 (n, []) r1 (n1, b1) B W0) as ME. cbn [snd] in ME.
  destruct (C76_registry fuel b1 new Wb BB) as [Wn G0]. destruct (registry_keys fuel b1 new Wb BB) as [_ K].
  pose proof (insert_layouts_inv new m m1 I) as INV.
  destruct (insert_layouts_ok new m Wn Wm INV) as (m2 & I2 & Wm' & G). rewrite I in I2. injection I2 as <-.
  assert (DEFS : forall q p, bt_get q b1 = Some p -> exists lay, layouts_get m1 q = Some lay /\ layout_of p lay).
  { intros q p Q. specialize (G0 q). rewrite Q in G0. destruct G0 as (lay & G1 & G2). exists lay. split; [|exact G2].
    rewrite G. unfold layouts_get in G1. now rewrite G1. }
  exists j, l0, ids. split; [reflexivity|]. split; [exact D|]. split; [exact W|]. split; [exact ND|]. split; [|split; [|split; [exact Wm'|split; [|split; [|split; [|split]]]]]].
  - intros i Hi. apply INV. apply K, Ad. right. left. eauto.
  - split; [exact L|]. intros q. rewrite G. specialize (K q). specialize (Ad q). cbn [bt_get] in Ad.
    destruct (bt_get q new) as [lay|].
    + split; [intros _|intros _; discriminate]. assert (Q : bt_get q b1 <> None) by (apply K; discriminate).
      apply Ad in Q as [Q|Q]; [now elim Q|now right].
    + split; [intros Q; now left|]. intros [Q|Q]; [exact Q|]. exfalso. assert (bt_get q b1 <> None) as Q' by (apply Ad; now right).
      apply K in Q'. now elim Q'.
  - intros q lay Q. rewrite G. destruct (bt_get q new) eqn:E; [|exact Q]. rewrite INV in Q; congruence.
  - exists (fun q => bt_get q b1). split; [exact ME|exact DEFS].
  - intros q Q. rewrite G in Q. destruct (bt_get q new) as [lay|] eqn:E; [right|now left].
    assert (Q' : bt_get q b1 <> None) by (apply K; congruence). destruct (bt_get q b1) as [p|] eqn:E'; [|now elim Q'].
    destruct (OR q p E') as [OR'|(l' & env & IN & M)]; [discriminate OR'|].
    exists (fun q => bt_get q b1), l', env. split; [exact IN|]. split; [exact M|exact DEFS].
  - intros i (h & c & Hh & Hc & Di). assert (M : iri_resource_denotes (ctx_iri ctx) no_env c r1) by (destruct l0; exact (proj1 ME _ _ Hh Hc)).
    destruct M as (i' & Di' & st & E). cbn in E. apply (denotes_resolve _ _ _ _ (agrees_env scope_default)) in Di, Di'. congruence.
  - intros A. clear - B A. unfold build_with_context in B. assert (B' : layout_body ctx (build_layout ctx) l0 scope_default (n, []) = (Ok r1, (n1, b1))) by (destruct l0; exact B).
    clear B. rename B' into B. unfold layout_body in B.
    assert (N0 : layout_id l0 = None).
    { destruct l0 as [h c|k h res|h fs|h vs|h nd hd tl|h it|h its|b|h|h]; cbn; try (apply A; reflexivity). reflexivity. }
    rewrite N0 in B. unfold bindM at 1 in B. cbn [anonymous_resource c_anonymous term_context fst snd] in B.
    unfold bindM at 1 in B. destruct (layout_pre _ _ _ _ _) as [[pre|e|w|] [n2 b2]]; try discriminate B.
    unfold bindM, insert_layout in B. cbn [snd fst] in B. destruct (bt_get _ b2); [discriminate B|]. unfold ret in B. cbn [snd fst] in B.
    injection B as <- _ _. reflexivity.
Qed.
End Load.

(** ** The loops *)
Section Loops.
Context {TS : TextSyntax} {IS : IriSyntax} {AE : AbsExternal} {F : Type} {FM : Formats F}.
Variable file : string -> option string.

(** Both loops, with the references of the documents. *)
Fixpoint load_all (fuel : nat) (names : list string) (m : layouts term) (n : nat)
  : outcome cli_error (list term * layouts term * nat) :=
  match names with
  | [] => Ok ([], m, n)
  | name :: names' =>
      let* source := ok_or CliIO (file name) in
      let* x := load_layout fuel source m n in
      let '(r, m, n) := x in
      let* y := load_all fuel names' m n in
      let '(rs, m, n) := y in Ok (r :: rs, m, n)
  end.

Lemma bind_bind {E A B C} (o : outcome E A) (f : A -> outcome E B) (g : B -> outcome E C) :
  (let* b := (let* a := o in f a) in g b) = (let* a := o in let* b := f a in g b).
Proof. destruct o; reflexivity. Qed.
Lemma bind_ext {E A B} (o : outcome E A) (f g : A -> outcome E B) : (forall a, f a = g a) -> bind o f = bind o g.
Proof. intro H. destruct o; cbn; auto. Qed.

Lemma load_files_all fuel names : forall d m n,
  load_files file fuel names d m n =
  let* x := load_all fuel names m n in let '(rs, m, n) := x in Ok (fold_left (fun d r => default_set r d) rs d, m, n).
Proof.
  induction names as [|name names IH]; intros d m n; [reflexivity|]. cbn [load_files load_all]. rewrite bind_bind. apply bind_ext. intro source.
  rewrite bind_bind. apply bind_ext. intros [[r m1] n1]. rewrite IH, bind_bind. apply bind_ext. intros [[rs m2] n2]. reflexivity.
Qed.
Lemma include_files_all fuel names : forall m n,
  include_files file fuel names m n = let* x := load_all fuel names m n in let '(_, m, n) := x in Ok (m, n).
Proof.
  induction names as [|name names IH]; intros m n; [reflexivity|]. cbn [include_files load_all]. rewrite bind_bind. apply bind_ext. intro source.
  rewrite bind_bind. apply bind_ext. intros [[r m1] n1]. rewrite IH, bind_bind. apply bind_ext. intros [[rs m2] n2]. reflexivity.
Qed.
Lemma load_all_app fuel names names' : forall m n,
  load_all fuel (names ++ names') m n =
  let* x := load_all fuel names m n in let '(rs, m, n) := x in
  let* y := load_all fuel names' m n in let '(rs', m, n) := y in Ok (rs ++ rs', m, n).
Proof.
  induction names as [|name names IH]; intros m n; cbn [load_all app].
  - cbn [bind]. destruct (load_all fuel names' m n) as [[[rs m1] n1]| | |]; reflexivity.
  - rewrite bind_bind. apply bind_ext. intro source. rewrite bind_bind. apply bind_ext. intros [[r m1] n1]. rewrite IH, !bind_bind.
    apply bind_ext. intros [[rs m2] n2]. rewrite bind_bind. cbn [bind]. apply bind_ext. intros [[rs' m3] n3]. reflexivity.
Qed.

Lemma extends_later ids n m n' m' : no_later n m -> extends ids n m n' m' -> no_later n' m'.
Proof.
  intros NL [L H] k Hk. destruct (layouts_get m' (TmBlank (nat_string k))) as [x|] eqn:E; [|reflexivity]. exfalso.
  assert (layouts_get m' (TmBlank (nat_string k)) <> None) as Q by congruence.
  apply H in Q as [Q|[(i & _ & Q)|(k' & Lk & Q)]]; [apply Q, NL; lia|discriminate Q|]. injection Q as Q. apply nat_string_inj in Q. lia.
Qed.
Lemma extends_trans ids n m n1 m1 ids' n2 m2 : extends ids n m n1 m1 -> extends ids' n1 m1 n2 m2 -> extends (ids ++ ids') n m n2 m2.
Proof.
  intros [L H] [L' H']. split; [lia|]. intro r. rewrite H', H. split.
  - intros [[K|[(i & I & ->)|(k & Lk & ->)]]|[(i & I & ->)|(k & Lk & ->)]]; auto.
    + right. left. exists i. split; [apply in_or_app; auto|reflexivity].
    + right. right. exists k. split; [lia|reflexivity].
    + right. left. exists i. split; [apply in_or_app; auto|reflexivity].
    + right. right. exists k. split; [lia|reflexivity].
  - intros [K|[(i & I & ->)|(k & Lk & ->)]]; auto.
    + apply in_app_or in I as [I|I]; [left; right; left; eauto|right; left; eauto].
    + destruct (Nat.lt_ge_cases k n1); [left; right; right|right; right]; exists k; (split; [lia|reflexivity]).
Qed.

Lemma all_accepts names ls idss : scalar_values -> Forall2 (document file) names ls -> Forall2 (well_formed no_env) ls idss ->
  NoDup (concat idss) -> forall n, exists N n', forall fuel, N <= fuel -> forall m, bt_wf m -> no_later n m ->
    (forall i, In i (concat idss) -> layouts_get m (TmIri i) = None) ->
    exists rs m', load_all fuel names m n = Ok (rs, m', n') /\ bt_wf m' /\ extends (concat idss) n m n' m'.
Proof.
  intros SV D. revert idss. induction D as [|name l names ls D _ IH]; intros idss W ND n.
  - inversion W; subst. exists 0, n. intros fuel _ m Wm NL _. exists [], m. split; [reflexivity|]. split; [exact Wm|].
    split; [lia|]. intro r. cbn. split; [auto|]. intros [K|[(i & [] & _)|(k & Lk & _)]]; [exact K|lia].
  - inversion W as [|? ids ? idss' W1 W2]; subst. cbn [concat] in ND |- *. destruct (NoDup_app_split _ _ ND) as [ND1 ND2].
    destruct D as (source & j & FI & P & D). destruct (load_accepts source j l ids n SV P D W1 ND1) as (N1 & n1 & H1).
    destruct (IH idss' W2 ND2 n1) as (N2 & n2 & H2). exists (Nat.max N1 N2), n2. intros fuel LE m Wm NL FR.
    destruct (H1 fuel ltac:(lia) m Wm NL) as (r & m1 & E1 & Wm1 & X1); [intros i I; apply FR, in_or_app; auto|].
    destruct (H2 fuel ltac:(lia) m1 Wm1 (extends_later _ _ _ _ _ NL X1)) as (rs & m2 & E2 & Wm2 & X2).
    { intros i I. destruct (layouts_get m1 (TmIri i)) as [x|] eqn:E; [|reflexivity]. exfalso.
      assert (layouts_get m1 (TmIri i) <> None) as Q by congruence. apply X1 in Q as [Q|[(i' & I' & [= <-])|(k & _ & Q)]]; [|
        |discriminate Q].
      - apply Q, FR, in_or_app. auto.
      - clear - ND I I'. induction ids as [|x ids IH]; [destruct I'|]. cbn in ND. inversion ND as [|? ? NI ND']; subst.
        destruct I' as [->|I']; [apply NI, in_or_app; auto|auto]. }
    exists (r :: rs), m2. split; [|split; [exact Wm2|eapply extends_trans; eassumption]].
    cbn [load_all]. rewrite FI. cbn [ok_or bind]. rewrite E1. cbn [bind]. rewrite E2. reflexivity.
Qed.

Lemma defines_mono (m m' : layouts term) l r : (forall q lay, layouts_get m q = Some lay -> layouts_get m' q = Some lay) ->
  defines m l r -> defines m' l r.
Proof. intros H (defs & C & D). exists defs. split; [exact C|]. intros q p Q. destruct (D q p Q) as (lay & G & O). eauto. Qed.
Lemma written_mono (m m' : layouts term) l r : (forall q lay, layouts_get m q = Some lay -> layouts_get m' q = Some lay) ->
  written_in m l r -> written_in m' l r.
Proof.
  intros H (defs & l' & env & I & C & D). exists defs, l', env. split; [exact I|]. split; [exact C|].
  intros q p Q. destruct (D q p Q) as (lay & G & O). eauto.
Qed.

(** The references of the documents. *)
Definition reference (l : alayout) (r : term) : Prop :=
  (forall i, identifier l i -> r = TmIri i) /\ (anonymous l -> exists k, r = TmBlank (nat_string k)).

Lemma all_brings fuel names : forall m n rs m' n', load_all fuel names m n = Ok (rs, m', n') -> bt_wf m -> no_later n m ->
  exists ls idss, Forall2 (document file) names ls /\ Forall2 (well_formed no_env) ls idss /\ NoDup (concat idss) /\
    (forall i, In i (concat idss) -> layouts_get m (TmIri i) = None) /\ extends (concat idss) n m n' m' /\ bt_wf m' /\
    (forall q lay, layouts_get m q = Some lay -> layouts_get m' q = Some lay) /\
    Forall2 (defines m') ls rs /\ Forall2 reference ls rs /\
    (forall q, layouts_get m' q <> None -> layouts_get m q <> None \/ exists l, In l ls /\ written_in m' l q).
Proof.
  induction names as [|name names IH]; intros m n rs m' n' H Wm NL; cbn [load_all] in H.
  - injection H as <- <- <-. exists [], []. do 2 (split; [constructor|]). split; [constructor|]. split; [intros i []|]. split.
    + split; [lia|]. intro r. cbn. split; [auto|]. intros [K|[(i & [] & _)|(k & Lk & _)]]; [exact K|lia].
    + split; [exact Wm|]. split; [auto|]. split; [constructor|]. split; [constructor|]. auto.
  - apply bind_Ok in H as (source & FI & H). apply bind_Ok in H as ([[r m1] n1] & L & H).
    apply bind_Ok in H as ([[rs' m2] n2] & L' & H). injection H as <- <- <-.
    destruct (load_brings _ _ _ _ _ _ _ L Wm NL) as (j & l & ids & P & D & W & ND & FR & X & Wm1 & M1 & DF & OR & ID & AN).
    destruct (IH _ _ _ _ _ L' Wm1 (extends_later _ _ _ _ _ NL X)) as (ls & idss & D' & W' & ND' & FR' & X' & Wm2 & M2 & DF' & RF' & OR').
    exists (l :: ls), (ids :: idss). split; [|split; [|split; [|split; [|split; [|split; [|split; [|split; [|split]]]]]]]].
    + constructor; [|exact D']. exists source, j. destruct (file name); [injection FI as <-; auto|discriminate FI].
    + constructor; assumption.
    + cbn [concat]. clear - ND ND' FR' X. induction ids as [|i ids IH]; [exact ND'|]. inversion ND as [|? ? NI ND1]; subst. cbn [app].
      assert (FR2 : forall j, In j (i :: ids) -> ~ In j (concat idss)).
      { intros j I I'. apply FR' in I'. assert (layouts_get m1 (TmIri j) <> None) as Q; [|congruence]. apply X. right. left. eauto. }
      clear IH X. assert (G : forall ids', NoDup ids' -> (forall j, In j ids' -> ~ In j (concat idss)) -> NoDup (ids' ++ concat idss)).
      { induction ids' as [|a ids' IH]; intros N1 N2; [exact ND'|]. inversion N1; subst. cbn. constructor.
        - intro I. apply in_app_or in I as [I|I]; [auto|]. apply (N2 a); [now left|exact I].
        - apply IH; [assumption|]. intros j J. apply N2. now right. }
      apply (G (i :: ids) ND FR2).
    + cbn [concat]. intros i I. apply in_app_or in I as [I|I]; [now apply FR|]. specialize (FR' i I).
      destruct (layouts_get m (TmIri i)) as [x|] eqn:E; [|reflexivity]. rewrite (M1 _ _ E) in FR'. discriminate FR'.
    + cbn [concat]. eapply extends_trans; eassumption.
    + exact Wm2.
    + auto.
    + constructor; [eapply defines_mono; eassumption|exact DF'].
    + constructor; [|exact RF']. split; [exact ID|]. intro A. exists n. auto.
    + intros q Q. apply OR' in Q as [Q|(l1 & I & Q)]; [|right; exists l1; split; [now right|exact Q]].
      apply OR in Q as [Q|Q]; [now left|]. right. exists l. split; [now left|]. eapply written_mono; eassumption.
Qed.
End Loops.
