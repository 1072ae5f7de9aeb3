(** * Proofs for C110: the files of the command line in another order *)

From Coq Require Import String Ascii List Bool Arith NArith ZArith Qcanon Permutation Lia.
Import ListNotations.
From Verif Require Import Base BaseProofs Orders PatternModel MatchingModel MatchingSpec ValueModel LayoutModel LayoutSpec HydrateModel HydrateSpec TermModel
  DehydrateModel DehydrateFinish JsonModel CborModel RegexpModel RegexpSpec RegexpGood AbsModel AbsSpec AbsProofs AbsJsonModel
  AbsJsonSpec AbsJsonProperties AbsAcceptSpec AbsAccept AbsMeaning AbsRegistry GenSpec CodeGenModel PreludeSpec PreludeModel
  PreludeProperties CliModel CliSpec CliProofs RelabelSpec RelabelBuild.
Open Scope list_scope.
Open Scope nat_scope.

(** ** Compilation *)
Lemma compile_renamed {E} (N : term -> term -> Prop) fuel p p' l : renamed_pre N p p' -> compile (E := E) fuel p = Ok l ->
  exists l', compile (E := E) fuel p' = Ok l' /\ renamed_layout N l l' /\ fields_sorted l.
Proof.
  intros H C. destruct p, p'; cbn [renamed_pre] in H; try contradiction; try discriminate C.
  - injection C as <-. cbn [compile]. eexists. split; [reflexivity|]. split; apply H.
  - injection H as <- <- <- <-. exists l. split; [exact C|]. cbn [compile] in C. apply bind_Ok in C as (? & _ & C). injection C as <-. repeat constructor.
  - injection H as <- <- <-. exists l. split; [exact C|]. cbn [compile] in C. apply bind_Ok in C as (? & _ & C). injection C as <-. repeat constructor.
Qed.

Lemma build_into_compiled {E} fuel (b : @builder term) : forall m m',
  builder_build_into (E := E) fuel b m = Ok m' -> bt_wf b ->
  forall r, match bt_get r b with
            | Some p => exists l, bt_get r m' = Some l /\ compile (E := E) fuel p = Ok l
            | None => bt_get r m' = bt_get r m
            end.
Proof.
  induction b as [|[id p] b IH]; intros m m' H W; cbn [builder_build_into] in H.
  - injection H as <-. intro r. reflexivity.
  - apply bind_Ok in H as (l & C & H). cbn [layouts_insert fst] in H.
    unfold bt_wf in W. cbn [keys map fst] in W. inversion W as [|? ? W1 W2]; subst.
    pose proof (IH _ _ H W1) as G. intro r. specialize (G r).
    cbn [bt_get]. rewrite bt_insert_get in G. destruct (eqb_spec r id) as [Er|NE]; [subst r|exact G].
    assert (N : bt_get id b = None).
    { apply bt_get_None. intro I. rewrite Forall_forall in W2. apply (lt_irrefl id). now apply W2. }
    rewrite N in G. exists l. auto.
Qed.
Lemma build_into_ok {E} fuel (b : @builder term) : (forall r p, In (r, p) b -> exists l, compile (E := E) fuel p = Ok l) ->
  forall m, exists m', builder_build_into (E := E) fuel b m = Ok m'.
Proof.
  induction b as [|[id p] b IH]; intros H m; cbn [builder_build_into]; [eauto|].
  destruct (H id p (or_introl eq_refl)) as [l ->]. cbn [bind]. apply IH. intros r q I. eapply H. right. exact I.
Qed.

Section Files.
Context {TS : TextSyntax} {IS : IriSyntax} {AE : AbsExternal} {F : Type} {FM : Formats F}.
Notation ctx := term_context.

(** ** A file *)

(** A file adds the layouts it has alone, if they are new. *)
Lemma load_alone fuel source m n r m' c : load_layout fuel source m n = Ok (r, m', c) -> bt_wf m ->
  exists o, load_layout fuel source [] n = Ok (r, o, c) /\ bt_wf m' /\ (forall q, layouts_get o q <> None -> layouts_get m q = None) /\
    forall q, layouts_get m' q = match layouts_get o q with Some l => Some l | None => layouts_get m q end.
Proof.
  intros H Wm. unfold load_layout in *. destruct (json_parse source) as [j|]; [|discriminate H].
  apply bind_Ok in H as (l & -> & H). cbn [bind]. destruct (build_with_context ctx l (n, [])) as [oc [n1 b1]] eqn:B. cbn [fst snd] in *.
  apply bind_Ok in H as (r0 & E & H). destruct oc as [r1| | |]; try discriminate E. injection E as <-. cbn [map_err bind].
  apply bind_Ok in H as (new & BB & H). rewrite BB. cbn [bind]. apply bind_Ok in H as (m1 & I & H). injection H as <- <- <-.
  assert (W0 : bt_wf (snd (n, @nil (term * prelayout term)))) by constructor.
  destruct (C70_definitions ctx l (n, []) r1 (n1, b1) B W0) as (Wb & _ & _). cbn [snd] in Wb.
  destruct (C76_registry fuel b1 new Wb BB) as [Wn _]. pose proof (insert_layouts_inv new m m1 I) as INV.
  destruct (insert_layouts_ok new m Wn Wm INV) as (m2 & I2 & Wm' & G). rewrite I in I2. injection I2 as <-.
  destruct (insert_layouts_ok new [] Wn ltac:(constructor) ltac:(reflexivity)) as (o & Io & _ & Go). rewrite Io. cbn [bind].
  exists o. split; [reflexivity|]. split; [exact Wm'|].
  assert (EQ : forall q, layouts_get o q = bt_get q new) by (intros q; rewrite Go; destruct (bt_get q new); reflexivity).
  split; intros q; rewrite EQ; [apply INV|apply G].
Qed.
Lemma alone_loads fuel source m n r o c : load_layout fuel source [] n = Ok (r, o, c) -> bt_wf m ->
  (forall q, layouts_get o q <> None -> layouts_get m q = None) -> exists m', load_layout fuel source m n = Ok (r, m', c).
Proof.
  intros H Wm NEW. unfold load_layout in *. destruct (json_parse source) as [j|]; [|discriminate H].
  apply bind_Ok in H as (l & -> & H). cbn [bind]. destruct (build_with_context ctx l (n, [])) as [oc [n1 b1]] eqn:B. cbn [fst snd] in *.
  apply bind_Ok in H as (r0 & E & H). destruct oc as [r1| | |]; try discriminate E. injection E as <-. cbn [map_err bind].
  apply bind_Ok in H as (new & BB & H). rewrite BB. cbn [bind]. apply bind_Ok in H as (m1 & I & H). injection H as <- <- <-.
  assert (W0 : bt_wf (snd (n, @nil (term * prelayout term)))) by constructor.
  destruct (C70_definitions ctx l (n, []) r1 (n1, b1) B W0) as (Wb & _ & _). cbn [snd] in Wb.
  destruct (C76_registry fuel b1 new Wb BB) as [Wn _].
  destruct (insert_layouts_ok new [] Wn ltac:(constructor) ltac:(reflexivity)) as (o & Io & _ & Go). rewrite I in Io. injection Io as <-.
  destruct (insert_layouts_ok new m Wn Wm) as (m2 & -> & _); [|cbn [bind]; eauto].
  intros q Q. apply NEW. rewrite Go. destruct (bt_get q new); congruence.
Qed.

(** The same file with the generator elsewhere. *)
Lemma alone_moved fuel source n n' r o c : load_layout fuel source [] n = Ok (r, o, c) ->
  exists k r' o', c = n + k /\ load_layout fuel source [] n' = Ok (r', o', n' + k) /\ shifted n n' k r r' /\
    renamed_registry (shifted n n' k) (layouts_get o) (layouts_get o') /\ (forall q l, layouts_get o q = Some l -> fields_sorted l).
Proof.
  intros H. unfold load_layout in *. destruct (json_parse source) as [j|]; [|discriminate H].
  apply bind_Ok in H as (l & -> & H). cbn [bind]. destruct (document_moved n n' l) as (k & T & O).
  destruct (build_with_context ctx l (n, [])) as [oc [n1 b1]] eqn:B, (build_with_context ctx l (n', [])) as [oc' [n1' b1']] eqn:B'. cbn [fst snd] in *.
  apply bind_Ok in H as (r0 & E & H). destruct oc as [r1| | |]; try discriminate E. injection E as <-.
  destruct oc' as [r1'| | |]; cbn in O; try contradiction. cbn [map_err bind].
  apply bind_Ok in H as (new & BB & H). apply bind_Ok in H as (m1 & I & H). injection H as <- <- <-.
  destruct T as (E & E' & G & D & D'). cbn [fst snd] in *. subst n1 n1'.
  destruct (C70_definitions ctx l (n, []) r1 (n + k, b1) B ltac:(constructor)) as (Wb & _ & _).
  destruct (C70_definitions ctx l (n', []) r1' (n' + k, b1') B' ltac:(constructor)) as (Wb' & _ & _). cbn [snd] in Wb, Wb'.
  pose proof (build_into_compiled fuel b1 [] new BB Wb) as K.
  destruct (build_into_ok (E := cli_error) fuel b1') with (m := @nil (term * layout term)) as [new' BB'].
  { intros q p' IN. apply (bt_get_wf _ _ _ Wb') in IN. destruct (D' q) as [q0 Q]; [congruence|]. specialize (G _ _ Q). rewrite IN in G.
    specialize (K q0). destruct (bt_get q0 b1) as [p|]; [|contradiction]. destruct K as (l0 & _ & C). destruct (compile_renamed _ _ _ _ _ G C) as (l' & C' & _). eauto. }
  pose proof (build_into_compiled fuel b1' [] new' BB' Wb') as K'. change (builder_build_into fuel b1' []) with (builder_build (E := cli_error) fuel b1') in BB'.
  rewrite BB'. cbn [bind].
  destruct (C76_registry fuel b1 new Wb BB) as [Wn _]. destruct (C76_registry fuel b1' new' Wb' BB') as [Wn' _].
  destruct (insert_layouts_ok new [] Wn ltac:(constructor) ltac:(reflexivity)) as (o & Io & _ & Go). rewrite I in Io. injection Io as <-.
  destruct (insert_layouts_ok new' [] Wn' ltac:(constructor) ltac:(reflexivity)) as (o' & -> & _ & Go'). cbn [bind].
  exists k, r1', o'. split; [reflexivity|]. split; [reflexivity|]. split; [exact O|].
  assert (EQ : forall q, layouts_get m1 q = bt_get q new) by (intros q; rewrite Go; destruct (bt_get q new); reflexivity).
  assert (EQ' : forall q, layouts_get o' q = bt_get q new') by (intros q; rewrite Go'; destruct (bt_get q new'); reflexivity).
  assert (RN : forall q q', shifted n n' k q q' ->
    match bt_get q new, bt_get q' new' with Some l, Some l' => renamed_layout (shifted n n' k) l l' /\ fields_sorted l | None, None => True | _, _ => False end).
  { intros q q' Q. specialize (G _ _ Q). specialize (K q). specialize (K' q'). destruct (bt_get q b1) as [p|], (bt_get q' b1') as [p'|]; try contradiction.
    - destruct K as (l0 & -> & C), K' as (l0' & -> & C'). destruct (compile_renamed _ _ _ _ _ G C) as (l' & C'' & K). rewrite C' in C''. injection C'' as ->. exact K.
    - rewrite K, K'. exact Logic.I. }
  split.
  - intros q q' Q. rewrite EQ, EQ'. specialize (RN _ _ Q). destruct (bt_get q new), (bt_get q' new'); try contradiction; auto. apply RN.
  - intros q l0. rewrite EQ. intros Q. assert (Q0 : bt_get q b1 <> None).
    { intros N. specialize (K q). rewrite N in K. cbn [bt_get] in K. congruence. }
    destruct (D q Q0) as [q' S]. specialize (RN _ _ S). rewrite Q in RN. destruct (bt_get q' new'); [apply RN|contradiction].
Qed.

Variable file : string -> option string.
Variable fuel : nat.

(** The file [name], alone, with the generator at [n]. *)
Definition alone (name : string) (n : nat) (r : term) (o : layouts term) (c : nat) : Prop :=
  exists source, file name = Some source /\ load_layout fuel source [] n = Ok (r, o, c).

Lemma alone_unique name n r o c r' o' c' : alone name n r o c -> alone name n r' o' c' -> r = r' /\ o = o' /\ c = c'.
Proof. intros (s & E & H) (s' & E' & H'). rewrite E in E'. injection E' as <-. rewrite H in H'. injection H' as <- <- <-. auto. Qed.
Lemma alone_elsewhere name n n' r o c : alone name n r o c ->
  exists k r' o', c = n + k /\ alone name n' r' o' (n' + k) /\ shifted n n' k r r' /\
    renamed_registry (shifted n n' k) (layouts_get o) (layouts_get o') /\ (forall q l, layouts_get o q = Some l -> fields_sorted l).
Proof. intros (s & E & H). destruct (alone_moved _ _ _ n' _ _ _ H) as (k & r' & o' & EC & H' & K). exists k, r', o'. split; [exact EC|]. split; [exists s; auto|exact K]. Qed.
Lemma alone_names name n r o c : alone name n r o c -> n <= c /\
  forall q, layouts_get o q <> None <-> (exists i, q = TmIri i /\ layouts_get o q <> None) \/ exists k, n <= k < c /\ q = TmBlank (nat_string k).
Proof.
  intros (s & _ & H). destruct (load_brings _ _ _ _ _ _ _ H ltac:(constructor) ltac:(intros ? ?; reflexivity)) as (j & l & ids & _ & _ & _ & _ & _ & [L X] & _).
  split; [exact L|]. intros q. split.
  - intros Q. pose proof Q as Q'. apply X in Q as [Q|[(i & _ & ->)|Q]]; [now elim Q|left; eauto|now right].
  - intros [(i & _ & Q)|(k & K & ->)]; [exact Q|]. apply X. right. right. eauto.
Qed.

(** ** Files in a row: where each file was loaded *)
Lemma row_placed names : forall m n rs m' c, load_all file fuel names m n = Ok (rs, m', c) -> bt_wf m ->
  exists tr, map fst tr = names /\ Forall2 (fun e r => exists o c, alone (fst e) (snd e) r o c) tr rs /\ bt_wf m' /\
    forall q l, layouts_get m' q = Some l <-> layouts_get m q = Some l \/ exists e r o c, In e tr /\ alone (fst e) (snd e) r o c /\ layouts_get o q = Some l.
Proof.
  induction names as [|name names IH]; intros m n rs m' c H Wm; cbn [load_all] in H.
  - injection H as <- <- <-. exists []. split; [reflexivity|]. split; [constructor|]. split; [exact Wm|]. intros q l. split; [now left|]. intros [H|(e & _ & _ & _ & [] & _)]. exact H.
  - apply bind_Ok in H as (s & E & H). destruct (file name) as [s0|] eqn:FE; [injection E as ->|discriminate E].
    apply bind_Ok in H as ([[r m1] n1] & L & H). apply bind_Ok in H as ([[rs1 m2] n2] & LA & H). injection H as <- <- <-.
    destruct (load_alone _ _ _ _ _ _ _ L Wm) as (o & A & W1 & NEW & G). destruct (IH _ _ _ _ _ LA W1) as (tr & ET & FA & W2 & G2).
    assert (AL : alone name n r o n1) by (exists s; auto).
    exists ((name, n) :: tr). split; [cbn; congruence|]. split; [constructor; [cbn [fst snd]; eauto|exact FA]|]. split; [exact W2|].
    intros q l. rewrite G2, G. split.
    + intros [Q|(e & r1 & o1 & c1 & I & Q)]; [|right; exists e, r1, o1, c1; split; [now right|exact Q]].
      destruct (layouts_get o q) as [l0|] eqn:EO; [|now left]. right. exists (name, n), r, o, n1. split; [now left|]. split; [exact AL|congruence].
    + intros [Q|(e & r1 & o1 & c1 & [<-|I] & A1 & Q)].
      * left. destruct (layouts_get o q) as [l0|] eqn:EO; [|exact Q]. rewrite NEW in Q; congruence.
      * left. cbn [fst snd] in A1. destruct (alone_unique _ _ _ _ _ _ _ _ AL A1) as (_ & <- & _). now rewrite Q.
      * right. eauto 8.
Qed.

(** ** The same files in another order are accepted *)
Definition apart (a b : string) : Prop := forall n r o c n' r' o' c' i, alone a n r o c -> alone b n' r' o' c' ->
  layouts_get o (TmIri i) <> None -> layouts_get o' (TmIri i) = None.
Definition good (a : string) : Prop := exists n r o c, alone a n r o c.

Lemma apart_sym a b : apart a b -> apart b a.
Proof.
  intros H n r o c n' r' o' c' i A B Q. destruct (layouts_get o' (TmIri i)) eqn:E; [|reflexivity]. exfalso. apply Q. eapply H; eauto. congruence.
Qed.
Lemma iri_defined name n r o c n' r' o' c' i : alone name n r o c -> alone name n' r' o' c' -> layouts_get o (TmIri i) <> None -> layouts_get o' (TmIri i) <> None.
Proof.
  intros A B Q. destruct (alone_elsewhere _ _ n' _ _ _ A) as (k & r1 & o1 & _ & A1 & _ & RR & _). destruct (alone_unique _ _ _ _ _ _ _ _ B A1) as (_ & -> & _).
  specialize (RR (TmIri i) (TmIri i) ltac:(left; eauto)). destruct (layouts_get o (TmIri i)), (layouts_get o1 (TmIri i)); try contradiction; congruence.
Qed.

Lemma row_apart names : forall m n rs m' c, load_all file fuel names m n = Ok (rs, m', c) -> bt_wf m ->
  Forall good names /\ ForallOrdPairs apart names /\
  forall b n r o c i, In b names -> alone b n r o c -> layouts_get o (TmIri i) <> None -> layouts_get m (TmIri i) = None.
Proof.
  induction names as [|name names IH]; intros m n rs m' c H Wm; cbn [load_all] in H.
  - split; [constructor|]. split; [constructor|]. intros ? ? ? ? ? ? [].
  - apply bind_Ok in H as (s & E & H). destruct (file name) as [s0|] eqn:FE; [injection E as ->|discriminate E].
    apply bind_Ok in H as ([[r m1] n1] & L & H). apply bind_Ok in H as ([[rs1 m2] n2] & LA & H). injection H as <- <- <-.
    destruct (load_alone _ _ _ _ _ _ _ L Wm) as (o & A & W1 & NEW & G). assert (AL : alone name n r o n1) by (exists s; auto).
    destruct (IH _ _ _ _ _ LA W1) as (GD & AP & FR).
    split; [constructor; [exists n, r, o, n1; exact AL|exact GD]|]. split.
    + constructor; [|exact AP]. apply Forall_forall. intros b B na ra oa ca nb rb ob cb i Aa Ab Q.
      destruct (layouts_get ob (TmIri i)) eqn:EB; [exfalso|reflexivity]. assert (Q1 : layouts_get m1 (TmIri i) = None) by (eapply FR; eauto; congruence).
      rewrite G in Q1. pose proof (iri_defined _ _ _ _ _ _ _ _ _ _ Aa AL Q) as Q2. destruct (layouts_get o (TmIri i)); congruence.
    + intros b nb rb ob cb i [<-|B] Ab Q.
      * apply NEW. eapply iri_defined; eauto.
      * specialize (FR _ _ _ _ _ _ B Ab Q). rewrite G in FR. destruct (layouts_get o (TmIri i)); [discriminate FR|exact FR].
Qed.

Lemma pairs_perm {A} (P : A -> A -> Prop) l l' : (forall a b, P a b -> P b a) -> Permutation l l' -> ForallOrdPairs P l -> ForallOrdPairs P l'.
Proof.
  intros S H. induction H as [|x l l' H IH|x y l|l l' l'' _ IH1 _ IH2]; intros FP; auto.
  - inversion FP; subst. constructor; [eapply Permutation_Forall; eauto|auto].
  - inversion FP as [|? ? F1 F2]; subst. inversion F2 as [|? ? F3 F4]; subst. inversion F1; subst. constructor; [constructor; auto|]. constructor; auto.
Qed.

Lemma row_again names : forall m n, Forall good names -> ForallOrdPairs apart names -> bt_wf m -> no_later n m ->
  (forall b n r o c i, In b names -> alone b n r o c -> layouts_get o (TmIri i) <> None -> layouts_get m (TmIri i) = None) ->
  exists rs m' c, load_all file fuel names m n = Ok (rs, m', c).
Proof.
  induction names as [|name names IH]; intros m n GD AP Wm NL FR; cbn [load_all]; [eauto|].
  inversion GD as [|? ? (n0 & r0 & o0 & c0 & A0) GD']; subst. inversion AP as [|? ? AP1 AP2]; subst.
  destruct (alone_elsewhere _ _ n _ _ _ A0) as (k & r & o & _ & A & _). destruct (alone_names _ _ _ _ _ A) as [LE NM].
  pose proof A as (s & FE & L). rewrite FE. cbn [ok_or bind].
  destruct (alone_loads _ _ m _ _ _ _ L Wm) as [m1 L1].
  { intros q Q. pose proof Q as Q'. apply NM in Q as [(i & -> & Q)|(j & J & ->)]; [eapply FR; eauto; now left|apply NL; lia]. }
  rewrite L1. cbn [bind]. destruct (load_alone _ _ _ _ _ _ _ L1 Wm) as (o1 & A1 & W1 & _ & G). rewrite L in A1. injection A1 as <-.
  destruct (IH m1 (n + k)) as (rs & m' & c & ->); auto; [| |cbn [bind]; eauto].
  - intros j J. rewrite G. destruct (layouts_get o (TmBlank (nat_string j))) eqn:E; [|apply NL; lia]. exfalso.
    assert (Q : layouts_get o (TmBlank (nat_string j)) <> None) by congruence. apply NM in Q as [(i & Q & _)|(j' & J' & Q)]; [discriminate Q|]. injection Q as Q. apply nat_string_inj in Q. lia.
  - intros b nb rb ob cb i B Ab Q. rewrite G. destruct (layouts_get o (TmIri i)) eqn:E; [|eapply FR; eauto; now right]. exfalso. apply Q.
    rewrite Forall_forall in AP1. eapply (AP1 b B); eauto. congruence.
Qed.

(** ** The names of the two runs *)
Definition matched (tr tr' : list (string * nat)) (r r' : term) : Prop :=
  (exists i, r = TmIri i /\ r' = TmIri i) \/
  exists name a a' k, In (name, a) tr /\ In (name, a') tr' /\ (exists q o, alone name a q o (a + k)) /\
    exists i, i < k /\ r = TmBlank (nat_string (a + i)) /\ r' = TmBlank (nat_string (a' + i)).

Lemma matched_swap tr tr' r r' : matched tr tr' r r' -> matched tr' tr r' r.
Proof.
  intros [(i & -> & ->)|(name & a & a' & k & I & I' & (q & o & A) & i & L & -> & ->)]; [left; eauto|]. right.
  destruct (alone_elsewhere _ _ a' _ _ _ A) as (k0 & q' & o' & EK & A' & _). assert (k0 = k) as -> by lia. exists name, a', a, k. repeat split; eauto.
Qed.
Lemma shifted_matched tr tr' name a a' k q o r r' : In (name, a) tr -> In (name, a') tr' -> alone name a q o (a + k) -> shifted a a' k r r' -> matched tr tr' r r'.
Proof. intros I I' A [H|(i & L & E1 & E2)]; [now left|]. right. exists name, a, a', k. split; [exact I|]. split; [exact I'|]. split; eauto. Qed.

Section Two.
Variables (tr tr' : list (string * nat)) (m m' : layouts term).
Hypothesis SAME : forall x, In x (map fst tr) -> In x (map fst tr').
Hypothesis G : forall q l, layouts_get m q = Some l <-> exists e r o c, In e tr /\ alone (fst e) (snd e) r o c /\ layouts_get o q = Some l.
Hypothesis G' : forall q l, layouts_get m' q = Some l <-> exists e r o c, In e tr' /\ alone (fst e) (snd e) r o c /\ layouts_get o q = Some l.

Lemma rows_matched r r' l : matched tr tr' r r' -> layouts_get m r = Some l -> exists l', layouts_get m' r' = Some l' /\ renamed_layout (matched tr tr') l l'.
Proof.
  intros MA E.
  assert (K : forall name a a' q o c, In (name, a) tr -> In (name, a') tr' -> alone name a q o c -> shifted a a' (c - a) r r' -> layouts_get o r = Some l ->
    exists l', layouts_get m' r' = Some l' /\ renamed_layout (matched tr tr') l l').
  { intros name a a' q o c I I' A S Q. destruct (alone_elsewhere _ _ a' _ _ _ A) as (k & q' & o' & -> & A' & _ & RR & _).
    replace (a + k - a) with k in S by lia. specialize (RR _ _ S). rewrite Q in RR. destruct (layouts_get o' r') as [l'|] eqn:E'; [|contradiction].
    exists l'. split; [apply G'; exists (name, a'), q', o', (a' + k); auto|]. eapply layout_grows; [|exact RR]. intros x x' X. eapply shifted_matched; eauto. }
  destruct MA as [(i & -> & ->)|(name & a & a' & k & I & I' & (q & o & A) & i & L & -> & ->)].
  - apply G in E as ([name a] & q & o & c & I & A & Q). cbn [fst snd] in A.
    assert (I' : In name (map fst tr')) by (apply SAME, in_map_iff; exists (name, a); auto).
    apply in_map_iff in I' as ([? a'] & EN & I'). cbn [fst] in EN. subst. eapply K; eauto. left. eauto.
  - destruct (alone_names _ _ _ _ _ A) as [_ NM].
    assert (Q : layouts_get o (TmBlank (nat_string (a + i))) <> None) by (apply NM; right; exists (a + i); split; [lia|reflexivity]).
    destruct (layouts_get o (TmBlank (nat_string (a + i)))) as [l0|] eqn:E0; [|now elim Q].
    assert (E1 : layouts_get m (TmBlank (nat_string (a + i))) = Some l0) by (apply G; exists (name, a), q, o, (a + k); auto).
    assert (l0 = l) as -> by congruence. eapply (K name a a' q o (a + k)); eauto. replace (a + k - a) with k by lia. right. exists i. auto.
Qed.
End Two.

Lemma rows_renamed tr tr' m m' : (forall x, In x (map fst tr) <-> In x (map fst tr')) ->
  (forall q l, layouts_get m q = Some l <-> exists e r o c, In e tr /\ alone (fst e) (snd e) r o c /\ layouts_get o q = Some l) ->
  (forall q l, layouts_get m' q = Some l <-> exists e r o c, In e tr' /\ alone (fst e) (snd e) r o c /\ layouts_get o q = Some l) ->
  renamed_registry (matched tr tr') (layouts_get m) (layouts_get m').
Proof.
  intros S G G' r r' MA. destruct (layouts_get m r) as [l|] eqn:E.
  - destruct (rows_matched tr tr' m m' (fun x => proj1 (S x)) G G' r r' l MA E) as (l' & -> & K). exact K.
  - destruct (layouts_get m' r') as [l'|] eqn:E'; [|exact Logic.I].
    destruct (rows_matched tr' tr m' m (fun x => proj2 (S x)) G' G r' r l' (matched_swap _ _ _ _ MA) E') as (l & E1 & _). congruence.
Qed.
Lemma rows_sorted tr m :
  (forall q l, layouts_get m q = Some l <-> exists e r o c, In e tr /\ alone (fst e) (snd e) r o c /\ layouts_get o q = Some l) -> registry_sorted (layouts_get m).
Proof.
  intros G q l E. apply G in E as (e & r & o & c & _ & A & Q). destruct (alone_elsewhere _ _ 0 _ _ _ A) as (k & r' & o' & _ & _ & _ & _ & SO). eapply SO; eauto.
Qed.
End Files.
