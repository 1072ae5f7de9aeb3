(** * The types generated from files: the program (C92) and the macros (C93) *)

From Coq Require Import String Ascii List Bool Arith NArith ZArith QArith Qcanon Permutation Lia.
Import ListNotations.
From Verif Require Import Base BaseProofs Orders PatternModel ValueModel LayoutModel HydrateModel TermModel NumberModel
  DehydrateModel DehydrateFinish JsonModel RegexpModel AbsModel AbsSpec AbsProofs AbsProperties AbsJsonModel AbsJsonSpec AbsJsonProperties
  AbsAcceptSpec AbsAccept AbsMeaning AbsRegistry AbsSerdeModel AbsSerdeSpec AbsSerdeTotal AbsSerdeProperties AbsSerdeGood AttrModel AttrProofs
  CodeGenModel CodeGenSpec CodeGenProperties PreludeSpec CliModel CliSpec CliProofs CliProperties GenProgModel GenProgSpec AbsAnonymous CliMono GenProgProofs.
Open Scope list_scope.
Open Scope nat_scope.

Section Program.
Context {TS : TextSyntax} {IS : IriSyntax} {AE : AbsExternal} {RS : RustSyntax} {F : Type} {FM : Formats F}.
Variables (arbitrary_precision : bool) (json_float : string -> option F) (from_f64 : F -> option Qc).
Variable file : string -> option string.
Notation document := (serde_document arbitrary_precision json_float from_f64 file).
Notation reads := (readable arbitrary_precision json_float from_f64 file).
Notation program := (program arbitrary_precision json_float from_f64 file).
Notation tldr_include := (tldr_include arbitrary_precision json_float from_f64 file).
Notation tldr_module := (tldr_module arbitrary_precision json_float from_f64 file).

(** The documents without literals in a language, the numbers of which are read alike, are read as the layouts they
    describe: see C56 and C85. *)
Theorem C92_documents name l : plain_document arbitrary_precision json_float from_f64 file name l -> document name l.
Proof.
  intros (source & j & s & H & P & D & W & A & S). exists source, j, s. repeat (split; [assumption|]).
  exact (C85_agree_partial from_f64 arbitrary_precision json_float j l s (proj2 (C56_reads j l) D) W A S).
Qed.

(** ** C92 *)
Lemma read_patterns names ls : scalar_values -> reads names ls -> forall l, In l ls -> good_patterns l.
Proof.
  intros SV. induction 1 as [|name names l ls D _ IH|name names ls _ _ IH]; intros l' I; [destruct I| |exact (IH l' I)].
  destruct I as [<-|I]; [exact (document_patterns _ _ _ _ _ _ SV D)|exact (IH l' I)].
Qed.

(** When the documents among the files are consistent, and one of them at most has anonymous layouts, the program
    generates the type of the layout selected in the registry made of the documents: the one that [--layout] gives, or
    that of the only document. *)
Theorem C92_program names ls : scalar_values -> reads names ls -> consistent ls -> one_anonymous ls ->
  exists N m rs, made_of m ls rs /\ bt_wf m /\ Forall2 reference_of ls rs /\ forall fuel layout, N <= fuel ->
    program fuel layout names =
    match layout with
    | Some i =>
        match layouts_get m (TmIri i) with
        | Some _ => map_err ProgGenerate (generate (layouts_get m) (TmIri i) [])
        | None => Err ProgUnknownLayout
        end
    | None =>
        match rs with
        | [r] => map_err ProgGenerate (generate (layouts_get m) r [])
        | _ => Err ProgMissingLayout
        end
    end.
Proof.
  intros SV R C O. destruct (proj2 (all_accepted ls) (conj C O)) as (rs & b & B).
  destruct (all_registry (E := program_error) ls rs b B (read_patterns names ls SV R)) as (RF & N & m & MD & WM & _ & BB).
  exists N, m, rs. repeat (split; [assumption|]). intros fuel layout L. unfold GenProgModel.program.
  rewrite (program_all _ _ _ _ _ _ R), B. cbn [map_err bind fst snd]. rewrite (BB fuel L). cbn [bind]. rewrite default_none.
  unfold program_layout. destruct layout as [i|]; [destruct (layouts_get m (TmIri i)); reflexivity|]. destruct rs as [|r [|r' rs]]; reflexivity.
Qed.

(** Nothing is generated otherwise. *)
Theorem C92_only fuel layout names it : program fuel layout names = Ok it ->
  exists ls, reads names ls /\ consistent ls /\ one_anonymous ls.
Proof.
  intros H. unfold GenProgModel.program in H. apply bind_Ok in H as (x & B & _).
  destruct (program_documents _ _ _ _ _ _ _ _ B) as (ls & R & A). exists ls. split; [exact R|]. now apply all_accepted.
Qed.

Lemma generates (m : layouts term) r o : bt_wf o -> (exists it, generate (layouts_get m) r o = Ok it) <->
  exists lay, layouts_get m r = Some lay /\ layout_named lay /\ exists i, r = TmIri i /\ ident_from_iri i <> None.
Proof.
  intros W. unfold generate. etransitivity; [apply bind_ok|]. split.
  - intros (lay & U & it & G). apply bind_iff in G as (id & D & G). exists lay. split; [destruct (layouts_get m r); [now injection U as ->|discriminate U]|].
    split; [apply (C80_generates o id lay W); eauto|]. apply C81_ident in D as [(iri & J & E) _].
    destruct r as [i|b|l]; cbn in J; try contradiction. destruct J as [<-|[]]. exists i. split; [reflexivity|congruence].
  - intros (lay & G & LN & i & -> & E). exists lay. split; [now rewrite G|]. apply bind_ok.
    assert (exists id, layout_ident (TmIri i) = Ok id) as [id ID].
    { destruct (layout_ident (TmIri i)) as [id|e|w|] eqn:X; [eauto| | |].
      all: exfalso; unfold layout_ident in X; destruct (default_layout_ident (TmIri i)) eqn:Y; cbn in X; try discriminate X.
      assert (Z : layout_ident (TmIri i) = Err (MissingTypeIdentifier (TmIri i))) by (unfold layout_ident; now rewrite Y).
      apply C81_no_ident with (iri := i) in Z; [contradiction|now left]. }
    exists id. split; [exact ID|]. exact (proj2 (C80_generates o id lay W) LN).
Qed.

Lemma map_err_ok {E E' A} (f : E -> E') (o : outcome E A) a : map_err f o = Ok a <-> o = Ok a.
Proof. destruct o; cbn; split; congruence. Qed.

(** The program succeeds exactly when the layout selected has an identifier that ends with the name of a type, and
    refers to layouts that have a type (C80, C81). *)
Theorem C92_generates names ls : scalar_values -> reads names ls -> consistent ls -> one_anonymous ls ->
  exists N m rs, made_of m ls rs /\ Forall2 reference_of ls rs /\ forall fuel layout, N <= fuel ->
    ((exists it, program fuel layout names = Ok it) <->
     exists i lay, (layout = Some i \/ layout = None /\ rs = [TmIri i]) /\
       layouts_get m (TmIri i) = Some lay /\ layout_named lay /\ ident_from_iri i <> None).
Proof.
  intros SV R C O. destruct (C92_program names ls SV R C O) as (N & m & rs & MD & WM & RF & P). exists N, m, rs. split; [exact MD|]. split; [exact RF|].
  intros fuel layout L. rewrite (P fuel layout L). assert (W0 : bt_wf (@nil (string * rpath))) by constructor.
  assert (G : forall r, (exists it, map_err ProgGenerate (generate (layouts_get m) r []) = Ok it) <-> exists it, generate (layouts_get m) r [] = Ok it).
  { intros r. split; intros [it H]; exists it; now apply map_err_ok in H || apply map_err_ok. }
  split.
  - intros [it H]. destruct layout as [i|].
    + destruct (layouts_get m (TmIri i)) as [lay|] eqn:Q; [|discriminate H]. destruct (proj1 (generates m (TmIri i) [] W0)) as (lay' & Q' & LN & i' & E & ID);
        [apply G; eauto|]. injection E as <-. exists i, lay'. split; [now left|]. rewrite Q in Q'. injection Q' as ->. auto.
    + destruct rs as [|r [|r' rs]]; try discriminate H. destruct (proj1 (generates m r [] W0)) as (lay' & Q' & LN & i' & -> & ID); [apply G; eauto|].
      exists i', lay'. auto.
  - intros (i & lay & S & Q & LN & ID). assert (exists it, generate (layouts_get m) (TmIri i) [] = Ok it) as K by (apply (generates m (TmIri i) [] W0); eauto 6).
    destruct S as [-> |[-> ->]]; [rewrite Q|]; now apply G.
Qed.

(** The files that are not documents change nothing: they are not even reported by a failure. *)
Theorem C92_ignored fuel layout names names' ls : reads names ls -> reads names' ls ->
  program fuel layout names = program fuel layout names'.
Proof. intros R R'. unfold GenProgModel.program. now rewrite (program_all _ _ _ _ _ _ R), (program_all _ _ _ _ _ _ R'). Qed.

(** A file that does not exist makes it fail. *)
Theorem C92_missing fuel layout names name it : In name names -> file name = None -> program fuel layout names <> Ok it.
Proof.
  intros I E H. apply C92_only in H as (ls & R & _). induction R as [|n names l ls (s & j & x & Fi & _) _ IH|n names ls [U _] _ IH]; [destruct I| |];
    (destruct I as [<-|I]; [congruence|exact (IH I)]).
Qed.

(** ** C93 *)
Lemma documents_patterns names ls : scalar_values -> Forall2 document names ls -> forall l, In l ls -> good_patterns l.
Proof.
  intros SV. induction 1 as [|name l names ls D _ IH]; intros l' I; [destruct I|].
  destruct I as [<-|I]; [exact (document_patterns _ _ _ _ _ _ SV D)|exact (IH l' I)].
Qed.

Lemma named_one ls : (forall l, In l ls -> all_named l) -> one_anonymous ls.
Proof. intros H i j l l' E _ N _. elim N. apply H. eapply nth_error_In. exact E. Qed.

(** *** The declarations of the module *)
Notation use_path n := (RsPath false [(n, NoArgs)]).

Lemma tree_ident t n : use_tree_ident t = Some n <-> names_item t n.
Proof.
  split.
  - revert n. induction t as [i t IH|i|i i'| |ts]; intros n H; cbn in H; try discriminate H; try (injection H as <-; constructor). constructor. auto.
  - induction 1; auto.
Qed.

Lemma prefix_none attrs : forall p, use_prefix attrs p = Ok None -> attrs = [] /\ p = None.
Proof.
  induction attrs as [|[name meta] attrs IH]; intros p H; cbn [use_prefix] in H; [now injection H|].
  destruct (String.eqb name "tldr"); [|discriminate H]. destruct meta as [[|[] []]|]; try discriminate H. destruct (IH _ H) as [_ K]. discriminate K.
Qed.
Lemma prefix_some attrs : forall p q, use_prefix attrs p = Ok (Some q) <-> prefix_of attrs q \/ attrs = [] /\ p = Some q.
Proof.
  induction attrs as [|[name meta] attrs IH]; intros p q; cbn [use_prefix].
  - split; [intros [= ->]; auto|]. intros [H|[_ ->]]; [|reflexivity]. inversion H as [a ? _ E]. now destruct a.
  - split.
    + intros H. destruct (String.eqb name "tldr") eqn:N; [|discriminate H]. apply String.eqb_eq in N as ->.
      destruct meta as [[|[] []]|]; try discriminate H. apply IH in H as [H|[-> [= ->]]]; left.
      * inversion H as [a ? K]; subst. apply (po_last (Attr "tldr" (Some [TkStr s]) :: a)). intros x [<-|I]; eauto.
      * apply (po_last []). intros ? [].
    + intros [H|[H _]]; [|discriminate H]. inversion H as [a ? K E]; subst. destruct a as [|x a]; cbn in E.
      * injection E as <- <- <-. rewrite String.eqb_refl. apply IH. now right.
      * injection E as -> E. destruct (K _ (or_introl eq_refl)) as [y [= -> ->]]. rewrite String.eqb_refl. apply IH. left. rewrite <- E.
        constructor. intros z I. apply K. now right.
Qed.

Lemma item_step it items o x : module_options (it :: items) o = Ok x ->
  item_ok it /\ exists o1 ts, module_options items o1 = Ok (fst x, ts) /\ (exists attrs t, it = ItemUse attrs t /\ snd x = t :: ts) /\
    (bt_wf o -> bt_wf o1) /\
    ((forall p n, ~ use_declares it p n) /\ o1 = o \/
     exists p n, use_declares it p n /\ (forall p' n', use_declares it p' n' -> p' = p /\ n' = n) /\ forall q, bt_get q o1 = if eqb q p then Some (use_path n) else bt_get q o).
Proof.
  intros H. destruct it as [attrs t|]; cbn [module_options] in H; [|discriminate H].
  apply bind_Ok in H as ([p|] & P & H).
  - apply prefix_some in P as P'. destruct P' as [P'|[_ K]]; [|discriminate K]. destruct (use_tree_ident t) as [n|] eqn:T; [|discriminate H].
    apply bind_Ok in H as (o1 & U & H). apply bind_Ok in H as ([o2 ts] & M & H). injection H as <-. cbn [fst snd].
    assert (D : use_declares (ItemUse attrs t) p n) by (exists attrs, t; split; [reflexivity|split; [exact P'|now apply tree_ident]]).
    split; [exists attrs, t; eauto|]. exists o1, ts. split; [exact M|]. split; [eauto|]. pose proof (C81_use_module p (use_path n) o) as G.
    destruct (use_module p (use_path n) o) as [o'|]; [|discriminate U]. injection U as <-. destruct G as (_ & G1 & G2). split; [exact G1|].
    right. exists p, n. split; [exact D|]. split; [|exact G2]. intros p' n' (attrs' & t' & [= <- <-] & P2 & N2).
    apply tree_ident in N2. split; [|congruence]. assert (P3 : use_prefix attrs None = Ok (Some p')) by (apply prefix_some; now left). congruence.
  - apply prefix_none in P as [-> _]. cbn [bind] in H. apply bind_Ok in H as ([o2 ts] & M & H). injection H as <-. cbn [fst snd].
    split; [exists [], t; auto|]. exists o, ts. split; [exact M|]. split; [eauto|]. split; [auto|]. left. split; [|reflexivity].
    intros p n (attrs' & t' & [= <- <-] & P2 & _). inversion P2 as [a ? _ E]. now destruct a.
Qed.

Lemma options_inv items : forall o x, module_options items o = Ok x -> bt_wf o ->
  Forall item_ok items /\ bt_wf (fst x) /\
  (exists attrss, items = map (fun at_ => ItemUse (fst at_) (snd at_)) (combine attrss (snd x)) /\ length attrss = length (snd x)) /\
  forall p, (exists n, registers items p n /\ (forall n', registers items p n' -> n' = n) /\ bt_get p (fst x) = Some (use_path n)) \/
    ((forall n, ~ registers items p n) /\ (forall it n, In it items -> ~ use_declares it p n) /\ bt_get p (fst x) = bt_get p o).
Proof.
  induction items as [|it items IH]; intros o x H W.
  - injection H as <-. split; [constructor|]. split; [exact W|]. split; [exists []; auto|]. intros p. right. split; [|split; [intros it n []|reflexivity]].
    intros n (before & it & after & E & _). destruct before; discriminate E.
  - apply item_step in H as (OK & o1 & ts & M & (attrs & t & -> & E) & W1 & S). destruct (IH _ _ M (W1 W)) as (OKs & W' & (attrss & EI & EL) & R). cbn [fst snd] in *.
    split; [now constructor|]. split; [exact W'|]. split; [exists (attrs :: attrss); rewrite E; cbn; split; [now rewrite <- EI|now rewrite EL]|].
    intros p. destruct (R p) as [(n & RE & UN & G)|(NR & ND & G)].
    + left. exists n. split; [|split; [|exact G]].
      * destruct RE as (before & it & after & -> & D & L). exists (ItemUse attrs t :: before), it, after. auto.
      * intros n' (before' & it' & after' & E' & D' & L'). destruct before' as [|b' before']; cbn in E'; injection E' as <- E'.
        -- destruct RE as (before & it & after & -> & D & L). subst after'. elim (L' it n); [|exact D]. apply in_or_app. right. now left.
        -- apply UN. now exists before', it', after'.
    + destruct S as [[NO ->]|(p0 & n0 & D & U & G0)].
      * right. split; [|split; [|exact G]].
        -- intros n (before & it & after & E' & D & L). destruct before as [|b before]; cbn in E'; injection E' as <- ->; [exact (NO _ _ D)|].
           apply (ND it n); [apply in_or_app; right; now left|exact D].
        -- intros it n [<-|I]; [apply NO|exact (ND it n I)].
      * rewrite G0 in G. destruct (eqb_spec p p0) as [->|NE].
        -- left. exists n0. split; [|split; [|exact G]].
           ++ exists [], (ItemUse attrs t), items. split; [reflexivity|]. split; [exact D|]. intros it' n' I. apply ND, I.
           ++ intros n' (before & it & after & E' & D' & L). destruct before as [|b before]; cbn in E'; injection E' as <- ->; [now destruct (U _ _ D')|].
              elim (ND it n'); [apply in_or_app; right; now left|exact D'].
        -- right. split; [|split; [|exact G]].
           ++ intros n (before & it & after & E' & D' & L). destruct before as [|b before]; cbn in E'; injection E' as <- ->; [destruct (U _ _ D'); contradiction|].
              apply (ND it n); [apply in_or_app; right; now left|exact D'].
           ++ intros it n [<-|I] D'; [destruct (U _ _ D'); contradiction|exact (ND it n I D')].
Qed.

(** The items of the module are accepted exactly when they are declarations, each of them without attribute or with
    attributes [tldr("...")] and the name of an item; *)
Theorem C93_items items : (exists x, module_options items [] = Ok x) <-> Forall item_ok items.
Proof.
  split; [intros [x H]; apply (options_inv _ _ _ H); constructor|].
  generalize (@nil (string * rpath)) as o. intros o H. revert o. induction H as [|it items (attrs & t & -> & OK) _ IH]; intros o; [now eexists|].
  cbn [module_options]. destruct OK as [->|(p & n & attrs' & t' & [= <- <-] & P & N)].
  - cbn [use_prefix bind]. destruct (IH o) as [x ->]. now eexists.
  - assert (use_prefix attrs None = Ok (Some p)) as -> by (apply prefix_some; now left). cbn [bind]. apply tree_ident in N as ->.
    pose proof (C81_use_module p (use_path n) o) as G. destruct (use_module p (use_path n) o) as [o'|]; cbn [ok_or bind].
    + destruct (IH o') as [x ->]. now eexists.
    + destruct G as (seg & [<-|[]] & K). now elim K.
Qed.

(** ...then the last declaration for a prefix gives the module of the layouts that have it (see C81), and the
    declarations are kept, without their attributes. *)
Theorem C93_options items o uses : module_options items [] = Ok (o, uses) ->
  bt_wf o /\ (forall p path, bt_get p o = Some path <-> exists n, registers items p n /\ path = use_path n) /\
  Forall2 (fun it t => exists attrs, it = ItemUse attrs t) items uses.
Proof.
  intros H. destruct (options_inv _ _ _ H ltac:(constructor)) as (_ & W & (attrss & E & L) & R). cbn [fst snd] in *. split; [exact W|]. split.
  - intros p path. destruct (R p) as [(n & RE & UN & G)|(NR & _ & G)]; rewrite G.
    + split; [intros [= <-]; eauto|]. intros (n' & RE' & ->). now rewrite (UN n' RE').
    + split; [discriminate|]. intros (n & RE & _). now elim (NR n).
  - rewrite E. clear - L. revert uses L. induction attrss as [|a attrss IH]; intros [|t uses] L; try discriminate L; cbn; constructor; [eauto|]. apply IH. now injection L.
Qed.

(** *** The macros *)

(** What the macros generate for a layout: the type named after its identifier. *)
Definition type_for (o : gen_options) (rl : term * layout term) (it : gen_item) : Prop :=
  exists i id, fst rl = TmIri i /\ ident_from_iri i = Some id /\ item_ident it = id /\ generate_layout o id (snd rl) = Ok it.

Lemma generated (m : layouts term) o items : bt_wf m -> generate_layouts m o = Ok items -> Forall2 (type_for o) m items.
Proof.
  intros WM H. unfold generate_layouts in H.
  assert (K : forall m', (forall rl, In rl m' -> In rl m) -> forall its, mapM (fun rl => generate (layouts_get m) (fst rl) o) m' = Ok its -> Forall2 (type_for o) m' its).
  2: { exact (K m (fun _ I => I) items H). }
  clear items H. induction m' as [|[r lay] m' IH]; intros S its H; cbn [mapM] in H; [injection H as <-; constructor|].
  apply bind_Ok in H as (it & G & H). apply bind_Ok in H as (its' & H & E). injection E as <-. constructor; [|apply IH; [intros rl I; apply S; now right|exact H]].
  cbn [fst] in G. unfold generate in G. apply bind_Ok in G as (l' & U & G). apply bind_Ok in G as (id & D & G).
  unfold layouts_get in U. rewrite (bt_get_wf m r lay WM (S _ (or_introl eq_refl))) in U. injection U as <-.
  apply C81_ident in D as [(iri & J & E) _]. destruct r as [i|b|l]; cbn in J; try contradiction. destruct J as [<-|[]].
  exists i, id. split; [reflexivity|]. split; [exact E|]. split; [|exact G]. exact (generate_ident _ _ _ _ G).
Qed.

Lemma generate_all (m : layouts term) o : bt_wf m -> bt_wf o -> ((exists items, generate_layouts m o = Ok items) <->
  forall r lay, layouts_get m r = Some lay -> layout_named lay /\ exists i, r = TmIri i /\ ident_from_iri i <> None).
Proof.
  intros WM WO. etransitivity; [exact (C84_registry_partial m o WO WM)|]. split; intros H r lay I.
  - apply bt_get_In in I. destruct (H r lay I) as [LN (iri & J & E)]. split; [exact LN|]. destruct r as [i|b|l]; cbn in J; try contradiction. destruct J as [<-|[]]. eauto.
  - apply bt_get_wf in I; [|exact WM]. destruct (H r lay I) as [LN (i & -> & E)]. split; [exact LN|]. exists i. split; [now left|exact E].
Qed.

(** The registry of the macros. *)
Lemma macro_builds fuel names m : attribute_build arbitrary_precision json_float from_f64 file fuel names = Ok m ->
  exists ls, Forall2 document names ls /\ consistent ls /\ one_anonymous ls /\
    ((forall k, layouts_get m (TmBlank k) = None) -> forall l, In l ls -> all_named l).
Proof.
  intros H. unfold attribute_build in H. apply bind_Ok in H as (b & A & H). destruct (attribute_documents _ _ _ _ _ _ _ A) as [ls D].
  rewrite (attribute_all _ _ _ _ _ _ D) in A. apply bind_Ok in A as ([rs b'] & B & E). injection E as <-. apply map_err_ok in B.
  exists ls. split; [exact D|]. destruct (all_rejects ls 0 [] rs b' blanks_nil B) as (_ & O & (idss & W & ND & _) & K & _ & [_ HK] & AN).
  split; [exists idss; auto|]. split; [exact O|]. intros NB. apply AN. destruct K as [|K]; [reflexivity|]. elim (HK ltac:(lia)). cbn [snd] in H.
  assert (Wb : bt_wf b').
  { clear - B. revert B. assert (bt_wf (@nil (term * prelayout term))) as W0 by constructor. revert W0. generalize (@nil (term * prelayout term)) as b.
    revert rs. induction ls as [|l ls IH]; intros rs b W B; cbn [build_all] in B; [now injection B as _ <-|].
    destruct (build_document l b) as [o b1] eqn:D. apply bind_Ok in B as (r & -> & B). apply bind_Ok in B as ([rs' b2] & B & E). injection E as _ <-.
    apply (IH rs' b1); [|exact B]. destruct (document_run _ _ _ _ D) as [n R]. exact (proj1 (C70_definitions term_context l (0, b) r (n, b1) R W)). }
  destruct (registry_keys fuel b' m Wb H) as [_ KS]. destruct (bt_get (TmBlank (nat_string 0)) b') eqn:Q; [|reflexivity]. exfalso.
  assert (layouts_get m (TmBlank (nat_string 0)) <> None) as Q' by (apply KS; congruence). exact (Q' (NB _)).
Qed.
Lemma macro_registry names ls : scalar_values -> Forall2 document names ls -> consistent ls -> one_anonymous ls ->
  exists N m rs, made_of m ls rs /\ Forall2 reference_of ls rs /\ bt_wf m /\
    forall fuel, N <= fuel -> attribute_build arbitrary_precision json_float from_f64 file fuel names = Ok m.
Proof.
  intros SV D C O. destruct (proj2 (all_accepted ls) (conj C O)) as (rs & b & B).
  destruct (all_registry (E := macro_error) ls rs b B (documents_patterns names ls SV D)) as (RF & N & m & MD & WM & _ & BB).
  exists N, m, rs. repeat (split; [assumption|]). intros fuel L. unfold attribute_build. rewrite (attribute_all _ _ _ _ _ _ D), B. cbn [map_err bind snd]. exact (BB fuel L).
Qed.

(** [tldr_include] and [tldr] generate types only for files that are all documents, consistent, with an identifier on
    every layout written in them, and for a module made of declarations; *)
Theorem C93_only fuel names content uses items : tldr_module fuel names (Some content) = Ok (uses, items) ->
  Forall item_ok content /\ exists ls, Forall2 document names ls /\ consistent ls /\ forall l, In l ls -> all_named l.
Proof.
  intros H. unfold GenProgModel.tldr_module in H. apply bind_Ok in H as (m & A & H). apply bind_Ok in H as ([o ts] & M & H).
  apply bind_Ok in H as (its & G & H). injection H as <- <-. apply map_err_ok in G. cbn [fst snd] in *.
  split; [apply C93_items; eauto|]. destruct (macro_builds _ _ _ A) as (ls & D & C & O & N). exists ls. split; [exact D|]. split; [exact C|]. apply N. intros k.
  destruct (layouts_get m (TmBlank k)) as [lay|] eqn:Q; [exfalso|reflexivity]. apply bt_get_In in Q. unfold generate_layouts in G.
  destruct (proj1 (mapM_ok _ _) (ex_intro _ its G) _ Q) as [it X]. destruct (C93_options _ _ _ M) as (WO & _).
  destruct (proj1 (generates m (TmBlank k) o WO) (ex_intro _ it X)) as (_ & _ & _ & i & E & _). discriminate E.
Qed.

(** ...then they generate one type for each layout of the registry made of the documents, unless one of them has no name
    or refers to a layout that has no type. *)
Theorem C93_module names ls content : scalar_values -> Forall2 document names ls -> consistent ls -> (forall l, In l ls -> all_named l) ->
  Forall item_ok content ->
  exists N m rs o uses, made_of m ls rs /\ Forall2 reference_of ls rs /\ module_options content [] = Ok (o, uses) /\
    forall fuel, N <= fuel ->
      ((exists x, tldr_module fuel names (Some content) = Ok x) <->
       forall r lay, layouts_get m r = Some lay -> layout_named lay /\ exists i, r = TmIri i /\ ident_from_iri i <> None) /\
      (forall uses' items, tldr_module fuel names (Some content) = Ok (uses', items) -> uses' = uses /\ Forall2 (type_for o) m items).
Proof.
  intros SV D C A OK. destruct (macro_registry names ls SV D C (named_one ls A)) as (N & m & rs & MD & RF & WM & B).
  destruct (proj2 (C93_items content) OK) as [[o uses] M]. exists N, m, rs, o, uses. repeat (split; [assumption|]).
  destruct (C93_options _ _ _ M) as (WO & _). intros fuel L. unfold GenProgModel.tldr_module. rewrite (B fuel L). cbn [bind]. rewrite M. cbn [bind fst snd]. split.
  - rewrite <- (generate_all m o WM WO). split.
    + intros [x H]. apply bind_Ok in H as (its & G & _). apply map_err_ok in G. eauto.
    + intros [its G]. rewrite G. cbn [map_err bind]. eauto.
  - intros uses' items H. apply bind_Ok in H as (its & G & H). injection H as <- <-. apply map_err_ok in G. split; [reflexivity|]. now apply generated.
Qed.

(** [tldr_include] does what [tldr] does for an empty module, and the content of a module without content is ignored. *)
Theorem C93_include fuel names items : tldr_include fuel names = Ok items <-> tldr_module fuel names (Some []) = Ok ([], items).
Proof.
  unfold GenProgModel.tldr_include, GenProgModel.tldr_module. destruct (attribute_build _ _ _ _ _ _) as [m| | |]; cbn [bind module_options fst snd]; try (split; discriminate).
  destruct (map_err MacroGenerate (generate_layouts m [])); cbn [bind]; split; congruence.
Qed.
End Program.
