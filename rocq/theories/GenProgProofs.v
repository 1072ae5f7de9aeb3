(** * Proofs about the macros and the program that generate types from files *)

From Coq Require Import String Ascii List Bool Arith NArith ZArith QArith Qcanon Permutation Lia.
Import ListNotations.
From Verif Require Import Base BaseProofs Orders PatternModel ValueModel LayoutModel HydrateModel TermModel NumberModel
  DehydrateModel DehydrateFinish JsonModel RegexpModel AbsModel AbsSpec AbsProofs AbsProperties AbsJsonModel AbsJsonSpec
  AbsAcceptSpec AbsAccept AbsMeaning AbsRegistry AbsSerdeModel AbsSerdeTotal AbsSerdeProperties AbsSerdeGood AttrModel CodeGenModel PreludeSpec CliModel CliSpec CliProofs GenProgModel GenProgSpec
  AbsAnonymous CliMono.
Open Scope list_scope.
Open Scope nat_scope.

Section Builders.
Context {IS : IriSyntax} {AE : AbsExternal}.
Notation ctx := term_context.
Notation blank k := (TmBlank (nat_string k)).
Notation tbuilder := (@builder term).
Notation meaning b := (compiled (ctx_iri ctx) (ctx_lit ctx) (fun r => bt_get r b)).

(** The documents, one after the other in the same builder. *)
Fixpoint build_all (ls : list alayout) (b : tbuilder) : outcome build_error (list term * tbuilder) :=
  match ls with
  | [] => Ok ([], b)
  | l :: ls' =>
      let (o, b) := build_document l b in
      let* r := o in
      let* x := build_all ls' b in
      Ok (r :: fst x, snd x)
  end.

(** The blank nodes of the builder are those below [K]. *)
Definition blanks (K : nat) (b : tbuilder) : Prop :=
  (forall k, K <= k -> bt_get (blank k) b = None) /\ (0 < K -> bt_get (blank 0) b <> None).

Lemma surj2 {A B C} (x : A * (B * C)) : x = (fst x, (fst (snd x), snd (snd x))).
Proof. now destruct x as [a [b c]]. Qed.
Lemma document_eq l (b : tbuilder) : build_document l b =
  (fst (build_layout ctx l scope_default (0, b)), snd (snd (build_layout ctx l scope_default (0, b)))).
Proof.
  unfold build_document, build_with_context. destruct l; cbv zeta;
    match goal with |- context [let (_, _) := ?x in _] => destruct x as [o [n b']]; reflexivity end.
Qed.

Lemma document_run l (b : tbuilder) r b' : build_document l b = (Ok r, b') -> exists n', build_with_context ctx l (0, b) = (Ok r, (n', b')).
Proof.
  intros H. rewrite document_eq in H. apply pair_equal_spec in H as [Ha Hb].
  exists (fst (snd (build_layout ctx l scope_default (0, b)))). rewrite <- Ha, <- Hb. apply surj2.
Qed.

Lemma named_or_not l K (b : tbuilder) r s' : build_layout ctx l scope_default (K, b) = (Ok r, s') ->
  (all_named l /\ fst s' = K) \/ (~ all_named l /\ K < fst s').
Proof.
  intros H. destruct (steps_layout l scope_default _ _ _ H) as (L & N & _). cbn [fst] in *.
  destruct (Nat.eq_dec K (fst s')) as [E|E]; [left; auto|right]. split; [|lia]. intros A.
  destruct (free_layout l A scope_default K K b) as (_ & _ & E'). rewrite H in E'. cbn in E'. congruence.
Qed.

Lemma moved l K (b : tbuilder) : all_named l -> fst (build_layout ctx l scope_default (K, b)) = fst (build_layout ctx l scope_default (0, b)) /\
  snd (snd (build_layout ctx l scope_default (K, b))) = snd (snd (build_layout ctx l scope_default (0, b))).
Proof. intros A. destruct (free_layout l A scope_default K 0 b) as (E1 & E2 & _). auto. Qed.

Lemma document_adds K l (b : tbuilder) r b' : blanks K b -> build_document l b = (Ok r, b') ->
  exists ids K', well_formed no_env l ids /\ NoDup ids /\ (forall i, In i ids -> bt_get (TmIri i) b = None) /\
    (forall q, bt_get q b' <> None <-> bt_get q b <> None \/ (exists i, In i ids /\ q = TmIri i) \/ (exists k, K <= k < K' /\ q = blank k)) /\
    K <= K' /\ blanks K' b' /\ (all_named l /\ K' = K \/ ~ all_named l /\ K = 0 /\ 0 < K').
Proof.
  intros [HK H0] H. apply document_run in H as [n' B]. unfold build_with_context in B.
  destruct (named_or_not _ _ _ _ _ B) as [[A E]|[A E]]; cbn [fst] in E.
  - subst n'. destruct (moved l K b A) as [E1 E2]. rewrite B in E1, E2. cbn [fst snd] in E1, E2.
    destruct (build_layout ctx l scope_default (K, b)) as [o [n2 b2]] eqn:B2. cbn [fst snd] in E1, E2. subst o b2.
    destruct (named_or_not _ _ _ _ _ B2) as [[_ E]|[N _]]; [|contradiction]. cbn [fst] in E. subst n2.
    destruct (makes_layout l no_env scope_default (agrees_env scope_default) sees_default (K, b) HK) as [_ H2].
    destruct (H2 _ _ B2) as (ids & W & [ND F] & [L Ad]). cbn [fst snd] in *. exists ids, K. repeat (split; [assumption|]). split; [|now left].
    split.
    + intros k Lk. destruct (bt_get (blank k) b') eqn:Q; [|reflexivity]. assert (bt_get (blank k) b' <> None) as Q' by congruence.
      apply Ad in Q' as [Q'|[(i & _ & Q')|(k' & Lk' & _)]]; [now rewrite HK in Q'|discriminate Q'|lia].
    + intros L0. apply Ad. left. auto.
  - assert (Z : K = 0).
    { destruct K as [|K]; [reflexivity|exfalso]. destruct (steps_layout l scope_default _ _ _ B) as (_ & _ & _ & U). cbn [fst snd] in U.
      apply (H0 ltac:(lia)). apply U. lia. }
    subst K. destruct (makes_layout l no_env scope_default (agrees_env scope_default) sees_default (0, b) HK) as [_ H2].
    destruct (H2 _ _ B) as (ids & W & [ND F] & [L Ad]). cbn [fst snd] in *. exists ids, n'. repeat (split; [assumption|]). split; [|auto].
    split.
    + intros k Lk. destruct (bt_get (blank k) b') eqn:Q; [|reflexivity]. assert (bt_get (blank k) b' <> None) as Q' by congruence.
      apply Ad in Q' as [Q'|[(i & _ & Q')|(k' & Lk' & Q')]]; [now rewrite HK in Q' by lia|discriminate Q'|].
      injection Q' as Q'. apply nat_string_inj in Q'. lia.
    + intros L0. apply Ad. right. right. exists 0. split; [lia|reflexivity].
Qed.

Lemma document_ids K l b r b' ids ids' : blanks K b -> build_document l b = (Ok r, b') ->
  well_formed no_env l ids -> NoDup ids -> (forall i, In i ids -> bt_get (TmIri i) b = None) ->
  well_formed no_env l ids' -> NoDup ids' -> (forall i, In i ids' -> bt_get (TmIri i) b = None) -> forall i, In i ids -> In i ids'.
Proof.
  intros [HK _] _ W ND F W' ND' F' i I. destruct (makes_layout l no_env scope_default (agrees_env scope_default) sees_default (K, b) HK) as [H1 _].
  destruct (H1 ids W (conj ND F)) as (r1 & s1 & B & [_ Ad]). destruct (H1 ids' W' (conj ND' F')) as (r2 & s2 & B' & [_ Ad']).
  rewrite B in B'. injection B' as <- <-. assert (Q : bt_get (TmIri i) (snd s1) <> None) by (apply Ad; right; left; eauto).
  apply Ad' in Q as [Q|[(i' & I' & Q)|(k & _ & Q)]]; [elim Q; exact (F i I)|now injection Q as ->|discriminate Q].
Qed.

Lemma document_builds K l b ids : blanks K b -> well_formed no_env l ids -> NoDup ids -> (forall i, In i ids -> bt_get (TmIri i) b = None) ->
  (0 < K -> ~ ~ all_named l) -> exists r b', build_document l b = (Ok r, b').
Proof.
  intros [HK H0] W ND F A. destruct (makes_layout l no_env scope_default (agrees_env scope_default) sees_default (K, b) HK) as [H1 _].
  destruct (H1 ids W (conj ND F)) as (r & [n' b'] & B & _). rewrite document_eq. destruct (Nat.eq_dec K 0) as [->|NZ].
  - rewrite B. cbn [fst snd]. eauto.
  - destruct (named_or_not _ _ _ _ _ B) as [[N _]|[N _]]; [|now elim (A ltac:(lia))]. destruct (moved l K b N) as [E1 E2]. rewrite B in E1, E2.
    rewrite <- E1, <- E2. cbn [fst snd]. eauto.
Qed.

Lemma one_cons l ls : one_anonymous (l :: ls) -> one_anonymous ls /\ (~ all_named l -> forall l', In l' ls -> ~ ~ all_named l').
Proof.
  intros H. split.
  - intros i j x y Hx Hy A B. specialize (H (S i) (S j) x y Hx Hy A B). congruence.
  - intros A l' I B. apply In_nth_error in I as [j Hj]. specialize (H 0 (S j) l l' eq_refl Hj A B). discriminate H.
Qed.
Lemma cons_one l ls : one_anonymous ls -> (~ all_named l -> forall l', In l' ls -> all_named l') -> one_anonymous (l :: ls).
Proof.
  intros H K [|i] [|j] x y Hx Hy A B; cbn in Hx, Hy; [reflexivity| | |].
  - injection Hx as <-. elim B. apply (K A). eapply nth_error_In. exact Hy.
  - injection Hy as <-. elim A. apply (K B). eapply nth_error_In. exact Hx.
  - f_equal. exact (H i j x y Hx Hy A B).
Qed.

Lemma NoDup_app_inv {A} (l l' : list A) : NoDup (l ++ l') -> NoDup l /\ NoDup l' /\ forall x, In x l -> ~ In x l'.
Proof.
  induction l as [|a l IH]; cbn [app]; intros H; [split; [constructor|split; [exact H|intros ? []]]|].
  inversion H as [|? ? N ND]; subst. destruct (IH ND) as (H1 & H2 & H3). split; [constructor; [|exact H1]; intro I; apply N, in_or_app; now left|].
  split; [exact H2|]. intros x [<-|I]; [|exact (H3 x I)]. intros I. apply N, in_or_app. now right.
Qed.
Lemma NoDup_app_intro {A} (l l' : list A) : NoDup l -> NoDup l' -> (forall x, In x l -> ~ In x l') -> NoDup (l ++ l').
Proof.
  induction 1 as [|a l N _ IH]; cbn [app]; intros H D; [exact H|]. constructor.
  - intros I. apply in_app_or in I as [I|I]; [contradiction|]. now apply (D a); [left|].
  - apply IH; [exact H|]. intros x I. apply D. now right.
Qed.

Lemma all_accepts ls : forall K b, blanks K b ->
  (0 < K -> forall l, In l ls -> ~ ~ all_named l) -> one_anonymous ls ->
  forall idss, Forall2 (well_formed no_env) ls idss -> NoDup (concat idss) -> (forall i, In i (concat idss) -> bt_get (TmIri i) b = None) ->
  exists rs b', build_all ls b = Ok (rs, b').
Proof.
  induction ls as [|l ls IH]; intros K b HB A O idss W ND F; cbn [build_all]; [eauto|].
  inversion W as [|? ids ? idss' W1 W2]; subst. cbn [concat] in *. apply NoDup_app_inv in ND as (ND1 & ND2 & D).
  destruct (one_cons _ _ O) as [O' A'].
  destruct (document_builds K l b ids HB W1 ND1) as (r & b1 & E); [intros i I; apply F, in_or_app; now left|intros L; apply (A L); now left|].
  rewrite E. cbn [bind]. destruct (document_adds K l b r b1 HB E) as (ids1 & K' & W1' & ND1' & F1' & Ad & L & HB' & C).
  destruct (IH K' b1 HB') with (idss := idss') as (rs & b' & E'); auto.
  - intros L' l' I. destruct C as [[_ ->]|(N & _)]; [apply (A L'); now right|exact (A' N l' I)].
  - intros i I. apply get_None. intros Q. apply Ad in Q as [Q|[(i' & I' & Q)|(k & _ & Q)]]; [|injection Q as <-|discriminate Q].
    + rewrite F in Q by (apply in_or_app; now right). now elim Q.
    + apply (D i); [|exact I]. refine (document_ids K l b r b1 ids1 ids HB E W1' ND1' F1' W1 ND1 _ i I'). intros x Hx. apply F, in_or_app. now left.
  - rewrite E'. cbn [bind fst snd]. eauto.
Qed.

Lemma all_rejects ls : forall K b rs b', blanks K b -> build_all ls b = Ok (rs, b') ->
  (0 < K -> forall l, In l ls -> all_named l) /\ one_anonymous ls /\
  (exists idss, Forall2 (well_formed no_env) ls idss /\ NoDup (concat idss) /\ (forall i, In i (concat idss) -> bt_get (TmIri i) b = None)) /\
  exists K', K <= K' /\ blanks K' b' /\ (K' = 0 -> forall l, In l ls -> all_named l).
Proof.
  induction ls as [|l ls IH]; intros K b rs b' HB E; cbn [build_all] in E.
  - split; [intros _ l []|]. split; [intros [|i] j x y Hx; discriminate Hx|]. split.
    + exists []. split; [constructor|]. split; [constructor|intros i []].
    + injection E as _ <-. exists K. split; [lia|]. split; [exact HB|]. intros _ l [].
  - destruct (build_document l b) as [o b1] eqn:D. apply bind_Ok in E as (r & -> & E). apply bind_Ok in E as ([rs' b2] & E' & E). injection E as <- <-.
    destruct (document_adds K l b r b1 HB D) as (ids & K' & W & ND & F & Ad & L & HB' & C).
    destruct (IH K' b1 rs' b2 HB' E') as (A & O & (idss & WS & NDS & FS) & K2 & L2 & HB2 & A2). split; [|split; [|split]].
    + intros L0 l' [<-|I]; [destruct C as [[N _]|(_ & Z & _)]; [exact N|lia]|apply A; [lia|exact I]].
    + apply cons_one; [exact O|]. intros N. destruct C as [[N' _]|(_ & _ & L')]; [contradiction|exact (A L')].
    + exists (ids :: idss). split; [now constructor|]. cbn [concat]. split.
      * apply NoDup_app_intro; [exact ND|exact NDS|]. intros i I I'. apply FS in I'. assert (bt_get (TmIri i) b1 <> None); [|congruence].
        apply Ad. right. left. eauto.
      * intros i I. apply in_app_or in I as [I|I]; [exact (F i I)|]. apply FS in I. apply get_None. intros Q. assert (bt_get (TmIri i) b1 <> None); [|congruence].
        apply Ad. now left.
    + exists K2. split; [lia|]. split; [exact HB2|]. intros Z l' [<-|I]; [|exact (A2 Z l' I)]. destruct C as [[N _]|(_ & _ & L')]; [exact N|lia].
Qed.

Lemma blanks_nil : blanks 0 [].
Proof. split; [reflexivity|lia]. Qed.

(** The documents are accepted exactly when they are consistent, and at most one has anonymous layouts. *)
Lemma all_accepted ls : (exists rs b, build_all ls [] = Ok (rs, b)) <-> consistent ls /\ one_anonymous ls.
Proof.
  split.
  - intros (rs & b & E). destruct (all_rejects ls 0 [] rs b blanks_nil E) as (_ & O & (idss & W & ND & _) & _). split; [exists idss; auto|exact O].
  - intros [(idss & W & ND) O]. apply (all_accepts ls 0 [] blanks_nil) with (idss := idss); auto. lia.
Qed.

(** ** What the builder means *)
Definition kept (b b' : tbuilder) : Prop := forall q p, bt_get q b = Some p -> bt_get q b' = Some p.

Lemma reference_facts l b r b' : build_document l b = (Ok r, b') -> bt_wf b -> reference_of l r.
Proof.
  intros H W. apply document_run in H as [n1 B].
  pose proof (C70_meaning ctx l (0, b) r (n1, b') B W) as ME. cbn [snd] in ME. split.
  - intros i (h & c & Hh & Hc & Di). assert (M : iri_resource_denotes (ctx_iri ctx) no_env c r) by (destruct l; exact (proj1 ME _ _ Hh Hc)).
    destruct M as (i' & Di' & st & E). cbn in E. apply (denotes_resolve _ _ _ _ (agrees_env scope_default)) in Di, Di'. congruence.
  - intros A. clear - B A. unfold build_with_context in B. rewrite build_layout_eq in B. unfold layout_body in B.
    assert (N0 : layout_id l = None).
    { destruct l as [h c|k h res|h fs|h vs|h nd hd tl|h it|h its|bb|h|h]; cbn; try (apply A; reflexivity). reflexivity. }
    rewrite N0 in B. unfold bindM at 1 in B. cbn [anonymous_resource c_anonymous term_context fst snd] in B.
    unfold bindM at 1 in B. destruct (layout_pre _ _ _ _ _) as [[pre|e|w|] [n2 b2]]; try discriminate B.
    unfold bindM, insert_layout in B. cbn [snd fst] in B. destruct (bt_get _ b2); [discriminate B|]. unfold ret in B. cbn [snd fst] in B.
    injection B as <- _ _. eauto.
Qed.

Lemma all_means ls : forall b rs b', bt_wf b -> build_all ls b = Ok (rs, b') ->
  (forall q p, In (q, p) b -> plain p) -> (forall l, In l ls -> good_patterns l) ->
  bt_wf b' /\ kept b b' /\ (forall q p, In (q, p) b' -> plain p) /\
  Forall2 (fun l r => exists b1, meaning b1 no_env l r /\ kept b1 b') ls rs /\
  Forall2 reference_of ls rs /\
  (forall q p, bt_get q b' = Some p -> bt_get q b = Some p \/
    exists l b1 l' env, In l ls /\ AbsSpec.inside l l' /\ meaning b1 env l' q /\ kept b1 b').
Proof.
  induction ls as [|l ls IH]; intros b rs b' W E PL GP; cbn [build_all] in E.
  - injection E as <- <-. split; [exact W|]. split; [now intros q p|]. split; [exact PL|]. split; [constructor|]. split; [constructor|auto].
  - destruct (build_document l b) as [o b1] eqn:D. apply bind_Ok in E as (r & -> & E). apply bind_Ok in E as ([rs' b2] & E' & E). injection E as <- <-.
    cbn [fst snd] in *. pose proof (reference_facts _ _ _ _ D W) as RF. destruct (document_run _ _ _ _ D) as [n1 B].
    destruct (C70_definitions ctx l (0, b) r (n1, b1) B W) as (W1 & X & OR). cbn [snd] in *.
    pose proof (C70_meaning ctx l (0, b) r (n1, b1) B W) as ME. cbn [snd] in ME.
    destruct (IH b1 rs' b2 W1 E') as (W2 & X2 & PL2 & M2 & R2 & OR2).
    + intros q p I. apply bt_get_wf in I; [|exact W1]. destruct (OR q p I) as [K|(l' & env & I' & M')].
      * apply bt_get_In in K. exact (PL _ _ K).
      * assert (G : good_patterns l) by (apply GP; now left).
        destruct l'; destruct M' as (_ & p' & D1 & M'); rewrite I in D1; injection D1 as <-;
        (eapply denotes_plain; [exact M'|]; intros; eapply G; [exact I'|]; eassumption).
    + intros l' I. apply GP. now right.
    + split; [exact W2|]. split; [intros q p Q; apply X2, X, Q|]. split; [exact PL2|]. split; [constructor; [|exact M2]|].
      * exists b1. split; [exact ME|exact X2].
      * split; [now constructor|]. intros q p Q. destruct (OR2 q p Q) as [Q1|(l1 & b3 & l' & env & I & IN & M & K)].
        -- destruct (OR q p Q1) as [Q0|(l' & env & IN & M)]; [now left|right]. exists l, b1, l', env. split; [now left|auto].
        -- right. exists l1, b3, l', env. split; [now right|auto].
Qed.

(** The registry that is built does not depend on the fuel. *)
Lemma all_registry {E} ls rs b : build_all ls [] = Ok (rs, b) -> (forall l, In l ls -> good_patterns l) ->
  Forall2 reference_of ls rs /\
  exists N m, made_of m ls rs /\ bt_wf m /\ (forall r, layouts_get m r <> None <-> bt_get r b <> None) /\
    forall fuel, N <= fuel -> builder_build (E := E) fuel b = Ok m.
Proof.
  intros H GP. destruct (all_means ls [] rs b ltac:(constructor) H ltac:(intros ? ? []) GP) as (W & _ & PL & M & R & OR). split; [exact R|].
  destruct (C76_total (E := E) b PL) as [N T]. destruct (T N (le_n N)) as [m B]. exists N, m.
  destruct (C76_registry N b m W B) as [Wm G]. destruct (registry_keys N b m W B) as [_ KS].
  assert (DEFS : forall b1, kept b1 b -> forall q p, bt_get q b1 = Some p -> exists lay, layouts_get m q = Some lay /\ layout_of p lay).
  { intros b1 K q p Q. specialize (G q). rewrite (K q p Q) in G. exact G. }
  split; [|split; [exact Wm|split; [exact KS|]]].
  - split.
    + clear - M DEFS. induction M as [|l r ls rs (b1 & ME & K) _ IH]; constructor; [|exact IH]. exists (fun q => bt_get q b1). split; [exact ME|exact (DEFS b1 K)].
    + intros q Q. apply KS in Q. destruct (bt_get q b) as [p|] eqn:E'; [|now elim Q].
      destruct (OR q p E') as [Q'|(l & b1 & l' & env & I & IN & ME & K)]; [discriminate Q'|]. exists l. split; [exact I|].
      exists (fun q => bt_get q b1), l', env. split; [exact IN|]. split; [exact ME|exact (DEFS b1 K)].
  - intros fuel L. eapply CliMono.builder_build_mono; [exact L|exact B].
Qed.
End Builders.

(** ** The files *)
Section Files.
Context {TS : TextSyntax} {IS : IriSyntax} {AE : AbsExternal} {F : Type} {FM : Formats F}.
Variables (arbitrary_precision : bool) (json_float : string -> option F) (from_f64 : F -> option Qc).
Variable file : string -> option string.
Notation document := (serde_document arbitrary_precision json_float from_f64 file).
Notation unread := (unreadable arbitrary_precision json_float from_f64 file).
Notation read := (read_layout arbitrary_precision json_float from_f64).

Lemma document_read name l : document name l <-> exists source, file name = Some source /\ read source = Ok l.
Proof.
  unfold read_layout. split.
  - intros (source & j & s & H & P & S & D). exists source. split; [exact H|]. rewrite P, S. exact D.
  - intros (source & H & R). destruct (json_parse source) as [j|] eqn:P; [|discriminate R]. apply bind_Ok in R as (s & S & D). now exists source, j, s.
Qed.

Lemma serde_settled j : settled (json_serde arbitrary_precision json_float j).
Proof.
  induction j as [| | s | |l IH|o IH] using JsonProperties.json_ind'; cbn [json_serde]; try (left; now eexists).
  - assert (FL : settled (match json_float s with Some f => Ok (SF64 f) | None => Err tt end)) by (destruct (json_float s); [left; eauto|now right]).
    unfold json_number_serde. destruct arbitrary_precision; [left; now eexists|].
    revert FL. generalize (match json_float s with Some f => Ok (SF64 f) | None => Err tt end). intros fl FL.
    repeat match goal with |- settled (match ?x with _ => _ end) => destruct x end; first [exact FL|left; now eexists].
  - apply settled_bind; [|left; eauto]. induction IH as [|j l H _ IHl]; cbn [traverse]; [left; eauto|].
    apply settled_bind; [exact H|]. intros a _. apply settled_bind; [exact IHl|]. left; eauto.
  - apply settled_bind; [|left; eauto]. induction IH as [|[k j] l H _ IHl]; cbn [traverse]; [left; eauto|].
    apply settled_bind; [|intros a _; apply settled_bind; [exact IHl|left; eauto]]. apply settled_bind; [exact H|left; eauto].
Qed.
Lemma read_settled source : settled (read source).
Proof.
  unfold read_layout. destruct (json_parse source); [|now right]. apply settled_bind; [apply serde_settled|]. intros s _. exact (C85_total from_f64 s).
Qed.

Lemma document_unique name l l' : document name l -> document name l' -> l = l'.
Proof. intros H H'. apply document_read in H as (s & H1 & H2), H' as (s' & H1' & H2'). congruence. Qed.

Lemma document_patterns name l : scalar_values -> document name l -> good_patterns l.
Proof. intros SV (source & j & s & _ & _ & _ & D). exact (deserialize_good from_f64 SV s l D). Qed.

Lemma attribute_all names ls : Forall2 document names ls -> forall b,
  attribute_builder arbitrary_precision json_float from_f64 file names b = let* x := map_err MacroLayout (build_all ls b) in Ok (snd x).
Proof.
  induction 1 as [|name l names ls D _ IH]; intros b; [reflexivity|]. apply document_read in D as (source & H & R). cbn [attribute_builder build_all].
  rewrite H. cbn [unwrap bind]. rewrite R. cbn [map_err bind]. destruct (build_document l b) as [o b1]. destruct o as [r| | |]; try reflexivity. cbn [map_err bind].
  rewrite IH. destruct (build_all ls b1); reflexivity.
Qed.
Lemma attribute_documents names : forall b b', attribute_builder arbitrary_precision json_float from_f64 file names b = Ok b' ->
  exists ls, Forall2 document names ls.
Proof.
  induction names as [|name names IH]; intros b b' H; [exists []; constructor|]. cbn [attribute_builder] in H. apply bind_Ok in H as (source & S & H).
  apply bind_Ok in H as (l & R & H). destruct (build_document l b) as [o b1]. apply bind_Ok in H as (r & _ & H). destruct (IH _ _ H) as [ls D].
  exists (l :: ls). constructor; [|exact D]. apply document_read. exists source. split.
  - destruct (file name); [now injection S as ->|discriminate S].
  - destruct (read source); try discriminate R. now injection R as ->.
Qed.

Lemma program_all names ls : readable arbitrary_precision json_float from_f64 file names ls -> forall d b,
  program_builder arbitrary_precision json_float from_f64 file names d b =
  let* x := map_err ProgCompile (build_all ls b) in Ok (fold_left (fun d r => default_set r d) (fst x) d, snd x).
Proof.
  induction 1 as [|name names l ls D _ IH|name names ls [U1 U2] _ IH]; intros d b; [reflexivity| |].
  - apply document_read in D as (source & H & R). cbn [program_builder build_all].
    rewrite H. cbn [unwrap bind]. rewrite R. destruct (build_document l b) as [o b1]. destruct o as [r| | |]; try reflexivity. cbn [map_err bind].
    rewrite IH. destruct (build_all ls b1); reflexivity.
  - cbn [program_builder]. destruct (file name) as [source|] eqn:FI; [|now elim U1]. cbn [unwrap bind].
    destruct (read_settled source) as [[l R]|R]; rewrite R; [|apply IH].
    elim (U2 l). apply document_read. eauto.
Qed.
Lemma program_documents names : forall d b x, program_builder arbitrary_precision json_float from_f64 file names d b = Ok x ->
  exists ls, readable arbitrary_precision json_float from_f64 file names ls /\ exists rs b', build_all ls b = Ok (rs, b').
Proof.
  induction names as [|name names IH]; intros d b x H; [exists []; split; [constructor|cbn; eauto]|]. cbn [program_builder] in H. apply bind_Ok in H as (source & S & H).
  assert (FI : file name = Some source) by (destruct (file name); [now injection S as ->|discriminate S]).
  destruct (read source) as [l|e|w|] eqn:R; try discriminate H.
  - destruct (build_document l b) as [o b1] eqn:B. apply bind_Ok in H as (r & O & H). destruct (IH _ _ _ H) as (ls & D & rs & b' & BA).
    exists (l :: ls). split; [constructor; [|exact D]; apply document_read; eauto|]. cbn [build_all]. rewrite B.
    destruct o as [r'| | |]; try discriminate O. cbn [bind]. rewrite BA. cbn [bind]. eauto.
  - destruct (IH _ _ _ H) as (ls & D & BA). exists ls. split; [|exact BA]. apply readable_skip; [|exact D]. split; [congruence|].
    intros l D'. apply document_read in D' as (s' & F' & R'). congruence.
Qed.
End Files.
