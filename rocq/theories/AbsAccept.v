(** * The documents that compile (C83) *)

From Coq Require Import String Ascii List Bool Arith NArith Lia.
Import ListNotations.
From Verif Require Import Base BaseProofs Orders PatternModel ValueModel LayoutModel LayoutSpec
  MatchingSpec HydrateModel TermModel DehydrateModel DehydrateFinish AbsModel AbsSpec AbsProofs AbsProperties AbsMeaning
  AbsRedefine AbsAcceptSpec.
Open Scope list_scope.
Open Scope nat_scope.

Section Accept.
Context {IS : IriSyntax} {AE : AbsExternal}.
Notation ctx := term_context.
Notation state := (@bstate nat term).
Notation TM := (@M nat term).

Lemma NoDup_app_split {A} (l l' : list A) : NoDup (l ++ l') -> NoDup l /\ NoDup l'.
Proof.
  induction l as [|x l IH]; cbn; intros H; [split; [constructor|exact H]|].
  inversion H as [|? ? N ND]; subst. destruct (IH ND) as [H1 H2]. split; [|exact H2].
  constructor; [|exact H1]. intros I. apply N, in_or_app. now left.
Qed.

(** ** Environments *)

Definition agrees (env : ienv) (sc : scope) : Prop :=
  e_base env = sc_base sc /\ forall n, e_prefix env n = hm_get n (sc_prefixes sc).

Lemma agrees_env sc : agrees (env_of sc) sc.
Proof. split; reflexivity. Qed.
Lemma agrees_intro env sc intro : agrees env sc -> agrees env (with_intro intro sc).
Proof. unfold agrees. destruct (with_intro_env intro sc) as [-> ->]. auto. Qed.
Lemma agrees_without env sc : agrees env sc -> agrees env (without_variables sc).
Proof. auto. Qed.

Lemma denotes_resolve env sc i i' : agrees env sc -> (iri_denotes env i i' <-> resolve i sc = Ok i').
Proof.
  intros [B P]. split.
  - intros [(t & u & A & H)|(N & b & E & ->)].
    + rewrite P in H. destruct (hm_get t (sc_prefixes sc)) as [p|] eqn:G.
      * destruct H as [-> I]. rewrite (C54_prefixed i t u p sc A G). now rewrite I.
      * subst i'. now apply (C54_absolute i t u).
    + rewrite (C54_relative i sc N). rewrite B in E. now rewrite E.
  - intros H. apply resolve_denotes in H. destruct H as [(t & u & A & H)|(N & b & E & ->)].
    + left. exists t, u. split; [exact A|]. cbn [env_of e_prefix] in H. now rewrite P.
    + right. split; [exact N|]. exists b. split; [|reflexivity]. rewrite B. exact E.
Qed.

Lemma iri_ok_resolve env sc i : agrees env sc -> (iri_ok env i <-> exists i', resolve i sc = Ok i').
Proof. intros A. unfold iri_ok. split; intros [i' H]; exists i'; now apply (denotes_resolve _ _ _ _ A). Qed.

Lemma with_prefixes_ok old ps : (forall name p, In (name, p) ps -> exists p', resolve p old = Ok p') ->
  forall m, exists m', with_prefixes old ps m = Ok m'.
Proof.
  induction ps as [|[name p] ps IH]; intros H m; [now exists m|]. cbn [with_prefixes].
  destruct (H name p (or_introl eq_refl)) as [p' ->]. cbn [bind]. apply IH. intros n q I. apply (H n). now right.
Qed.
Lemma with_prefixes_all old ps : forall m m', with_prefixes old ps m = Ok m' ->
  forall name p, In (name, p) ps -> exists p', resolve p old = Ok p'.
Proof.
  induction ps as [|[name p] ps IH]; intros m m' H n q I; [destruct I|]. cbn [with_prefixes] in H.
  apply bind_Ok in H as (p' & R & H). destruct I as [[= <- <-]|I]; [now exists p'|]. exact (IH _ _ H n q I).
Qed.

Lemma last_declared (ps : list (string * compact_iri)) name :
  (forall p, ~ In (name, p) ps) \/ exists before p after, ps = before ++ (name, p) :: after /\ forall q, ~ In (name, q) after.
Proof.
  induction ps as [|[n p] ps IH]; [left; intros p []|].
  destruct IH as [N|(before & q & after & -> & N)].
  - destruct (string_dec n name) as [->|NE].
    + right. exists [], p, ps. auto.
    + left. intros q [[= E _]|I]; [congruence|]. exact (N q I).
  - right. exists ((n, p) :: before), q, after. auto.
Qed.

Lemma header_scope env sc h sc' : agrees env sc -> with_header h sc = Ok sc' ->
  header_env env h (env_of sc') /\ forall name p, In (name, p) (ah_prefixes h) -> iri_ok env p.
Proof.
  intros A H. split.
  - pose proof (header_denotes_env _ _ _ H) as [P B]. split.
    + intros name. destruct (P name) as [P1 P2]. split.
      * intros p D. destruct (P1 p D) as (p' & E & G). exists p'. split; [|exact G].
        apply (denotes_resolve _ _ _ _ A). now apply (denotes_resolve _ _ _ _ (agrees_env sc)).
      * intros N. rewrite (P2 N). symmetry. apply A.
    + destruct (ah_base h) as [b|].
      * destruct B as (b' & E & G). exists b'. split; [|exact G].
        apply (denotes_resolve _ _ _ _ A). now apply (denotes_resolve _ _ _ _ (agrees_env sc)).
      * rewrite B. symmetry. apply A.
  - unfold with_header in H. apply bind_Ok in H as (base & Hb & H). apply bind_Ok in H as (ps & Hp & H).
    intros name p I. apply (iri_ok_resolve _ _ _ A). exact (with_prefixes_all _ _ _ _ Hp name p I).
Qed.

Lemma scope_header env sc h env' : agrees env sc -> header_env env h env' ->
  (forall name p, In (name, p) (ah_prefixes h) -> iri_ok env p) ->
  exists sc', with_header h sc = Ok sc' /\ agrees env' sc'.
Proof.
  intros A [P B] O.
  assert (exists sc', with_header h sc = Ok sc') as [sc' H].
  { unfold with_header.
    destruct (with_prefixes_ok sc (ah_prefixes h)) with (m := sc_prefixes sc) as [ps Hp].
    { intros name p I. apply (iri_ok_resolve _ _ _ A). exact (O name p I). }
    destruct (ah_base h) as [b|].
    - destruct B as (b' & E & _). apply (denotes_resolve _ _ _ _ A) in E as ->. cbn [bind]. rewrite Hp. cbn [bind]. now eexists.
    - cbn [bind]. rewrite Hp. cbn [bind]. now eexists. }
  exists sc'. split; [exact H|]. destruct (header_scope _ _ _ _ A H) as [[P' B'] _]. split.
  - change (sc_base sc') with (e_base (env_of sc')). destruct (ah_base h) as [b|]; [|congruence].
    destruct B as (b1 & E1 & ->), B' as (b2 & E2 & ->).
    apply (denotes_resolve _ _ _ _ A) in E1, E2. congruence.
  - intros n. change (hm_get n (sc_prefixes sc')) with (e_prefix (env_of sc') n).
    destruct (P n) as [P1 P2], (P' n) as [P1' P2'].
    destruct (last_declared (ah_prefixes h) n) as [N|(before & p & after & E & N)].
    + now rewrite P2, P2'.
    + assert (declared_prefix h n p) as D by (now exists before, after).
      destruct (P1 p D) as (p1 & E1 & ->), (P1' p D) as (p2 & E2 & ->).
      apply (denotes_resolve _ _ _ _ A) in E1, E2. congruence.
Qed.

(** ** Computations that only read *)

Definition reads {A} (m : TM A) (P : Prop) : Prop :=
  (P -> exists a, forall s, m s = (Ok a, s)) /\ (forall s a s', m s = (Ok a, s') -> P /\ s' = s).

Lemma reads_iff {A} (m : TM A) (P Q : Prop) : (P <-> Q) -> reads m P -> reads m Q.
Proof. intros E [H1 H2]. split; [tauto|]. intros s a s' H. destruct (H2 s a s' H). tauto. Qed.

Lemma reads_ret {A} (a : A) : reads (ret a) True.
Proof. split; [intros _; now exists a|]. intros s a' s' H. injection H as _ <-. auto. Qed.

Lemma reads_lift {A} (o : outcome build_error A) : reads (lift o) (exists a, o = Ok a).
Proof.
  split; [intros [a ->]; now exists a|]. intros s a s' H. injection H as -> <-. eauto.
Qed.

Lemma reads_iri i : reads (iri_resource ctx i) True.
Proof. split; [intros _; exists (TmIri i); intros []; reflexivity|]. intros [n b] a s' H. injection H as _ <-. auto. Qed.
Lemma reads_literal l : reads (literal_resource ctx l) True.
Proof. split; [intros _; exists (TmLit l); intros []; reflexivity|]. intros [n b] a s' H. injection H as _ <-. auto. Qed.

Lemma reads_bind {A B} (m : TM A) (k : A -> TM B) P Q : reads m P -> (forall a, reads (k a) Q) -> reads (bindM m k) (P /\ Q).
Proof.
  intros [H1 H2] K. split.
  - intros [p q]. destruct (H1 p) as [a E]. destruct (proj1 (K a) q) as [b F]. exists b. intros s. unfold bindM.
    now rewrite E.
  - intros s b s' H. unfold bindM in H. destruct (m s) as [[a|e|w|] s1] eqn:E; try discriminate.
    destruct (H2 _ _ _ E) as [p ->]. destruct (proj2 (K a) _ _ _ H) as [q ->]. auto.
Qed.

Lemma reads_lift_bind {A B} (o : outcome build_error A) (k : A -> TM B) Q :
  (forall a, o = Ok a -> reads (k a) Q) -> reads (bindM (lift o) k) ((exists a, o = Ok a) /\ Q).
Proof.
  intros K. split.
  - intros [[a ->] q]. destruct (proj1 (K a eq_refl) q) as [b F]. exists b. intros s. exact (F s).
  - intros s b s' H. unfold bindM, lift in H. destruct o as [a|e|w|]; try discriminate.
    destruct (proj2 (K a eq_refl) _ _ _ H) as [q ->]. split; [|reflexivity]. split; eauto.
Qed.

Lemma reads_mapS {A B} (f : A -> TM B) (P : A -> Prop) l : (forall a, reads (f a) (P a)) ->
  reads (mapS f l) (forall a, In a l -> P a).
Proof.
  intros F. induction l as [|a l IH]; cbn [mapS].
  - apply (reads_iff _ True); [firstorder|apply reads_ret].
  - apply (reads_iff _ (P a /\ ((forall a, In a l -> P a) /\ True))).
    { split; [intros (H1 & H2 & _) x [<-|I]; auto|]. intros H. split; [apply H; now left|]. split; [|exact I]. intros x I. apply H. now right. }
    apply reads_bind; [apply F|]. intros b. apply reads_bind; [exact IH|]. intros bs. apply reads_ret.
Qed.

Lemma reads_option {A B} (f : A -> TM B) (P : A -> Prop) o : (forall a, reads (f a) (P a)) ->
  reads (build_option f o) (option_ok P o).
Proof.
  intros F. destruct o as [a|]; cbn [build_option].
  - apply (reads_iff _ (P a /\ True)); [|apply reads_bind; [apply F|intros b; apply reads_ret]].
    unfold option_ok. split; [intros [H _] x [= <-]; exact H|]. intros H. split; [now apply H|exact I].
  - apply (reads_iff _ True); [|apply reads_ret]. unfold option_ok. split; [intros _ x; discriminate|auto].
Qed.

Lemma reads_pattern env ns p sc : agrees env sc -> sees sc ns -> reads (build_pattern ctx p sc) (pattern_ok env ns p).
Proof.
  intros A S. destruct p as [name|i|v ty]; cbn [build_pattern pattern_ok].
  - apply (reads_iff _ ((exists x, scope_variable sc name = Ok x) /\ True)).
    { destruct (C52_variable sc ns name S) as (V1 & V2 & V3). split; [intros [[x H] _]; now apply (sees_In sc ns) in H|auto]. }
    apply reads_bind; [apply reads_lift|]. intros x. apply reads_ret.
  - apply (reads_iff _ ((exists i', resolve i sc = Ok i') /\ (True /\ True))); [rewrite (iri_ok_resolve _ _ _ A); tauto|].
    apply reads_bind; [apply reads_lift|]. intros i'. apply reads_bind; [apply reads_iri|]. intros r. apply reads_ret.
  - apply (reads_iff _ ((exists t, resolve_type ty sc = Ok t) /\ (True /\ True))).
    { destruct ty as [i|tag]; cbn [resolve_type].
      - rewrite (iri_ok_resolve _ _ _ A). split.
        + intros [[t H] _]. apply bind_Ok in H as (i' & H & _). now exists i'.
        + intros [i' ->]. split; [now eexists|auto].
      - split; [auto|]. intros _. split; [now eexists|auto]. }
    apply reads_bind; [apply reads_lift|]. intros t. apply reads_bind; [apply reads_literal|]. intros r. apply reads_ret.
Qed.

Lemma reads_quad env ns q sc : agrees env sc -> sees sc ns -> reads (build_quad ctx sc q) (quad_ok env ns q).
Proof.
  intros A S. unfold build_quad, quad_ok.
  apply (reads_iff _ (pattern_ok env ns (q_s q) /\ pattern_ok env ns (q_p q) /\ pattern_ok env ns (q_o q) /\
                      option_ok (pattern_ok env ns) (q_g q) /\ True)); [tauto|].
  do 3 (apply reads_bind; [now apply reads_pattern|]; intros ?). apply reads_bind; [|intros; apply reads_ret].
  apply reads_option. intros g. now apply reads_pattern.
Qed.

Lemma reads_dataset env ns ds sc : agrees env sc -> sees sc ns -> reads (build_dataset ctx sc ds) (dataset_ok env ns ds).
Proof.
  intros A S. unfold build_dataset, dataset_ok.
  apply (reads_iff _ ((forall q, In q ds -> quad_ok env ns q) /\ True)); [tauto|].
  apply reads_bind; [|intros; apply reads_ret]. apply reads_mapS. intros q. now apply reads_quad.
Qed.

Lemma reads_build_iri env i sc : agrees env sc -> reads (build_iri ctx i sc) (iri_ok env i).
Proof.
  intros A. unfold build_iri. apply (reads_iff _ ((exists i', resolve i sc = Ok i') /\ True)); [rewrite (iri_ok_resolve _ _ _ A); tauto|].
  apply reads_bind; [apply reads_lift|]. intros i'. apply reads_iri.
Qed.

Lemma reads_extra env l sc : agrees env sc -> reads (build_extra ctx l sc) (forall pv, In pv l -> extra_ok env pv).
Proof.
  intros A. unfold build_extra. apply (reads_iff _ ((forall pv, In pv l -> extra_ok env pv) /\ True)); [tauto|].
  apply reads_bind; [|intros; apply reads_ret]. apply reads_mapS. intros [p v]. unfold extra_ok. cbn [fst snd].
  apply (reads_iff _ (iri_ok env p /\ (match v with ATypedString _ ty => iri_ok env ty | _ => True end /\ True))); [tauto|].
  apply reads_bind; [now apply reads_build_iri|]. intros r. apply reads_bind; [|intros; apply reads_ret].
  destruct v as [b|z|s|x ty]; cbn [build_resource]; try apply reads_literal.
  apply (reads_iff _ ((exists i', resolve ty sc = Ok i') /\ True)); [rewrite (iri_ok_resolve _ _ _ A); tauto|].
  apply reads_bind; [apply reads_lift|]. intros t. apply reads_literal.
Qed.

(** ** Computations that define layouts *)

Definition fresh (ids : list string) (s : state) : Prop :=
  NoDup ids /\ forall i, In i ids -> bt_get (TmIri i) (snd s) = None.

Definition adds (ids : list string) (s s' : state) : Prop :=
  fst s <= fst s' /\
  forall r, bt_get r (snd s') <> None <->
    bt_get r (snd s) <> None \/ (exists i, In i ids /\ r = TmIri i) \/
    (exists m, fst s <= m < fst s' /\ r = TmBlank (nat_string m)).

Lemma adds_refl s : adds [] s s.
Proof.
  split; [auto|]. intros r. split; [auto|]. intros [H|[(i & [] & _)|(m & L & _)]]; [exact H|lia].
Qed.

Lemma adds_future ids s s' : no_future s -> adds ids s s' -> no_future s'.
Proof.
  intros F [L H] n Hn. destruct (bt_get (TmBlank (nat_string n)) (snd s')) as [p|] eqn:G; [|reflexivity]. exfalso.
  assert (bt_get (TmBlank (nat_string n)) (snd s') <> None) as K by congruence. apply H in K as [K|[(i & _ & E)|(m & L' & E)]].
  - apply K. apply F. lia.
  - discriminate.
  - injection E as E. apply nat_string_inj in E. lia.
Qed.

Lemma adds_trans ids1 ids2 s s1 s2 : adds ids1 s s1 -> adds ids2 s1 s2 -> adds (ids1 ++ ids2) s s2.
Proof.
  intros [L1 H1] [L2 H2]. split; [lia|]. intros r. rewrite H2, H1. split.
  - intros [[H|[(i & I & ->)|(m & L & ->)]]|[(i & I & ->)|(m & L & ->)]].
    + now left.
    + right. left. exists i. split; [apply in_or_app; now left|reflexivity].
    + right. right. exists m. split; [lia|reflexivity].
    + right. left. exists i. split; [apply in_or_app; now right|reflexivity].
    + right. right. exists m. split; [lia|reflexivity].
  - intros [H|[(i & I & ->)|(m & L & ->)]].
    + auto.
    + apply in_app_or in I as [I|I]; [left; right; left; eauto|right; left; eauto].
    + destruct (Nat.lt_ge_cases m (fst s1)) as [K|K]; [left; right; right; exists m; split; [lia|reflexivity]|right; right; exists m; split; [lia|reflexivity]].
Qed.

Lemma fresh_app ids1 ids2 s s1 : adds ids1 s s1 -> (fresh (ids1 ++ ids2) s <-> fresh ids1 s /\ fresh ids2 s1).
Proof.
  intros [L H]. split.
  - intros [ND N]. split; [split; [now apply NoDup_app_split in ND|intros i I; apply N, in_or_app; now left]|].
    split; [now apply NoDup_app_split in ND|]. intros i I.
    destruct (bt_get (TmIri i) (snd s1)) as [p|] eqn:G; [|reflexivity]. exfalso.
    assert (bt_get (TmIri i) (snd s1) <> None) as K by congruence. apply H in K as [K|[(j & J & [= ->])|(m & L' & E)]].
    + apply K. apply N. apply in_or_app. now right.
    + clear - ND I J. induction ids1 as [|x l IH]; [destruct J|]. cbn in ND. inversion ND as [|? ? NI ND']; subst.
      destruct J as [->|J]; [apply NI, in_or_app; now right|auto].
    + discriminate.
  - intros [[ND1 N1] [ND2 N2]]. split.
    + assert (forall i, In i ids1 -> ~ In i ids2) as D.
      { intros i I J. specialize (N2 i J). assert (bt_get (TmIri i) (snd s1) <> None) as K; [|congruence].
        apply H. right. left. exists i. auto. }
      clear - ND1 ND2 D. induction ids1 as [|x l IH]; [exact ND2|]. cbn. inversion ND1; subst. constructor.
      * intros I. apply in_app_or in I as [I|I]; [auto|]. apply (D x); [now left|exact I].
      * apply IH; [assumption|]. intros i I. apply D. now right.
    + intros i I. apply in_app_or in I as [I|I]; [now apply N1|]. specialize (N2 i I).
      destruct (bt_get (TmIri i) (snd s)) as [p|] eqn:G; [|reflexivity]. exfalso.
      assert (bt_get (TmIri i) (snd s1) <> None) as K; [|congruence]. apply H. left. congruence.
Qed.

Definition makes {A} (m : TM A) (W : list string -> Prop) : Prop :=
  forall s, no_future s ->
    (forall ids, W ids -> fresh ids s -> exists a s', m s = (Ok a, s') /\ adds ids s s') /\
    (forall a s', m s = (Ok a, s') -> exists ids, W ids /\ fresh ids s /\ adds ids s s').

Lemma makes_iff {A} (m : TM A) (W W' : list string -> Prop) : (forall ids, W ids <-> W' ids) -> makes m W -> makes m W'.
Proof.
  intros E H s F. destruct (H s F) as [H1 H2]. split.
  - intros ids w. apply H1. now apply E.
  - intros a s' K. destruct (H2 a s' K) as (ids & w & R). exists ids. split; [now apply E|exact R].
Qed.

Lemma fresh_nil s : fresh [] s.
Proof. split; [constructor|]. intros i []. Qed.

Lemma makes_reads {A} (m : TM A) P : reads m P -> makes m (fun ids => P /\ ids = []).
Proof.
  intros [H1 H2] s F. split.
  - intros ids [p ->] _. destruct (H1 p) as [a E]. exists a, s. split; [apply E|apply adds_refl].
  - intros a s' H. destruct (H2 _ _ _ H) as [p ->]. exists []. split; [auto|]. split; [apply fresh_nil|apply adds_refl].
Qed.

Lemma makes_bind {A B} (m : TM A) (k : A -> TM B) W1 W2 : makes m W1 -> (forall a, makes (k a) W2) ->
  makes (bindM m k) (fun ids => exists ids1 ids2, W1 ids1 /\ W2 ids2 /\ ids = ids1 ++ ids2).
Proof.
  intros H K s F. destruct (H s F) as [H1 H2]. split.
  - intros ids (ids1 & ids2 & w1 & w2 & ->) FR.
    assert (fresh ids1 s) as FR1.
    { destruct FR as [ND N]. split; [now apply NoDup_app_split in ND|]. intros i I. apply N, in_or_app. now left. }
    destruct (H1 ids1 w1 FR1) as (a & s1 & E & A1). apply (fresh_app _ _ _ _ A1) in FR as [_ FR2].
    destruct (proj1 (K a s1 (adds_future _ _ _ F A1)) ids2 w2 FR2) as (b & s2 & E2 & A2).
    exists b, s2. unfold bindM. rewrite E. split; [exact E2|]. now apply (adds_trans _ _ _ s1).
  - intros b s' E. unfold bindM in E. destruct (m s) as [[a|e|w|] s1] eqn:E1; try discriminate.
    destruct (H2 a s1 eq_refl) as (ids1 & w1 & FR1 & A1).
    destruct (proj2 (K a s1 (adds_future _ _ _ F A1)) b s' E) as (ids2 & w2 & FR2 & A2).
    exists (ids1 ++ ids2). split; [eauto 6|]. split; [now apply (fresh_app _ _ _ s1)|now apply (adds_trans _ _ _ s1)].
Qed.

Lemma makes_after {A B} (m : TM A) (k : A -> TM B) P W : reads m P -> (forall a, makes (k a) W) ->
  makes (bindM m k) (fun ids => P /\ W ids).
Proof.
  intros H K. eapply makes_iff; [|apply makes_bind; [apply makes_reads, H|exact K]]. intros ids. cbn. split.
  - intros (i1 & i2 & [p ->] & w & ->). auto.
  - intros [p w]. exists [], ids. auto.
Qed.
Lemma makes_before {A B} (m : TM A) (k : A -> TM B) P W : makes m W -> (forall a, reads (k a) P) ->
  makes (bindM m k) (fun ids => W ids /\ P).
Proof.
  intros H K. eapply makes_iff; [|apply makes_bind; [exact H|intros a; apply makes_reads, K]]. intros ids. cbn. split.
  - intros (i1 & i2 & w & [p ->] & ->). now rewrite app_nil_r.
  - intros [w p]. exists ids, []. rewrite app_nil_r. auto.
Qed.
Lemma makes_ret {A B} (m : TM A) (f : A -> B) W : makes m W -> makes (bindM m (fun a => ret (f a))) W.
Proof.
  intros H. eapply makes_iff; [|apply makes_before; [exact H|intros a; apply reads_ret]]. cbn. tauto.
Qed.

Lemma makes_mapS {A B} (f : A -> TM B) (Q : A -> list string -> Prop) l : (forall a, In a l -> makes (f a) (Q a)) ->
  makes (mapS f l) (all_ok Q l).
Proof.
  induction l as [|a l IH]; intros F; cbn [mapS all_ok].
  - eapply makes_iff; [|apply makes_reads, reads_ret]. cbn. tauto.
  - apply makes_bind; [apply F; now left|]. intros b. apply makes_ret. apply IH. intros x I. apply F. now right.
Qed.

Lemma makes_header {T} h sc env (k : header term * scope -> TM T) (W : ienv -> list string -> Prop) :
  agrees env sc -> sees sc [] ->
  (forall hd sc' env', agrees env' sc' -> sees sc' (header_names h) -> makes (k (hd, sc')) (W env')) ->
  makes (bindM (build_header ctx h sc) k) (fun ids => exists env', header_ok env h env' /\ W env' ids).
Proof.
  intros A S K s F.
  assert (forall env' sc', agrees env' sc' -> with_header h sc = Ok sc' -> sees sc' (header_names h)) as SEE.
  { intros env' sc' _ H. exact (sees_header h sc sc' [] S H). }
  split.
  - intros ids (env' & (HE & HP & HD & HX) & w) FR. destruct (scope_header _ _ _ _ A HE HP) as (sc' & H & A').
    pose proof (SEE _ _ A' H) as S'.
    destruct (proj1 (reads_dataset env' _ (ah_dataset h) sc' A' S') HD) as [ds Hd].
    destruct (proj1 (reads_extra env' (ah_extra h) sc' A') HX) as [x Hx].
    destruct (proj1 (K (Header (length (ah_input h)) (length (ah_intro h)) ds) sc' env' A' S' s F) ids w FR) as (a & s' & E & Ad).
    exists a, s'. split; [|exact Ad]. unfold bindM at 1. unfold build_header. unfold bindM at 1. unfold lift. rewrite H.
    unfold bindM at 1. rewrite Hd. unfold bindM at 1. rewrite Hx. exact E.
  - intros a s' E. unfold bindM at 1 in E. destruct (build_header ctx h sc s) as [[hs|e|w|] s1] eqn:B; try discriminate.
    unfold build_header in B. unfold bindM at 1 in B. unfold lift in B.
    destruct (with_header h sc) as [sc'|e|w|] eqn:H; try discriminate.
    pose proof (agrees_env sc') as A'. pose proof (SEE _ _ A' eq_refl) as S'.
    unfold bindM at 1 in B. destruct (build_dataset ctx sc' (ah_dataset h) s) as [[ds|e|w|] s2] eqn:Hd; try discriminate.
    apply (reads_dataset (env_of sc') _ _ _ A' S') in Hd as [HD ->].
    unfold bindM at 1 in B. destruct (build_extra ctx (ah_extra h) sc' s) as [[x|e|w|] s2] eqn:Hx; try discriminate.
    apply (reads_extra (env_of sc') _ _ A') in Hx as [HX ->]. injection B as <- <-.
    destruct (proj2 (K _ sc' (env_of sc') A' S' s F) a s' E) as (ids & w & FR & Ad).
    exists ids. split; [|auto]. exists (env_of sc'). split; [|exact w]. destruct (header_scope _ _ _ _ A H) as [HE HP].
    split; [exact HE|]. split; [exact HP|]. auto.
Qed.

Lemma reads_header h sc env : agrees env sc -> sees sc [] -> reads (build_header ctx h sc) (exists env', header_ok env h env').
Proof.
  intros A S. split.
  - intros (env' & HE & HP & HD & HX). destruct (scope_header _ _ _ _ A HE HP) as (sc' & H & A').
    pose proof (sees_header h sc sc' [] S H) as S'.
    destruct (proj1 (reads_dataset env' _ (ah_dataset h) sc' A' S') HD) as [ds Hd].
    destruct (proj1 (reads_extra env' (ah_extra h) sc' A') HX) as [x Hx].
    eexists. intros s. unfold build_header. unfold bindM at 1. unfold lift. rewrite H.
    unfold bindM at 1. rewrite Hd. unfold bindM at 1. rewrite Hx. reflexivity.
  - intros s hs s1 B. unfold build_header in B. unfold bindM at 1 in B. unfold lift in B.
    destruct (with_header h sc) as [sc'|e|w|] eqn:H; try discriminate.
    pose proof (agrees_env sc') as A'. pose proof (sees_header h sc sc' [] S H) as S'.
    unfold bindM at 1 in B. destruct (build_dataset ctx sc' (ah_dataset h) s) as [[ds|e|w|] s2] eqn:Hd; try discriminate.
    apply (reads_dataset (env_of sc') _ _ _ A' S') in Hd as [HD ->].
    unfold bindM at 1 in B. destruct (build_extra ctx (ah_extra h) sc' s) as [[x|e|w|] s2] eqn:Hx; try discriminate.
    apply (reads_extra (env_of sc') _ _ A') in Hx as [HX ->]. injection B as <- <-. split; [|reflexivity].
    exists (env_of sc'). destruct (header_scope _ _ _ _ A H) as [HE HP]. split; [exact HE|]. split; [exact HP|]. auto.
Qed.

Lemma makes_literal k h res sc env : agrees env sc -> sees sc [] ->
  makes (build_literal ctx k h res sc) (layout_ok (fun _ _ _ => False) env (ALiteralL k h res)).
Proof.
  intros A S. unfold build_literal.
  eapply makes_iff; [|apply (makes_header h sc env _
    (fun env' ids => (match res with Some p => pattern_ok env' (header_names h) p | None => ah_input h <> [] end /\ literal_ok env' k) /\ ids = []) A S)].
  - intros ids. cbn [layout_ok]. split.
    + intros (env' & H & [R L] & ->). split; [reflexivity|]. exists env'. auto.
    + intros (-> & env' & H & L & R). exists env'. auto.
  - intros hd sc' env' A' S'. apply makes_reads. apply reads_bind.
    + destruct res as [p|]; cbn [build_literal_resource]; [now apply reads_pattern|].
      destruct (ah_input h) as [|x l].
      * apply (reads_iff _ (exists a, @Err build_error (pattern term) MissingLiteralTargetResource = Ok a)); [|apply reads_lift].
        split; [intros [a H]; discriminate|]. intros N. now destruct N.
      * apply (reads_iff _ True); [|apply reads_ret]. split; [intros _; discriminate|auto].
    + intros rp.
      assert (forall dt name, reads (match dt with Some i => build_iri ctx i sc' | None => iri_resource ctx (xsd name) end)
        (option_ok (iri_ok env') dt)) as DT.
      { intros [i|] name.
        - apply (reads_iff _ (iri_ok env' i)); [|now apply reads_build_iri]. unfold option_ok. split; [intros H a [= <-]; exact H|auto].
        - apply (reads_iff _ True); [|apply reads_iri]. unfold option_ok. split; [intros _ a; discriminate|auto]. }
      destruct k as [dt|dt|dt|pat dt|pat]; cbn [literal_ok].
      * eapply reads_iff; [|apply reads_bind; [apply DT|intros; apply reads_ret]]. tauto.
      * eapply reads_iff; [|apply reads_bind; [apply (reads_build_iri env' dt sc' A')|intros; apply reads_ret]]. tauto.
      * eapply reads_iff; [|apply reads_bind; [apply (reads_build_iri env' dt sc' A')|intros; apply reads_ret]]. tauto.
      * eapply reads_iff; [|apply reads_bind; [apply DT|intros; apply reads_ret]]. tauto.
      * apply reads_ret.
Qed.

Section Nested.
Context (build : alayout -> scope -> TM term) (rec : ienv -> alayout -> list string -> Prop).

Definition nested_makes (l : alayout) : Prop :=
  forall env sc, agrees env sc -> sees sc [] -> makes (build l sc) (rec env l).

Lemma makes_ref r sc env : agrees env sc -> (forall l, nested_ref r l -> nested_makes l) ->
  makes (build_ref ctx build r sc) (ref_ok (rec env) env r).
Proof.
  intros A N. unfold build_ref. destruct r as [i|l]; cbn [ref_ok].
  - apply makes_reads. now apply reads_build_iri.
  - apply N; [reflexivity|exact A|apply sees_without].
Qed.

Lemma makes_format d f sc env ns : agrees env sc -> sees sc ns -> (forall l, nested_format f l -> nested_makes l) ->
  makes (build_format ctx build d f sc) (format_ok (rec env) env ns d f).
Proof.
  intros A S N. destruct f as [r input graph|r]; cbn [build_format format_ok].
  - eapply makes_iff; [|apply makes_after; [apply (reads_mapS _ (pattern_ok env ns)); intros p; now apply reads_pattern|]].
    2:{ intros input'. eapply makes_before; [apply (makes_ref r sc env A); exact N|]. intros r'. apply reads_bind; [|intros; apply reads_ret].
        apply (reads_option _ (option_ok (pattern_ok env ns))). intros o. apply (reads_option _ (pattern_ok env ns)). intros g. now apply reads_pattern. }
    intros ids. cbn. unfold option_ok. tauto.
  - eapply makes_iff; [|eapply makes_before; [apply (makes_ref r sc env A); exact N|]].
    2:{ intros r'. apply reads_bind; [now apply (reads_pattern env ns)|intros; apply reads_ret]. }
    intros ids. cbn. tauto.
Qed.

Lemma makes_item h it sc env count : agrees env sc -> sees sc (header_names h) -> (forall l, nested_format (ai_value it) l -> nested_makes l) ->
  makes (build_item ctx build (length (ah_input h)) count it sc) (item_ok (rec env) env h it).
Proof.
  intros A S N. unfold build_item, item_ok.
  apply (agrees_intro _ _ (ai_intro it)) in A. apply (sees_intro (ai_intro it)) in S.
  apply makes_after; [now apply reads_dataset|]. intros ds. apply makes_after.
  - unfold build_property, option_ok. destruct (ai_property it) as [p|].
    + destruct (ah_input h) as [|x l]; cbn [length Nat.eqb].
      { eapply reads_iff; [|apply reads_lift]. split; [intros [a H]; discriminate|]. intros H. destruct (H p eq_refl) as [K _]. now destruct K. }
      destruct (ai_intro it) as [|y l'] eqn:E.
      { eapply reads_iff; [|apply reads_lift]. split; [intros [a H]; discriminate|]. intros H. destruct (H p eq_refl) as (_ & K & _). now destruct K. }
      rewrite <- E in *. eapply reads_iff; [|apply reads_bind; [exact (reads_pattern env _ p _ A S)|intros; apply reads_ret]].
      split; [intros [H _] q [= <-]; rewrite E; repeat split; try discriminate; now rewrite <- E|]. intros H. split; [|exact I]. destruct (H p eq_refl) as (_ & _ & K). exact K.
    + apply (reads_iff _ True); [|apply reads_ret]. split; [intros _ a; discriminate|auto].
  - intros ds'. apply makes_ret. now apply makes_format.
Qed.

Lemma makes_node h n sc env : agrees env sc -> sees sc (header_names h) ->
  (forall f l, match n with ANode _ _ _ f' _ => f = f' /\ nested_format f l | ANodeLayout r => nested_ref r l end -> nested_makes l) ->
  makes (build_node ctx build n sc) (node_ok (rec env) env h n).
Proof.
  intros A S N. destruct n as [hd rs intro f ds|r]; cbn [build_node node_ok].
  - pose proof (agrees_intro _ _ ([hd; rs] ++ intro) A) as A'. pose proof (sees_intro ([hd; rs] ++ intro) _ _ S) as S'.
    eapply makes_iff; [|eapply makes_before; [apply (makes_format "value" f _ env _ A' S'); intros l Nl; apply (N f); auto|]].
    2:{ intros vf. apply (reads_iff _ ((match ds with Some ds => dataset_ok env (header_names h ++ [hd; rs] ++ intro) ds
                                        | None => match f with AFormat _ [p] _ => pattern_ok env (header_names h ++ [hd; rs] ++ intro) p
                                                  | AFormat _ _ _ => True | AFormatLayout _ => In "value"%string (header_names h ++ [hd; rs] ++ intro) end end) /\ True)); [reflexivity|].
        apply reads_bind; [|intros; apply reads_ret].
        assert (forall p, reads (default_list_dataset ctx (sc_count sc) (sc_count sc + 1) p) True) as DL.
        { intros p. unfold default_list_dataset. apply (reads_iff _ (True /\ True /\ True)); [tauto|].
          apply reads_bind; [apply reads_iri|]. intros ?. apply reads_bind; [apply reads_iri|]. intros ?. apply reads_ret. }
        destruct ds as [ds|]; [now apply reads_dataset|]. destruct f as [r [|p [|p' l]] g|r]; try apply reads_ret.
        - eapply reads_iff; [|apply reads_bind; [exact (reads_pattern env _ p _ A' S')|intros; apply DL]]. tauto.
        - eapply reads_iff; [|apply reads_bind; [apply reads_lift|intros; apply DL]].
          destruct (C52_variable _ _ "value" S') as (V1 & V2 & V3). split; [intros [[x H] _]; now apply (sees_In _ _ _ _ S') in H|auto]. }
    intros ids. cbn. unfold option_ok. split.
    + intros (H1 & H2 & _). split; [|exact H1]. intros d ->. exact H2.
    + intros (H1 & H2). split; [exact H2|]. split; [|exact I]. destruct ds as [d|]; [now apply H1|].
      destruct f as [r [|p [|p' l]] g|r]; auto; cbn [format_ok] in H2; [|apply H2]. destruct H2 as [H2 _]. apply H2. now left.
  - eapply makes_iff; [|eapply makes_before; [apply (makes_ref r sc env A); intros l Nl; apply (N (AFormatLayout r)); exact Nl|]].
    2:{ intros r'. apply reads_bind; [|intros; apply reads_ret]. unfold default_list_dataset.
        apply reads_bind; [apply reads_iri|]. intros ?. apply reads_bind; [apply reads_iri|]. intros ?. apply reads_ret. }
    intros ids. cbn. tauto.
Qed.

Lemma makes_pre l sc env : agrees env sc -> sees sc [] -> (forall l', nested l l' -> nested_makes l') ->
  makes (layout_pre ctx build l sc) (layout_ok rec env l).
Proof.
  intros A S N. destruct l as [h c|k h res|h fs|h vs|h n hd tl|h it|h its|b|h|h]; cbn [layout_pre layout_ok].
  - apply makes_ret. apply makes_reads. now apply reads_header.
  - now apply makes_literal.
  - apply makes_header; [exact A|exact S|]. intros hd sc' env' A' S'. apply makes_ret.
    apply makes_mapS. intros [k f] I. cbn [build_field snd]. destruct f as [it req]. cbn [af_item]. apply makes_ret.
    apply makes_item; [exact A'|exact S'|]. intros l Nl. apply N. now apply (N_field h fs k (AField it req)).
  - apply makes_header; [exact A|exact S|]. intros hd sc' env' A' S'. apply makes_ret.
    apply makes_mapS. intros [n v] I. cbn [build_variant snd]. destruct v as [intro f ds]. unfold variant_ok. cbn [av_intro av_dataset av_value].
    pose proof (agrees_intro _ _ intro A') as A1. pose proof (sees_intro intro _ _ S') as S1.
    eapply makes_iff; [|eapply makes_before; [apply (makes_format "self" f _ env' _ A1 S1); intros l Nl; apply N; now apply (N_variant h vs n (AVariant intro f ds))|]].
    2:{ intros vf. apply reads_bind; [exact (reads_dataset env' _ ds _ A1 S1)|intros; apply reads_ret]. }
    intros ids. cbn. tauto.
  - apply makes_header; [exact A|exact S|]. intros h' sc' env' A' S'.
    eapply makes_iff; [|eapply makes_before; [apply (makes_node h n sc' env' A' S')|]].
    3:{ intros n'. apply reads_bind; [exact (reads_pattern env' _ hd _ A' S')|]. intros hd'.
        apply reads_bind; [exact (reads_pattern env' _ tl _ A' S')|]. intros tl'. apply reads_ret. }
    2:{ intros f l Nl. apply N. destruct n as [a b intro f' ds|r]; [destruct Nl as [-> Nl]; now apply N_node|now apply N_node_layout]. }
    intros ids. cbn. tauto.
  - apply makes_header; [exact A|exact S|]. intros hd sc' env' A' S'. apply makes_ret.
    apply makes_item; [exact A'|exact S'|]. intros l Nl. apply N. now apply N_item.
  - apply makes_header; [exact A|exact S|]. intros hd sc' env' A' S'. apply makes_ret.
    apply makes_mapS. intros it I. apply makes_item; [exact A'|exact S'|]. intros l Nl. apply N. now apply (N_tuple h its it).
  - destruct b; (eapply makes_iff; [|apply makes_reads, reads_ret]); cbn; tauto.
  - eapply makes_iff; [|apply makes_reads, reads_lift]. cbn. intros ids. split; [intros [[a H] _]; discriminate|contradiction].
  - eapply makes_iff; [|apply makes_reads, reads_lift]. cbn. intros ids. split; [intros [[a H] _]; discriminate|contradiction].
Qed.

Lemma insert_defines r p (b : list (term * prelayout term)) q :
  bt_get q (bt_insert r p b) <> None <-> bt_get q b <> None \/ q = r.
Proof.
  rewrite bt_insert_get. destruct (eqb_spec q r) as [->|NE]; [split; [auto|intros _; discriminate]|].
  split; [auto|]. intros [H|H]; [exact H|contradiction].
Qed.

Lemma get_None (b : list (term * prelayout term)) r : ~ (bt_get r b <> None) -> bt_get r b = None.
Proof. destruct (bt_get r b); [intros H; exfalso; apply H; discriminate|reflexivity]. Qed.

Lemma makes_body l sc env : agrees env sc -> sees sc [] -> (forall l', nested l l' -> nested_makes l') ->
  makes (layout_body ctx build l sc)
    (fun ids => exists own inner, own_id env l own /\ layout_ok rec env l inner /\ ids = own ++ inner).
Proof.
  intros A S N. pose proof (makes_pre l sc env A S N) as P.
  assert (own_id env l = fun own => match layout_id l with Some i => exists i', iri_denotes env i i' /\ own = [i'] | None => own = [] end) as OWN
    by (destruct l; reflexivity).
  rewrite OWN. unfold layout_body. destruct (layout_id l) as [i|]; intros [n b] F.
  - split.
    + intros ids (own & inner & (i' & D & ->) & L & ->) FR. apply (denotes_resolve _ _ _ _ A) in D.
      assert (fresh inner (n, b)) as FI.
      { destruct FR as [ND Fr]. cbn in ND. inversion ND; subst. split; [assumption|]. intros j J. apply Fr. now right. }
      destruct (proj1 (P (n, b) F) inner L FI) as (pre & [n1 b1] & E & [Le Ad]). cbn [fst snd] in *.
      assert (bt_get (TmIri i') b1 = None) as G.
      { apply get_None. intros K. apply Ad in K as [K|[(j & J & [= <-])|(m & _ & K)]]; [|destruct FR as [ND _]; cbn in ND; now inversion ND|discriminate].
        apply K. apply FR. now left. }
      exists (TmIri i'), (n1, bt_insert (TmIri i') pre b1).
      unfold bindM, lift, iri_resource, insert_layout, ret. rewrite D. cbn [c_iri term_context fst snd]. rewrite E. cbn [snd fst]. rewrite G. cbn [snd fst].
      split; [reflexivity|]. split; [exact Le|]. intros r. cbn [fst snd]. rewrite insert_defines, Ad. split.
      * intros [[K|[(j & J & ->)|(m & L1 & ->)]]| ->]; [auto|right; left; exists j; split; [now right|reflexivity]|right; right; eauto|].
        right. left. exists i'. split; [now left|reflexivity].
      * intros [K|[(j & [<-|J] & ->)|(m & L1 & ->)]]; [auto|auto|left; right; left; eauto|left; right; right; eauto].
    + intros r s' H. unfold bindM at 1 in H. unfold bindM at 1 in H. unfold lift in H.
      destruct (resolve i sc) as [i'|e|w|] eqn:D; try discriminate. cbn in H. unfold bindM at 1 in H.
      destruct (layout_pre ctx build l sc (n, b)) as [[pre|e|w|] [n1 b1]] eqn:E; try discriminate.
      unfold bindM, insert_layout in H. cbn [snd fst] in H.
      destruct (bt_get (TmIri i') b1) as [old|] eqn:G; [discriminate|]. cbn in H. injection H as <- <-.
      destruct (proj2 (P (n, b) F) pre (n1, b1) E) as (inner & L & FI & [Le Ad]). cbn [fst snd] in *.
      exists ([i'] ++ inner). split; [exists [i'], inner; split; [|auto]; exists i'; split; [now apply (denotes_resolve _ _ _ _ A)|reflexivity]|]. split.
      * split.
        -- cbn. constructor; [|apply FI]. intros J. assert (bt_get (TmIri i') b1 <> None) as K; [|congruence]. apply Ad. right. left. eauto.
        -- intros j [<-|J]; [|now apply FI]. apply get_None. intros K. cbn [snd] in K. assert (bt_get (TmIri i') b1 <> None) as K'; [|congruence].
           apply Ad. now left.
      * split; [exact Le|]. intros r. cbn [fst snd]. rewrite insert_defines, Ad. split.
        -- intros [[K|[(j & J & ->)|(m & L1 & ->)]]| ->]; [auto|right; left; exists j; split; [now right|reflexivity]|right; right; eauto|].
           right. left. exists i'. split; [now left|reflexivity].
        -- intros [K|[(j & [<-|J] & ->)|(m & L1 & ->)]]; [auto|auto|left; right; left; eauto|left; right; right; eauto].
  - assert (no_future (Datatypes.S n, b)) as F1 by (intros m Hm; apply F; cbn in *; lia).
    assert (bt_get (TmBlank (nat_string n)) b = None) as G0 by (apply F; cbn; lia).
    split.
    + intros ids (own & inner & -> & L & ->) FI. cbn [app] in *.
      destruct (proj1 (P (Datatypes.S n, b) F1) inner L FI) as (pre & [n1 b1] & E & [Le Ad]). cbn [fst snd] in *.
      assert (bt_get (TmBlank (nat_string n)) b1 = None) as G.
      { apply get_None. intros K. apply Ad in K as [K|[(j & _ & K)|(m & L1 & K)]]; [congruence|discriminate|]. injection K as K. apply nat_string_inj in K. lia. }
      exists (TmBlank (nat_string n)), (n1, bt_insert (TmBlank (nat_string n)) pre b1).
      unfold bindM, lift, anonymous_resource, insert_layout, ret. cbn [c_anonymous term_context fst snd]. rewrite E. cbn [snd fst]. rewrite G. cbn [snd fst].
      split; [reflexivity|]. split; [cbn; lia|]. intros r. cbn [fst snd]. rewrite insert_defines, Ad. split.
      * intros [[K|[(j & J & ->)|(m & L1 & ->)]]| ->]; [auto|right; left; eauto|right; right; exists m; split; [lia|reflexivity]|].
        right. right. exists n. split; [lia|reflexivity].
      * intros [K|[(j & J & ->)|(m & L1 & ->)]]; [auto|left; right; left; eauto|].
        destruct (Nat.eq_dec m n) as [->|NE]; [auto|]. left. right. right. exists m. split; [lia|reflexivity].
    + intros r s' H. unfold bindM at 1 in H. cbn [anonymous_resource c_anonymous term_context fst snd] in H. unfold bindM at 1 in H.
      destruct (layout_pre ctx build l sc (Datatypes.S n, b)) as [[pre|e|w|] [n1 b1]] eqn:E; try discriminate.
      unfold bindM, insert_layout in H. cbn [snd fst] in H.
      destruct (bt_get (TmBlank (nat_string n)) b1) as [old|] eqn:G; [discriminate|]. cbn in H. injection H as <- <-.
      destruct (proj2 (P (Datatypes.S n, b) F1) pre (n1, b1) E) as (inner & L & FI & [Le Ad]). cbn [fst snd] in *.
      exists inner. split; [exists [], inner; auto|]. split; [exact FI|].
      split; [cbn; lia|]. intros r. cbn [fst snd]. rewrite insert_defines, Ad. split.
      * intros [[K|[(j & J & ->)|(m & L1 & ->)]]| ->]; [auto|right; left; eauto|right; right; exists m; split; [lia|reflexivity]|].
        right. right. exists n. split; [lia|reflexivity].
      * intros [K|[(j & J & ->)|(m & L1 & ->)]]; [auto|left; right; left; eauto|].
        destruct (Nat.eq_dec m n) as [->|NE]; [auto|]. left. right. right. exists m. split; [lia|reflexivity].
Qed.
End Nested.

Lemma well_formed_eq env l ids : well_formed env l ids <->
  exists own inner, own_id env l own /\ layout_ok well_formed env l inner /\ ids = own ++ inner.
Proof. destruct l; reflexivity. Qed.

Lemma makes_layout l : nested_makes (build_layout ctx) well_formed l.
Proof.
  induction l as [l IH] using layout_ind. intros env sc A S. rewrite build_layout_eq.
  eapply makes_iff; [|exact (makes_body (build_layout ctx) well_formed l sc env A S IH)].
  intros ids. symmetry. apply well_formed_eq.
Qed.

(** ** C83 *)

(** [n]: the number of the next blank node; [b]: the layouts defined so far.  The document is accepted
    exactly when it is well formed, gives distinct identifiers to its layouts, and redefines no layout. *)
Theorem C83_accepted l n b : (forall m, n <= m -> bt_get (TmBlank (nat_string m)) b = None) ->
  (exists r s', build_with_context ctx l (n, b) = (Ok r, s')) <->
  (exists ids, well_formed no_env l ids /\ NoDup ids /\ forall i, In i ids -> bt_get (TmIri i) b = None).
Proof.
  intros F. destruct (makes_layout l no_env scope_default (agrees_env scope_default) (sees_default) (n, b) F) as [H1 H2]. split.
  - intros (r & s' & H). destruct (H2 r s' H) as (ids & W & [ND Fr] & _). exists ids. auto.
  - intros (ids & W & ND & Fr). destruct (H1 ids W) as (r & s' & H & _); [now split|]. exists r, s'. exact H.
Qed.

(** Afterwards the layouts defined are those defined before, those identified by the document, and
    one blank node for each anonymous layout. *)
Theorem C83_defines l n b r n' b' : (forall m, n <= m -> bt_get (TmBlank (nat_string m)) b = None) ->
  build_with_context ctx l (n, b) = (Ok r, (n', b')) ->
  exists ids, well_formed no_env l ids /\ n <= n' /\ forall q, bt_get q b' <> None <->
    bt_get q b <> None \/ (exists i, In i ids /\ q = TmIri i) \/ (exists m, n <= m < n' /\ q = TmBlank (nat_string m)).
Proof.
  intros F H. destruct (makes_layout l no_env scope_default (agrees_env scope_default) (sees_default) (n, b) F) as [_ H2].
  destruct (H2 r _ H) as (ids & W & _ & [L Ad]). exists ids. auto.
Qed.

Lemma accepted_empty l : (exists r s', build_with_context ctx l (0, []) = (Ok r, s')) <-> (exists ids, well_formed no_env l ids /\ NoDup ids).
Proof.
  rewrite C83_accepted by reflexivity. split; intros (ids & W & ND); [exists ids; tauto|]. exists ids. split; [exact W|]. split; [exact ND|]. reflexivity.
Qed.

Theorem C83_document l : (exists r b, build_document l [] = (Ok r, b)) <-> (exists ids, well_formed no_env l ids /\ NoDup ids).
Proof.
  rewrite <- (accepted_empty l). unfold build_document.
  match goal with |- context [let (_, _) := ?x in _] => change (build_with_context ctx l (0, [])) with x; destruct x as [o s] end. split.
  - intros (r & b & H). injection H as -> _. now exists r, s.
  - intros (r & s' & H). injection H as -> _. now exists r, (snd s).
Qed.
End Accept.
