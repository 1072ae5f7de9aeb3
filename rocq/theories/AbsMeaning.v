(** * The compilation of a document means the document (C55, C70) *)

From Coq Require Import String Ascii List Bool Arith NArith Lia.
Import ListNotations.
From Verif Require Import Base BaseProofs PatternModel ValueModel LayoutModel LayoutSpec
  MatchingSpec HydrateModel TermModel DehydrateModel AbsModel AbsSpec AbsProofs AbsProperties.
Open Scope list_scope.
Open Scope nat_scope.

(** ** The meaning only grows with the definitions *)
Section Mono.
Context {IS : IriSyntax} {AE : AbsExternal} {R : Type} {CR : Cmp R}
  (res_iri : string -> R -> Prop) (res_lit : rdf_literal -> R -> Prop).

Lemma format_denotes_mono (D D' : alayout -> R -> Prop) env ns default f f' :
  (forall l r, nested_format f l -> D l r -> D' l r) ->
  format_denotes res_iri res_lit D env ns default f f' -> format_denotes res_iri res_lit D' env ns default f f'.
Proof.
  intros H. destruct f as [[i|l] input g|[i|l]]; cbn [format_denotes ref_denotes]; intros [A B]; (split; [|exact B]); auto.
  - now apply H.
  - now apply H.
Qed.

Lemma item_denotes_mono (D D' : alayout -> R -> Prop) env n ns it it' :
  (forall l r, nested_format (ai_value it) l -> D l r -> D' l r) ->
  item_denotes res_iri res_lit D env n ns it it' -> item_denotes res_iri res_lit D' env n ns it it'.
Proof. intros H (A & B & C). split; [exact A|]. split; [now apply (format_denotes_mono D)|exact C]. Qed.

Lemma variant_denotes_mono (D D' : alayout -> R -> Prop) env ns n v v' :
  (forall l r, nested_format (av_value v) l -> D l r -> D' l r) ->
  variant_denotes res_iri res_lit D env ns (n, v) v' -> variant_denotes res_iri res_lit D' env ns (n, v) v'.
Proof.
  intros H (A & B & C & F). split; [exact A|]. split; [exact B|]. split; [now apply (format_denotes_mono D)|exact F].
Qed.

Lemma node_denotes_mono (D D' : alayout -> R -> Prop) env ns n n' :
  (forall l r, nested_node n l -> D l r -> D' l r) ->
  node_denotes res_iri res_lit D env ns n n' -> node_denotes res_iri res_lit D' env ns n n'.
Proof.
  intros H. destruct n as [hd rs intro f ds|[i|l]]; cbn [node_denotes nested_node ref_denotes] in *.
  - intros (A & B & C). split; [exact A|]. split; [now apply (format_denotes_mono D)|exact C].
  - exact (fun x => x).
  - intros (A & B & C). split; [exact A|]. split; [now apply H|exact C].
Qed.

Lemma all2_mono {A B} (Q Q' : A -> B -> Prop) l : forall l', (forall a b, In a l -> Q a b -> Q' a b) ->
  all2 Q l l' -> all2 Q' l l'.
Proof.
  induction l as [|a l IH]; intros [|b l'] H; cbn [all2]; auto. intros [K1 K2].
  split; [apply H; [now left|assumption]|]. apply IH; [|assumption]. intros x y I. apply H. now right.
Qed.

Lemma Forall2_impl {A B} (Q Q' : A -> B -> Prop) l l' :
  (forall a b, Q a b -> Q' a b) -> Forall2 Q l l' -> Forall2 Q' l l'.
Proof. intros H. induction 1; constructor; auto. Qed.

Lemma all2_Forall2 {A B} (Q : A -> B -> Prop) l l' : Forall2 Q l l' -> all2 Q l l'.
Proof. induction 1; cbn [all2]; auto. Qed.

Lemma layout_denotes_mono (D D' : ienv -> alayout -> R -> Prop) env l p :
  (forall env l' r, nested l l' -> D env l' r -> D' env l' r) ->
  layout_denotes res_iri res_lit D env l p -> layout_denotes res_iri res_lit D' env l p.
Proof.
  intros H. destruct l as [h c|k h res|h fs|h vs|h n hd tl|h it|h its|b|h|h]; cbn [layout_denotes]; auto.
  - intros (env' & h' & fs' & A & B & C). exists env', h', fs'. split; [exact A|]. split; [|exact C].
    revert B. apply all2_mono. intros [k f] f' I (K1 & K2 & K3). split; [exact K1|]. split; [exact K2|].
    revert K3. apply item_denotes_mono. intros l r N. apply H. now apply (N_field h fs k f).
  - intros (env' & h' & vs' & A & B & C). exists env', h', vs'. split; [exact A|]. split; [|exact C].
    revert B. apply all2_mono. intros [n v] v' I. apply variant_denotes_mono.
    intros l r N. apply H. now apply (N_variant h vs n v).
  - intros (env' & h' & n' & hd' & tl' & A & B & C). exists env', h', n', hd', tl'. split; [exact A|].
    split; [|exact C]. revert B. apply node_denotes_mono. intros l r N. apply H.
    destruct n; [now apply N_node|now apply N_node_layout].
  - intros (env' & h' & it' & A & B & C). exists env', h', it'. split; [exact A|]. split; [|exact C].
    revert B. apply item_denotes_mono. intros l r N. apply H. now apply N_item.
  - intros (env' & h' & its' & A & B & C). exists env', h', its'. split; [exact A|]. split; [|exact C].
    revert B. apply all2_mono. intros it it' I. apply item_denotes_mono. intros l r N. apply H.
    now apply (N_tuple h its it).
Qed.

Lemma compiled_eq defs env l r : compiled res_iri res_lit defs env l r <->
  (forall h i, header_of l = Some h -> ah_id h = Some i -> iri_resource_denotes res_iri env i r) /\
  exists p, defs r = Some p /\ layout_denotes res_iri res_lit (compiled res_iri res_lit defs) env l p.
Proof. destruct l; reflexivity. Qed.

Lemma compiled_mono (defs defs' : R -> option (prelayout R)) l :
  (forall r p, defs r = Some p -> defs' r = Some p) -> forall env r,
  compiled res_iri res_lit defs env l r -> compiled res_iri res_lit defs' env l r.
Proof.
  intros H. induction l as [l IH] using layout_ind. intros env r. rewrite !compiled_eq. intros (A & p & B & C).
  split; [exact A|]. exists p. split; [now apply H|]. revert C. apply layout_denotes_mono.
  intros env' l' r' N. now apply IH.
Qed.
End Mono.

(** ** A logic for the successful compilations

    [yields m Q]: when [m] succeeds, what is observed of the state grows, and [Q] holds of the
    new state and of the result. *)
Section Yields.
Context {IS : IriSyntax} {AE : AbsExternal} {St R : Type} {CR : Cmp R} {CL : CmpLaws R} (ctx : context St R).

(** What is observed of the states of the compilation, [view]; [later], [grows]: how it changes.  The resources of
    the context do not change it. *)
Record logic : Type := Logic {
  V : Type;
  view : @bstate St R -> V;
  valid : V -> Prop;
  later : V -> V -> Prop;
  grows : V -> V -> Prop;
  grows_refl : forall v, grows v v;
  grows_trans : forall u v w, grows u v -> grows v w -> grows u w;
  grows_later : forall u v, grows u v -> later u v;
  view_iri : forall i st b, view (snd (c_iri ctx i st), b) = view (st, b);
  view_literal : forall l st b, view (snd (c_literal ctx l st), b) = view (st, b);
  view_anonymous : forall st b, view (snd (c_anonymous ctx st), b) = view (st, b)
}.

Section Logic.
Context (LG : logic).

Definition yields {A} (m : @M St R A) (Q : V LG -> A -> Prop) : Prop :=
  forall s a s', m s = (Ok a, s') -> valid LG (view LG s) ->
    valid LG (view LG s') /\ grows LG (view LG s) (view LG s') /\ Q (view LG s') a.

Lemma y_ret {A} (a : A) (Q : V LG -> A -> Prop) : (forall b, Q b a) -> yields (ret a) Q.
Proof. intros H s a' s' [= <- <-] W. split; [exact W|]. split; [apply grows_refl|apply H]. Qed.

Lemma y_lift {A} (o : outcome build_error A) (Q : V LG -> A -> Prop) :
  (forall b a, o = Ok a -> Q b a) -> yields (lift o) Q.
Proof. intros H s a' s' [= -> <-] W. split; [exact W|]. split; [apply grows_refl|now apply H]. Qed.

Lemma y_bind {A B} (m : @M St R A) (k : A -> @M St R B) (Q : V LG -> A -> Prop) (Q' : V LG -> B -> Prop) :
  (forall b b' a, later LG b b' -> Q b a -> Q b' a) -> yields m Q ->
  (forall a, yields (k a) (fun b c => Q b a -> Q' b c)) -> yields (bindM m k) Q'.
Proof.
  intros MQ H K s c s' E W. unfold bindM in E. destruct (m s) as [o s1] eqn:M1.
  destruct o as [a|e|w|]; try discriminate. destruct (H s a s1 M1 W) as (W1 & X1 & Q1).
  destruct (K a s1 c s' E W1) as (W2 & X2 & Q2). split; [exact W2|]. split.
  - now apply (grows_trans LG _ (view LG s1)).
  - apply Q2. apply (MQ (view LG s1)); [apply grows_later, X2|exact Q1].
Qed.

Lemma y_bind' {A B} (m : @M St R A) (k : A -> @M St R B) (Q : A -> Prop) (Q' : V LG -> B -> Prop) :
  yields m (fun _ => Q) -> (forall a, Q a -> yields (k a) Q') -> yields (bindM m k) Q'.
Proof.
  intros H K s c s' E W. unfold bindM in E. destruct (m s) as [o s1] eqn:M1.
  destruct o as [a|e|w|]; try discriminate. destruct (H s a s1 M1 W) as (W1 & X1 & Q1).
  destruct (K a Q1 s1 c s' E W1) as (W2 & X2 & Q2). split; [exact W2|]. split; [|exact Q2].
  now apply (grows_trans LG _ (view LG s1)).
Qed.

Lemma y_weaken {A} (m : @M St R A) (Q Q' : V LG -> A -> Prop) :
  yields m Q -> (forall b a, Q b a -> Q' b a) -> yields m Q'.
Proof.
  intros H K s a s' E W. destruct (H s a s' E W) as (A1 & A2 & A3). split; [exact A1|]. split; [exact A2|]. now apply K.
Qed.

Lemma y_mapS {A B} (f : A -> @M St R B) (Q : V LG -> A -> B -> Prop) l :
  (forall b b' a c, later LG b b' -> Q b a c -> Q b' a c) ->
  (forall a, In a l -> yields (f a) (fun b c => Q b a c)) ->
  yields (mapS f l) (fun b cs => Forall2 (Q b) l cs).
Proof.
  intros MQ. assert (MF : forall l b b' cs, later LG b b' -> Forall2 (Q b) l cs -> Forall2 (Q b') l cs).
  { intros l' b b' cs X. induction 1; constructor; eauto. }
  induction l as [|a l IH]; intros H; cbn [mapS]; [apply y_ret; constructor|].
  apply (y_bind _ _ (fun b c => Q b a c)).
  - intros b b' c X. now apply MQ.
  - apply H. now left.
  - intros c. apply (y_bind _ _ (fun b cs => Forall2 (Q b) l cs)).
    + intros b b' cs. apply MF.
    + apply IH. intros a' I. apply H. now right.
    + intros cs. apply y_ret. intros b F Hc. now constructor.
Qed.

Lemma y_option {A B} (f : A -> @M St R B) (Q : A -> B -> Prop) o :
  (forall a, o = Some a -> yields (f a) (fun _ => Q a)) ->
  yields (build_option f o)
    (fun _ r => match o, r with Some a, Some b => Q a b | None, None => True | _, _ => False end).
Proof.
  intros H. destruct o as [a|]; cbn [build_option]; [|now apply y_ret].
  apply (y_bind' _ _ (Q a)); [now apply H|]. intros b Hb. now apply y_ret.
Qed.

(** The resources of the context. *)
Definition ctx_iri (i : string) (r : R) : Prop := exists st, fst (c_iri ctx i st) = r.
Definition ctx_lit (l : rdf_literal) (r : R) : Prop := exists st, fst (c_literal ctx l st) = r.

Lemma y_iri i : yields (iri_resource ctx i) (fun _ r => ctx_iri i r).
Proof.
  intros s r s' E W. unfold iri_resource in E. destruct (c_iri ctx i (fst s)) as [r' st] eqn:F.
  injection E as <- <-. destruct s as [s0 b]. cbn [fst snd] in *.
  assert (VW : view LG (st, b) = view LG (s0, b)) by (rewrite <- (view_iri LG i s0 b), F; reflexivity). rewrite VW.
  split; [exact W|]. split; [apply grows_refl|]. exists s0. now rewrite F.
Qed.
Lemma y_literal l : yields (literal_resource ctx l) (fun _ r => ctx_lit l r).
Proof.
  intros s r s' E W. unfold literal_resource in E. destruct (c_literal ctx l (fst s)) as [r' st] eqn:F.
  injection E as <- <-. destruct s as [s0 b]. cbn [fst snd] in *.
  assert (VW : view LG (st, b) = view LG (s0, b)) by (rewrite <- (view_literal LG l s0 b), F; reflexivity). rewrite VW.
  split; [exact W|]. split; [apply grows_refl|]. exists s0. now rewrite F.
Qed.
Lemma y_anonymous : yields (anonymous_resource ctx) (fun _ _ => True).
Proof.
  intros s r s' E W. unfold anonymous_resource in E. destruct (c_anonymous ctx (fst s)) as [r' st] eqn:F.
  injection E as <- <-. destruct s as [s0 b]. cbn [fst snd] in *.
  assert (VW : view LG (st, b) = view LG (s0, b)) by (rewrite <- (view_anonymous LG s0 b), F; reflexivity). rewrite VW.
  split; [exact W|]. now split; [apply grows_refl|].
Qed.

Definition env_of (sc : scope) : ienv := IEnv (sc_base sc) (fun n => hm_get n (sc_prefixes sc)).

Lemma resolve_denotes i sc i' : resolve i sc = Ok i' -> iri_denotes (env_of sc) i i'.
Proof.
  intros H. destruct (C54_cases i) as [(t & u & A)|N].
  - left. exists t, u. split; [exact A|]. cbn [env_of e_prefix].
    destruct (hm_get t (sc_prefixes sc)) as [p|] eqn:P.
    + rewrite (C54_prefixed i t u p sc A P) in H. destruct (is_iri _) eqn:I; [|discriminate].
      injection H as <-. now split.
    + rewrite (C54_absolute i t u sc A P) in H. now injection H as <-.
  - right. split; [exact N|]. rewrite (C54_relative i sc N) in H. cbn [env_of e_base].
    destruct (sc_base sc) as [b|]; [|discriminate]. injection H as <-. now exists b.
Qed.

Lemma header_denotes_env h sc sc' : with_header h sc = Ok sc' -> header_env (env_of sc) h (env_of sc').
Proof.
  intros H. split.
  - intros name. destruct (C54_header h sc sc' name H) as (A & B & _). split; [|exact B].
    intros p D. destruct (A p D) as (p' & E & G). exists p'. split; [now apply resolve_denotes|exact G].
  - destruct (C54_header h sc sc' EmptyString H) as (_ & _ & A & B). destruct (ah_base h) as [b|].
    + destruct (A b eq_refl) as (b' & E & G). exists b'. split; [now apply resolve_denotes|exact G].
    + now apply B.
Qed.

Lemma env_of_intro intro sc : env_of (with_intro intro sc) = env_of sc.
Proof. unfold env_of. destruct (with_intro_env intro sc) as [-> ->]. reflexivity. Qed.

Lemma y_resolve i sc : yields (lift (resolve i sc)) (fun _ i' => iri_denotes (env_of sc) i i').
Proof. apply y_lift. intros _ i' H. now apply resolve_denotes. Qed.

Lemma y_build_iri i sc : yields (build_iri ctx i sc) (fun _ r => iri_resource_denotes ctx_iri (env_of sc) i r).
Proof.
  apply (y_bind' _ _ (iri_denotes (env_of sc) i)); [apply y_resolve|]. intros i' Hi.
  eapply y_weaken; [apply y_iri|]. intros b r Hr. now exists i'.
Qed.

Notation pat := (pat_denotes ctx_iri ctx_lit).

Lemma y_pattern p sc ns : sees sc ns -> yields (build_pattern ctx p sc) (fun _ p' => pat (env_of sc) ns p p').
Proof.
  intros S. destruct p as [name|i|v ty]; cbn [build_pattern].
  - apply (y_bind' _ _ (innermost ns name)).
    + apply y_lift. intros _ x H. now apply S.
    + intros x Hx. apply y_ret. intros _. now exists x.
  - apply (y_bind' _ _ (iri_denotes (env_of sc) i)); [apply y_resolve|]. intros i' Hi.
    apply (y_bind' _ _ (ctx_iri i')); [apply y_iri|]. intros r Hr. apply y_ret. intros _. now exists i', r.
  - apply (y_bind' _ _ (type_denotes (env_of sc) ty)).
    + apply y_lift. intros _ ty' H. destruct ty as [i|tag]; cbn [resolve_type] in H.
      * apply bind_Ok in H as (i' & H & E). injection E as <-. exists i'. split; [now apply resolve_denotes|reflexivity].
      * now injection H as <-.
    + intros ty' Ht. apply (y_bind' _ _ (ctx_lit (RdfLiteral v ty'))); [apply y_literal|].
      intros r Hr. apply y_ret. intros _. now exists ty', r.
Qed.

Lemma y_quad q sc ns : sees sc ns ->
  yields (build_quad ctx sc q) (fun _ q' => quad_denotes ctx_iri ctx_lit (env_of sc) ns q q').
Proof.
  intros S. unfold build_quad.
  eapply y_bind'; [apply (y_pattern _ sc ns S)|]. intros s Hs.
  eapply y_bind'; [apply (y_pattern _ sc ns S)|]. intros p Hp.
  eapply y_bind'; [apply (y_pattern _ sc ns S)|]. intros o Ho.
  eapply y_bind'.
  { apply (y_option (fun g => build_pattern ctx g sc) (pat (env_of sc) ns)). intros g _. apply (y_pattern _ sc ns S). }
  intros g Hg. apply y_ret. intros _. split; [exact Hs|]. split; [exact Hp|]. split; [exact Ho|exact Hg].
Qed.

Lemma qpat_eqb_spec (q q' : qpat R) : qpat_eqb q q' = true <-> q = q'.
Proof.
  assert (PE : forall p p' : pattern R, pattern_eqb p p' = true <-> p = p').
  { intros [r|x] [r'|x']; cbn [pattern_eqb]; try (split; [discriminate|intros [=]]).
    - destruct (eqb_spec r r') as [->|N]; split; congruence.
    - destruct (Nat.eqb_spec x x') as [->|N]; split; congruence. }
  destruct q as [s p o g], q' as [s' p' o' g']. unfold qpat_eqb. cbn [q_s q_p q_o q_g].
  rewrite !andb_true_iff, !PE. destruct g as [g|], g' as [g'|].
  - rewrite PE. split; [intros [[[-> ->] ->] ->]; reflexivity|intros [= -> -> -> ->]; auto].
  - split; [intros [_ H]; discriminate|intros [=]].
  - split; [intros [_ H]; discriminate|intros [=]].
  - split; [intros [[[-> ->] ->] _]; reflexivity|intros [= -> -> ->]; auto].
Qed.

Lemma ds_insert_spec (q : qpat R) ds : NoDup ds ->
  NoDup (ds_insert q ds) /\ forall q', In q' (ds_insert q ds) <-> q' = q \/ In q' ds.
Proof.
  intros N. unfold ds_insert. destruct (existsb (qpat_eqb q) ds) eqn:E.
  - apply existsb_exists in E as (q0 & I & E). apply qpat_eqb_spec in E as <-. split; [exact N|].
    intros q'. split; [now right|]. now intros [->|H].
  - assert (NI : ~ In q ds).
    { intros I. assert (T : existsb (qpat_eqb q) ds = true).
      { apply existsb_exists. exists q. split; [exact I|now apply qpat_eqb_spec]. }
      congruence. }
    split.
    + clear E. induction ds as [|q0 ds IH]; cbn; [constructor; [easy|constructor]|].
      inversion N as [|? ? N0 N1]; subst. constructor.
      * intros I. apply in_app_or in I as [I|[->|[]]]; [easy|]. apply NI. now left.
      * apply IH; [assumption|]. intros I. apply NI. now right.
    + intros q'. rewrite in_app_iff. cbn [In]. split; [intros [H|[H|[]]]; auto|intros [H|H]; auto].
Qed.

Lemma fold_insert_spec (qs : list (qpat R)) : forall ds, NoDup ds ->
  NoDup (fold_left (fun ds q => ds_insert q ds) qs ds) /\
  forall q', In q' (fold_left (fun ds q => ds_insert q ds) qs ds) <-> In q' qs \/ In q' ds.
Proof.
  induction qs as [|q qs IH]; intros ds N; cbn [fold_left].
  - split; [exact N|]. intros q'. cbn [In]. tauto.
  - destruct (ds_insert_spec q ds N) as [N1 I1]. destruct (IH _ N1) as [N2 I2]. split; [exact N2|].
    intros q'. rewrite I2, I1. cbn [In]. split; [intros [H|[H|H]]; auto|intros [[H|H]|H]; auto].
Qed.

Notation dataset_den := (dataset_denotes ctx_iri ctx_lit).

Lemma y_dataset ds sc ns : sees sc ns ->
  yields (build_dataset ctx sc ds) (fun _ ds' => dataset_den (env_of sc) ns ds [] ds').
Proof.
  intros S. unfold build_dataset.
  apply (y_bind' _ _ (fun qs => Forall2 (quad_denotes ctx_iri ctx_lit (env_of sc) ns) ds qs)).
  { apply (y_mapS _ (fun _ => quad_denotes ctx_iri ctx_lit (env_of sc) ns)); [auto|].
    intros q _. now apply y_quad. }
  intros qs F. apply y_ret. intros _. destruct (fold_insert_spec qs [] (NoDup_nil _)) as [N I].
  split; [exact N|]. split; [|split].
  - intros q Iq. destruct (Forall2_In_l _ _ _ _ F Iq) as (q' & Iq' & Hq). exists q'. split; [apply I; now left|exact Hq].
  - intros q' [].
  - intros q' Iq'. apply I in Iq' as [Iq'|[]]. right. now apply (Forall2_In_r _ _ _ _ F).
Qed.

Lemma dataset_extra env ns ds ds' q : dataset_den env ns ds [] ds' -> dataset_den env ns ds [q] (ds_insert q ds').
Proof.
  intros (N & A & _ & B). destruct (ds_insert_spec q ds' N) as [N' I]. split; [exact N'|]. split; [|split].
  - intros q0 I0. destruct (A q0 I0) as (q' & I' & H). exists q'. split; [apply I; now right|exact H].
  - intros q' [<-|[]]. apply I. now left.
  - intros q' I'. apply I in I' as [->|I']; [left; now left|]. destruct (B q' I') as [[]|H]. now right.
Qed.

Lemma y_extra ex sc : yields (build_extra ctx ex sc) (fun _ _ => True).
Proof.
  unfold build_extra. eapply y_bind'; [|intros x _; now apply y_ret].
  eapply y_weaken; [apply (y_mapS _ (fun _ _ _ => True)); auto|]; [|intros; exact Logic.I].
  intros pv _.
  eapply y_bind'; [apply y_build_iri|]. intros p _.
  apply (y_bind' _ _ (fun _ => True)).
  { destruct (snd pv); cbn [build_resource]; try (eapply y_weaken; [apply y_literal|auto]; fail).
    eapply y_bind'; [apply y_resolve|]. intros i _. eapply y_weaken; [apply y_literal|auto]. }
  intros v _. now apply y_ret.
Qed.

Lemma y_header h sc : sees sc [] ->
  yields (build_header ctx h sc)
    (fun _ hs => header_denotes ctx_iri ctx_lit (env_of sc) h (env_of (snd hs)) (fst hs) /\
                 sees (snd hs) (header_names h)).
Proof.
  intros S. unfold build_header.
  apply (y_bind' _ _ (fun sc' => header_env (env_of sc) h (env_of sc') /\ sees sc' (header_names h))).
  { apply y_lift. intros _ sc' H. split; [now apply header_denotes_env|]. exact (sees_header h sc sc' [] S H). }
  intros sc' [HE S']. eapply y_bind'; [apply (y_dataset _ sc' _ S')|]. intros ds D.
  eapply y_bind'; [apply y_extra|]. intros _ _. apply y_ret. intros _. cbn [fst snd].
  split; [|exact S']. split; [exact HE|]. split; [reflexivity|]. split; [reflexivity|exact D].
Qed.

(** *** Parts of layouts *)
Context (build : alayout -> scope -> @M St R R).

(** What is known of the nested layouts. *)
Context (D : V LG -> ienv -> alayout -> R -> Prop).
Context (D_mono : forall b b' env l r, later LG b b' -> D b env l r -> D b' env l r).

Definition y_nested (l : alayout) : Prop :=
  forall sc, sees sc [] -> yields (build l sc) (fun b r => D b (env_of sc) l r).

Notation ref_den b := (ref_denotes ctx_iri (D b _)).
Notation format_den b env := (format_denotes ctx_iri ctx_lit (D b env) env).

Lemma y_ref r sc : (forall l, nested_ref r l -> y_nested l) ->
  yields (build_ref ctx build r sc) (fun b r' => ref_denotes ctx_iri (D b (env_of sc)) (env_of sc) r r').
Proof.
  intros H. destruct r as [i|l]; cbn [build_ref ref_denotes].
  - exact (y_build_iri i (without_variables sc)).
  - exact (H l eq_refl (without_variables sc) (sees_without sc)).
Qed.

Lemma format_mono b b' env ns default f f' : later LG b b' ->
  format_den b env ns default f f' -> format_den b' env ns default f f'.
Proof. intros X. apply format_denotes_mono. intros l r _. now apply D_mono. Qed.

Lemma y_format default f sc ns : sees sc ns -> (forall l, nested_format f l -> y_nested l) ->
  yields (build_format ctx build default f sc)
    (fun b f' => format_den b (env_of sc) ns default f f').
Proof.
  intros S H.
  assert (RM : forall r b b' r', later LG b b' ->
    ref_denotes ctx_iri (D b (env_of sc)) (env_of sc) r r' -> ref_denotes ctx_iri (D b' (env_of sc)) (env_of sc) r r').
  { intros [i|l] b b' r' X; cbn [ref_denotes]; [auto|now apply D_mono]. }
  destruct f as [r input graph|r]; cbn [build_format].
  - apply (y_bind' _ _ (fun ps => Forall2 (pat (env_of sc) ns) input ps)).
    { apply (y_mapS _ (fun _ => pat (env_of sc) ns)); [auto|]. intros p _. now apply y_pattern. }
    intros input' FI.
    apply (y_bind _ _ (fun b r' => ref_denotes ctx_iri (D b (env_of sc)) (env_of sc) r r')).
    { intros b b' r' X. now apply RM. }
    { now apply y_ref. }
    intros r'. eapply y_bind'.
    { apply (y_option (build_option (fun g => build_pattern ctx g sc))
               (fun g r => match g, r with
                           | Some a, Some b => pat (env_of sc) ns a b
                           | None, None => True | _, _ => False end)).
      intros g _. apply (y_option (fun g => build_pattern ctx g sc) (pat (env_of sc) ns)).
      intros p _. now apply y_pattern. }
    intros graph' FG. apply y_ret. intros b Hr. cbn [format_denotes vf_layout vf_input vf_graph].
    split; [exact Hr|]. split; [exact FI|]. destruct graph as [[g|]|], graph' as [[g'|]|]; easy.
  - apply (y_bind _ _ (fun b r' => ref_denotes ctx_iri (D b (env_of sc)) (env_of sc) r r')).
    { intros b b' r' X. now apply RM. }
    { now apply y_ref. }
    intros r'. eapply y_bind'; [apply (y_pattern (AVar default) sc ns S)|]. intros p (x & Hx & ->).
    apply y_ret. intros b Hr. cbn [format_denotes vf_layout vf_input vf_graph].
    split; [exact Hr|]. split; [reflexivity|]. now exists x.
Qed.

Lemma y_item inputs it sc ns : sees sc ns -> (forall l, nested_format (ai_value it) l -> y_nested l) ->
  yields (build_item ctx build inputs (length ns) it sc)
    (fun b it' => item_denotes ctx_iri ctx_lit (D b (env_of sc)) (env_of sc) inputs ns it it').
Proof.
  intros S H. unfold build_item. apply (sees_intro (ai_intro it)) in S.
  rewrite <- (env_of_intro (ai_intro it) sc).
  eapply y_bind'; [apply (y_dataset _ _ _ S)|]. intros ds Hds.
  apply (y_bind' _ _ (fun ds' => exists extra,
     property_denotes ctx_iri ctx_lit (env_of (with_intro (ai_intro it) sc)) inputs ns it extra /\
     dataset_den (env_of (with_intro (ai_intro it) sc)) (ns ++ ai_intro it) (ai_dataset it) extra ds')).
  { unfold build_property, property_denotes. destruct (ai_property it) as [p|].
    - destruct (Nat.eqb_spec inputs 0) as [Z|NZ]; [apply y_lift; discriminate|].
      destruct (ai_intro it) as [|i intro] eqn:EI; [apply y_lift; discriminate|].
      eapply y_bind'; [apply (y_pattern p _ _ S)|]. intros p' Hp. apply y_ret. intros _.
      eexists. split; [split; [exact NZ|]; split; [discriminate|]; exists p'; split; [exact Hp|reflexivity]|].
      now apply dataset_extra.
    - apply y_ret. intros _. exists []. now split. }
  intros ds' Hds'. eapply y_bind.
  2:{ apply (y_format _ _ _ _ S H). }
  { intros b b' f' X. now apply format_mono. }
  intros f'. apply y_ret. intros b Hf. split; [reflexivity|]. split; [exact Hf|exact Hds'].
Qed.

Lemma y_variant n v sc ns : sees sc ns -> (forall l, nested_format (av_value v) l -> y_nested l) ->
  yields (build_variant ctx build sc (n, v))
    (fun b v' => variant_denotes ctx_iri ctx_lit (D b (env_of sc)) (env_of sc) ns (n, v) v').
Proof.
  intros S H. destruct v as [intro v ds]. cbn [build_variant av_intro av_value av_dataset] in *.
  apply (sees_intro intro) in S. rewrite <- (env_of_intro intro sc).
  eapply y_bind.
  2:{ apply (y_format _ _ _ _ S H). }
  { intros b b' f' X. now apply format_mono. }
  intros f'. eapply y_bind'; [apply (y_dataset _ _ _ S)|]. intros ds' Hds. apply y_ret. intros b Hf.
  split; [reflexivity|]. split; [reflexivity|]. split; [exact Hf|exact Hds].
Qed.

Lemma y_default_dataset head first :
  yields (default_list_dataset ctx head (head + 1) first) (fun _ ds => list_quads ctx_iri head first ds).
Proof.
  unfold default_list_dataset.
  eapply y_bind'; [apply y_iri|]. intros f Hf. eapply y_bind'; [apply y_iri|]. intros r Hr. apply y_ret. intros _.
  destruct (ds_insert_spec (Quad (PVar head) (PRes f) first None) [] (NoDup_nil _)) as [N1 I1].
  destruct (ds_insert_spec (Quad (PVar head) (PRes r) (PVar (head + 1)) None) _ N1) as [N2 I2].
  split; [exact N2|]. exists f, r. split; [exact Hf|]. split; [exact Hr|].
  intros q. rewrite I2, I1. cbn [In]. tauto.
Qed.

Lemma y_node n sc ns : sees sc ns -> (forall l, nested_node n l -> y_nested l) ->
  yields (build_node ctx build n sc)
    (fun b n' => node_denotes ctx_iri ctx_lit (D b (env_of sc)) (env_of sc) ns n n').
Proof.
  intros S H. assert (C : sc_count sc = length ns) by apply S. unfold build_node. rewrite C.
  destruct n as [hd rs intro f ds|r]; cbn [node_denotes nested_node] in *.
  - apply (sees_intro ([hd; rs] ++ intro)) in S. rewrite <- (env_of_intro ([hd; rs] ++ intro) sc).
    set (ns' := ns ++ [hd; rs] ++ intro) in *. set (sc' := with_intro ([hd; rs] ++ intro) sc) in *.
    eapply y_bind.
    2:{ apply (y_format _ _ _ _ S H). }
    { intros b b' f' X. now apply format_mono. }
    intros f'. apply (y_bind' _ _ (fun ds' =>
      match ds with
      | Some ds => dataset_den (env_of sc') ns' ds [] ds'
      | None =>
          match f with
          | AFormat _ [p] _ => exists first, pat (env_of sc') ns' p first /\ list_quads ctx_iri (length ns) first ds'
          | AFormat _ _ _ => ds' = []
          | AFormatLayout _ => exists x, innermost ns' "value" x /\ list_quads ctx_iri (length ns) (PVar x) ds'
          end
      end)).
    + destruct ds as [ds|]; [apply (y_dataset _ _ _ S)|].
      destruct f as [r [|p [|p0 ps]] g|r]; try (now apply y_ret).
      * eapply y_bind'; [apply (y_pattern p _ _ S)|]. intros first Hf.
        eapply y_weaken; [apply y_default_dataset|]. intros b ds' Hd. now exists first.
      * apply (y_bind' _ _ (innermost ns' "value")); [apply y_lift; intros _ x Hx; now apply S|].
        intros x Hx. eapply y_weaken; [apply y_default_dataset|]. intros b ds' Hd. now exists x.
    + intros ds' Hds. apply y_ret. intros b Hf. split; [reflexivity|]. split; [exact Hf|exact Hds].
  - eapply y_bind.
    2:{ apply (y_ref r sc H). }
    { intros b b' r' X. destruct r as [i|l]; cbn [ref_denotes]; [auto|now apply D_mono]. }
    intros r'. replace (length ns + 1 + 1) with (length ns + 2) by lia.
    eapply y_bind'; [apply y_default_dataset|]. intros ds Hds.
    apply y_ret. intros b Hr. cbn [it_intro it_value it_dataset vf_layout vf_input vf_graph]. auto.
Qed.

(** *** Layouts *)
Lemma y_pre l sc :
  sees sc [] -> (forall l', nested l l' -> y_nested l') ->
  yields (layout_pre ctx build l sc) (fun b p => layout_denotes ctx_iri ctx_lit (D b) (env_of sc) l p).
Proof.
  intros S HN.
  destruct l as [h c|k h res|h fs|h vs|h n hd tl|h it|h its|b|h|h]; cbn [layout_denotes];
    try (eapply y_bind'; [exact (y_header h sc S)|]; intros [hd' sc'] [Hh S']; cbn [fst snd] in *).
  * apply y_ret. intros b. now exists (env_of sc'), hd'.
  * apply (y_bind' _ _ (resource_denotes ctx_iri ctx_lit (env_of sc') h res)).
    { destruct res as [p|]; cbn [build_literal_resource resource_denotes]; [now apply y_pattern|].
      destruct (ah_input h) eqn:EI; [apply y_lift; discriminate|]. apply y_ret. intros _. split; [congruence|reflexivity]. }
    intros res' Hr.
    assert (DT : forall dt name, yields
      (match dt with Some i => build_iri ctx i sc' | None => iri_resource ctx (xsd name) end)
      (fun _ r => datatype_denotes ctx_iri (env_of sc') dt (xsd_ns name) r)).
    { intros [i|] name; [apply y_build_iri|apply y_iri]. }
    assert (RET : forall pre, literal_denotes ctx_iri (env_of sc') k hd' res' pre ->
      @yields (prelayout R) (ret pre) (fun b p => exists env' hd res',
        header_denotes ctx_iri ctx_lit (env_of sc) h env' hd /\
        resource_denotes ctx_iri ctx_lit env' h res res' /\ literal_denotes ctx_iri env' k hd res' p)).
    { intros pre Hp. apply y_ret. intros _. now exists (env_of sc'), hd', res'. }
    destruct k as [dt|dt|dt|pat dt|pat].
    -- eapply y_bind'; [apply DT|]. intros r Hdt. apply RET. now exists r.
    -- eapply y_bind'; [apply y_build_iri|]. intros r Hdt. apply RET. now exists r.
    -- eapply y_bind'; [apply y_build_iri|]. intros r Hdt. apply RET. now exists r.
    -- eapply y_bind'; [apply DT|]. intros r Hdt. apply RET. now exists r.
    -- now apply RET.
  * assert (C : length (ah_input h) + length (ah_intro h) = length (header_names h)).
    { unfold header_names. now rewrite app_length. }
    eapply y_bind.
    2:{ apply (y_mapS _ (fun b kf kf' => fst kf' = fst kf /\ f_required (snd kf') = af_required (snd kf) /\
            item_denotes ctx_iri ctx_lit (D b (env_of sc')) (env_of sc') (length (ah_input h)) (header_names h)
              (af_item (snd kf)) (f_item (snd kf')))).
        - intros b b' kf kf' X (K1 & K2 & K3). split; [exact K1|]. split; [exact K2|].
          revert K3. apply item_denotes_mono. intros l r _. now apply D_mono.
        - intros [k [it req]] I. cbn [build_field]. rewrite C. eapply y_bind.
          2:{ apply (y_item _ it sc' (header_names h) S'). intros l N. apply HN. now apply (N_field h fs k (AField it req)). }
          { intros b b' it' X. apply item_denotes_mono. intros l r _. now apply D_mono. }
          intros it'. apply y_ret. intros b K. cbn [fst snd f_required af_required f_item af_item]. auto. }
    { intros b b' cs X F. eapply Forall2_impl; [|exact F]. cbn. intros kf kf' (K1 & K2 & K3).
      split; [exact K1|]. split; [exact K2|].
      revert K3. apply item_denotes_mono. intros l r _. now apply D_mono. }
    intros fs'. apply y_ret. intros b F. exists (env_of sc'), hd', fs'. split; [exact Hh|].
    split; [now apply all2_Forall2|reflexivity].
  * eapply y_bind.
    2:{ apply (y_mapS _ (fun b => variant_denotes ctx_iri ctx_lit (D b (env_of sc')) (env_of sc') (header_names h))).
        - intros b b' [n v] v' X. apply variant_denotes_mono. intros l r _. now apply D_mono.
        - intros [n v] I. apply (y_variant n v sc' _ S'). intros l N. apply HN. now apply (N_variant h vs n v). }
    { intros b b' cs X F. eapply Forall2_impl; [|exact F]. intros [n v] v'. apply variant_denotes_mono.
      intros l r _. now apply D_mono. }
    intros vs'. apply y_ret. intros b F. exists (env_of sc'), hd', vs'. split; [exact Hh|].
    split; [now apply all2_Forall2|reflexivity].
  * eapply y_bind.
    2:{ apply (y_node n sc' _ S'). intros l N. apply HN. destruct n; [now apply N_node|now apply N_node_layout]. }
    { intros b b' n' X. apply node_denotes_mono. intros l r _. now apply D_mono. }
    intros n'. eapply y_bind'; [apply (y_pattern hd sc' _ S')|]. intros hd1 H1.
    eapply y_bind'; [apply (y_pattern tl sc' _ S')|]. intros tl1 H2. apply y_ret. intros b K.
    exists (env_of sc'), hd', n', hd1, tl1. auto.
  * assert (C : sc_count sc' = length (header_names h)) by apply S'. rewrite C.
    eapply y_bind.
    2:{ apply (y_item _ it sc' _ S'). intros l N. apply HN. now apply N_item. }
    { intros b b' it' X. apply item_denotes_mono. intros l r _. now apply D_mono. }
    intros it'. apply y_ret. intros b K. exists (env_of sc'), hd', it'. auto.
  * assert (C : sc_count sc' = length (header_names h)) by apply S'.
    eapply y_bind.
    2:{ apply (y_mapS _ (fun b => item_denotes ctx_iri ctx_lit (D b (env_of sc')) (env_of sc')
                                    (length (ah_input h)) (header_names h))).
        - intros b b' it it' X. apply item_denotes_mono. intros l r _. now apply D_mono.
        - intros it I. rewrite C. apply (y_item _ it sc' _ S'). intros l N. apply HN. now apply (N_tuple h its it). }
    { intros b b' cs X F. eapply Forall2_impl; [|exact F]. intros it it'. apply item_denotes_mono.
      intros l r _. now apply D_mono. }
    intros its'. apply y_ret. intros b F. exists (env_of sc'), hd', its'. split; [exact Hh|].
    split; [now apply all2_Forall2|reflexivity].
  * destruct b; now apply y_ret.
  * apply y_lift. discriminate.
  * apply y_lift. discriminate.
Qed.

Lemma y_identifier l sc :
  yields (match layout_id l with
          | Some i => bindM (lift (resolve i sc)) (fun i => iri_resource ctx i)
          | None => anonymous_resource ctx
          end)
    (fun _ r => forall h i, header_of l = Some h -> ah_id h = Some i -> iri_resource_denotes ctx_iri (env_of sc) i r).
Proof.
  assert (LI : forall h, header_of l = Some h -> layout_id l = ah_id h).
  { intros h. destruct l; cbn; congruence. }
  destruct (layout_id l) as [i|].
  - eapply y_weaken; [apply (y_build_iri i sc)|]. intros b r Hr h i' Hh Hi.
    specialize (LI h Hh). assert (i' = i) as -> by congruence. exact Hr.
  - eapply y_weaken; [apply y_anonymous|]. intros b r _ h i' Hh Hi. specialize (LI h Hh). congruence.
Qed.
End Logic.

(** ** The definitions of the builder *)
Section Builder.
Definition ext (b b' : @builder R) : Prop := forall r p, bt_get r b = Some p -> bt_get r b' = Some p.

(** The new definitions satisfy [New]. *)
Context (New : @builder R -> R -> Prop) (New_mono : forall b b' r, ext b b' -> New b r -> New b' r).
Definition builder_grows (b b' : @builder R) : Prop :=
  ext b b' /\ forall r p, bt_get r b' = Some p -> bt_get r b = Some p \/ New b' r.

Lemma builder_grows_refl b : builder_grows b b.
Proof. split; [now intros r p|]. intros r p H. now left. Qed.

Lemma builder_grows_trans a b c : builder_grows a b -> builder_grows b c -> builder_grows a c.
Proof.
  intros [X N] [X' N']. split; [intros r p H; now apply X', X|]. intros r p H.
  apply N' in H as [H|H]; [|now right]. apply N in H as [H|H]; [now left|right]. now apply (New_mono b).
Qed.

Definition builder_logic : logic :=
  Logic (@builder R) snd bt_wf ext builder_grows builder_grows_refl builder_grows_trans (fun u v H => proj1 H)
    (fun _ _ _ => eq_refl) (fun _ _ _ => eq_refl) (fun _ _ => eq_refl).
Notation yieldsb := (yields builder_logic).

Context (build : alayout -> scope -> @M St R R).
Context (D : @builder R -> ienv -> alayout -> R -> Prop).
Context (D_mono : forall b b' env l r, ext b b' -> D b env l r -> D b' env l r).

Lemma y_insert (m : @M St R (prelayout R)) id (Qp : @builder R -> prelayout R -> Prop) (Q : @builder R -> Prop) :
  (forall b b' p, ext b b' -> Qp b p -> Qp b' p) ->
  (forall b p, Qp b p -> bt_get id b = Some p -> Q b /\ New b id) ->
  yieldsb m Qp ->
  yieldsb (bindM m (fun pre => bindM (insert_layout id pre)
            (fun old => match snd old with Some _ => lift (Err LayoutRedefinition) | None => ret (fst old) end)))
         (fun b r => r = id /\ Q b).
Proof.
  intros MQ HQ H s r s' E W. cbn [builder_logic view valid grows] in W |- *. unfold bindM, insert_layout in E. destruct (m s) as [o s1] eqn:M1.
  destruct o as [p|e|w|]; try discriminate. destruct (H s p s1 M1 W) as (W1 & X1 & Q1).
  cbn [builder_logic view valid grows] in W1, X1, Q1. cbn [fst snd] in E. destruct (bt_get id (snd s1)) eqn:G; [discriminate|].
  injection E as <- <-. cbn [snd].
  assert (X2 : ext (snd s1) (bt_insert id p (snd s1))).
  { intros r q Hr. rewrite bt_insert_get by assumption. destruct (eqb_spec r id) as [->|N]; [congruence|assumption]. }
  assert (G2 : bt_get id (bt_insert id p (snd s1)) = Some p).
  { rewrite bt_insert_get by assumption. destruct (eqb_spec id id) as [_|N]; [reflexivity|now destruct N]. }
  destruct (HQ _ p (MQ _ _ _ X2 Q1) G2) as [HQ1 HN].
  split; [now apply bt_insert_wf|]. split; [|now split].
  apply (builder_grows_trans _ (snd s1)); [exact X1|]. split; [exact X2|]. intros r q Hr.
  rewrite bt_insert_get in Hr by assumption. destruct (eqb_spec r id) as [->|N]; [now right|now left].
Qed.

Lemma y_layout l sc :
  sees sc [] -> (forall l', nested l l' -> y_nested builder_logic build D l') ->
  (forall b r p,
     (forall h i, header_of l = Some h -> ah_id h = Some i -> iri_resource_denotes ctx_iri (env_of sc) i r) ->
     bt_get r b = Some p -> layout_denotes ctx_iri ctx_lit (D b) (env_of sc) l p ->
     D b (env_of sc) l r /\ New b r) ->
  yieldsb (layout_body ctx build l sc) (fun b r => D b (env_of sc) l r).
Proof.
  intros S HN HD. unfold layout_body.
  eapply y_bind'; [apply (y_identifier builder_logic l sc)|].
  intros id Hid.
  eapply y_weaken.
  - apply (y_insert _ id (fun b p => layout_denotes ctx_iri ctx_lit (D b) (env_of sc) l p)
             (fun b => D b (env_of sc) l id)).
    + intros b b' p X. apply layout_denotes_mono. intros env l' r _. now apply D_mono.
    + intros b p HQ G. now apply (HD b id p).
    + now apply (y_pre builder_logic build D D_mono).
  - intros b r [-> K]. exact K.
Qed.
End Builder.
End Yields.

Section Documents.
Context {IS : IriSyntax} {AE : AbsExternal} {St R : Type} {CR : Cmp R} {CL : CmpLaws R} (ctx : context St R).

Notation meaning b := (compiled (ctx_iri ctx) (ctx_lit ctx) (fun r => bt_get r b)).

Lemma document_yields l0 : exists NM,
  yields ctx (builder_logic ctx (fun b r => exists l env, inside l0 l /\ meaning b env l r) NM)
    (build_with_context ctx l0) (fun b r => meaning b no_env l0 r).
Proof.
  match goal with |- context [builder_logic _ ?n] => set (New := n) end.
  assert (MONO : forall b b' env l r, ext b b' -> meaning b env l r -> meaning b' env l r).
  { intros b b' env l r X. apply compiled_mono. exact X. }
  assert (NM : forall b b' r, ext b b' -> New b r -> New b' r).
  { intros b b' r X (l & env & I & K). exists l, env. split; [exact I|]. now apply (MONO b). }
  exists NM.
  assert (K : forall l, inside l0 l -> forall sc, sees sc [] ->
     yields ctx (builder_logic ctx New NM) (build_layout ctx l sc) (fun b r => meaning b (env_of sc) l r)).
  { intros l. induction l as [l IH] using layout_ind. intros I sc S. rewrite build_layout_eq.
    apply (y_layout ctx New NM (build_layout ctx) (fun b env l r => meaning b env l r) MONO); [exact S| |].
    - intros l' N sc' S'. apply IH; [exact N|now apply (nested_inside l0 l)|exact S'].
    - intros b r p H1 H2 H3.
      assert (K : meaning b (env_of sc) l r) by (apply compiled_eq; split; [exact H1|now exists p]).
      split; [exact K|]. now exists l, (env_of sc). }
  exact (K l0 (inside_self l0) scope_default sees_default).
Qed.

(** ** C70: the compilation of a document is its meaning

    After a successful compilation the reference returned is defined by the meaning of the document;
    its nested layouts are defined too, by the references used. *)
Theorem C70_meaning l s r s' :
  build_with_context ctx l s = (Ok r, s') -> bt_wf (snd s) -> meaning (snd s') no_env l r.
Proof. intros H W. destruct (document_yields l) as [NM Y]. now apply (Y s r s' H W). Qed.

(** The definitions of the builder are kept, and the new ones are the meaning of a layout of the
    document. *)
Theorem C70_definitions l s r s' :
  build_with_context ctx l s = (Ok r, s') -> bt_wf (snd s) ->
  bt_wf (snd s') /\
  (forall ref p, bt_get ref (snd s) = Some p -> bt_get ref (snd s') = Some p) /\
  (forall ref p, bt_get ref (snd s') = Some p -> bt_get ref (snd s) = Some p \/
     exists l' env, inside l l' /\ meaning (snd s') env l' ref).
Proof.
  intros H W. destruct (document_yields l) as [NM Y]. destruct (Y s r s' H W) as (W' & [X N] & _). split; [exact W'|]. split; [exact X|exact N].
Qed.
End Documents.
