(** * Redefinitions (C55) *)

From Coq Require Import String Ascii List Bool Arith NArith Lia.
Import ListNotations.
From Verif Require Import Base BaseProofs Orders PatternModel ValueModel LayoutModel LayoutSpec
  MatchingSpec HydrateModel TermModel DehydrateModel DehydrateFinish AbsModel AbsSpec AbsProofs
  AbsProperties AbsMeaning.
Open Scope list_scope.
Open Scope nat_scope.

(** ** Properties of computations

    A property of computations closed by the constructs of the compilation, apart from the
    insertion and the generation of identifiers, holds of the compilation of the definitions if it
    holds of the nested layouts. *)
Section Closed.
Context {IS : IriSyntax} {AE : AbsExternal} {St R : Type} {CR : Cmp R} (ctx : context St R).
Context (C : forall A, @M St R A -> Prop).
Arguments C {A}.
Context (C_ret : forall A (a : A), C (ret a)).
Context (C_lift : forall A (o : outcome build_error A), o <> Err LayoutRedefinition -> C (lift o)).
Context (C_bind : forall A B (m : @M St R A) (k : A -> @M St R B), C m -> (forall a, C (k a)) -> C (bindM m k)).
Context (C_iri : forall i, C (iri_resource ctx i)) (C_lit : forall l, C (literal_resource ctx l)).

Lemma c_mapS {A B} (f : A -> @M St R B) l : (forall a, In a l -> C (f a)) -> C (mapS f l).
Proof.
  induction l as [|a l IH]; intros H; cbn [mapS]; [apply C_ret|].
  apply C_bind; [apply H; now left|]. intros b. apply C_bind; [apply IH; intros a' I; apply H; now right|].
  intros bs. apply C_ret.
Qed.

Lemma c_option {A B} (f : A -> @M St R B) o : (forall a, C (f a)) -> C (build_option f o).
Proof. intros H. destruct o; cbn [build_option]; [|apply C_ret]. apply C_bind; [apply H|]. intros b. apply C_ret. Qed.

Lemma c_resolve i sc : C (lift (resolve i sc)).
Proof.
  apply C_lift. unfold resolve. destruct (iri_scheme i) as [t|].
  - destruct (hm_get t (sc_prefixes sc)); [|discriminate]. destruct (after_colon i); cbn [unwrap bind]; [|discriminate].
    destruct (is_iri _); discriminate.
  - destruct (sc_base sc); discriminate.
Qed.

Lemma c_build_iri i sc : C (build_iri ctx i sc).
Proof. apply C_bind; [apply c_resolve|]. intros i'. apply C_iri. Qed.

Lemma c_variable sc name : C (lift (scope_variable sc name)).
Proof. apply C_lift. unfold scope_variable. destruct (hm_get _ _); discriminate. Qed.

Lemma c_pattern p sc : C (build_pattern ctx p sc).
Proof.
  destruct p as [name|i|v ty]; cbn [build_pattern].
  - apply C_bind; [apply c_variable|]. intros x. apply C_ret.
  - apply C_bind; [apply c_resolve|]. intros i'. apply C_bind; [apply C_iri|]. intros r. apply C_ret.
  - apply C_bind.
    + destruct ty as [i|tag]; [|apply C_lift; discriminate]. apply C_lift. cbn [resolve_type].
      unfold resolve. destruct (iri_scheme i) as [t|].
      * destruct (hm_get t (sc_prefixes sc)); [|discriminate]. destruct (after_colon i); cbn [unwrap bind]; [|discriminate].
        destruct (is_iri _); discriminate.
      * destruct (sc_base sc); discriminate.
    + intros ty'. apply C_bind; [apply C_lit|]. intros r. apply C_ret.
Qed.

Lemma c_quad sc q : C (build_quad ctx sc q).
Proof.
  unfold build_quad. do 3 (apply C_bind; [apply c_pattern|]; intro).
  apply C_bind; [apply c_option; intro; apply c_pattern|]. intro. apply C_ret.
Qed.

Lemma c_dataset sc ds : C (build_dataset ctx sc ds).
Proof. apply C_bind; [apply c_mapS; intros q _; apply c_quad|]. intro. apply C_ret. Qed.

Lemma c_header h sc : C (build_header ctx h sc).
Proof.
  apply C_bind; [|intros sc'].
  { apply C_lift. intros H. destruct (with_header h sc) as [sc'|e|w|] eqn:E; try discriminate.
    injection H as ->. unfold with_header in E.
    assert (RE : forall i, resolve i sc <> Err LayoutRedefinition).
    { intros i. unfold resolve. destruct (iri_scheme i) as [t|].
      - destruct (hm_get t (sc_prefixes sc)); [|discriminate]. destruct (after_colon i); cbn [unwrap bind]; [|discriminate].
        destruct (is_iri _); discriminate.
      - destruct (sc_base sc); discriminate. }
    assert (PE : forall ps m, with_prefixes sc ps m <> Err LayoutRedefinition).
    { induction ps as [|[n p] ps IH]; intros m; cbn [with_prefixes]; [discriminate|].
      specialize (RE p). destruct (resolve p sc) as [p'|e|w|]; cbn [bind]; [apply IH|congruence|discriminate|discriminate]. }
    destruct (ah_base h) as [b|].
    - specialize (RE b). destruct (resolve b sc) as [b'|e|w|]; cbn [bind] in E; try congruence.
      specialize (PE (ah_prefixes h) (sc_prefixes sc)). destruct (with_prefixes _ _ _); cbn [bind] in E; congruence.
    - cbn [bind] in E. specialize (PE (ah_prefixes h) (sc_prefixes sc)).
      destruct (with_prefixes _ _ _); cbn [bind] in E; congruence. }
  apply C_bind; [apply c_dataset|]. intros ds. apply C_bind; [|intros _; apply C_ret].
  apply C_bind; [|intros _; apply C_ret]. apply c_mapS. intros pv _.
  apply C_bind; [apply c_build_iri|]. intros p. apply C_bind; [|intros v; apply C_ret].
  destruct (snd pv); cbn [build_resource]; try apply C_lit.
  apply C_bind; [apply c_resolve|]. intros i. apply C_lit.
Qed.

Context (build : alayout -> scope -> @M St R R).

Lemma c_ref r sc : (forall l sc, nested_ref r l -> C (build l sc)) -> C (build_ref ctx build r sc).
Proof. intros H. destruct r as [i|l]; cbn [build_ref]; [apply c_build_iri|now apply H]. Qed.

Lemma c_format default f sc : (forall l sc, nested_format f l -> C (build l sc)) ->
  C (build_format ctx build default f sc).
Proof.
  intros H. destruct f as [r input graph|r]; cbn [build_format].
  - apply C_bind; [apply c_mapS; intros p _; apply c_pattern|]. intro.
    apply C_bind; [now apply c_ref|]. intro.
    apply C_bind; [apply c_option; intro; apply c_option; intro; apply c_pattern|]. intro. apply C_ret.
  - apply C_bind; [now apply c_ref|]. intro. apply C_bind; [apply (c_pattern (AVar default))|]. intro. apply C_ret.
Qed.

Lemma c_item inputs count it sc : (forall l sc, nested_format (ai_value it) l -> C (build l sc)) ->
  C (build_item ctx build inputs count it sc).
Proof.
  intros H. unfold build_item. apply C_bind; [apply c_dataset|]. intro.
  apply C_bind; [|intro; apply C_bind; [now apply c_format|intro; apply C_ret]].
  unfold build_property. destruct (ai_property it) as [p|]; [|apply C_ret].
  destruct (Nat.eqb inputs 0); [apply C_lift; discriminate|].
  destruct (ai_intro it); [apply C_lift; discriminate|].
  apply C_bind; [apply c_pattern|]. intro. apply C_ret.
Qed.

Lemma c_default_dataset head rest first : C (default_list_dataset ctx head rest first).
Proof. do 2 (apply C_bind; [apply C_iri|]; intro). apply C_ret. Qed.

Lemma c_pre l sc : (forall l' sc, nested l l' -> C (build l' sc)) -> C (layout_pre ctx build l sc).
Proof.
  intros H. destruct l as [h c|k h res|h fs|h vs|h n hd tl|h it|h its|b|h|h]; cbn [layout_pre];
    try (apply C_bind; [apply c_header|]; intros [hd' sc']).
  - apply C_ret.
  - apply C_bind.
    { destruct res as [p|]; cbn [build_literal_resource]; [apply c_pattern|].
      destruct (ah_input h); [apply C_lift; discriminate|apply C_ret]. }
    intros res'.
    assert (DT : forall (dt : option compact_iri) name,
      C (match dt with Some i => build_iri ctx i sc' | None => iri_resource ctx (xsd name) end)).
    { intros [i|] name; [apply c_build_iri|apply C_iri]. }
    destruct k; try (apply C_bind; [|intro; apply C_ret]); try apply DT; try apply c_build_iri. apply C_ret.
  - apply C_bind; [|intro; apply C_ret]. apply c_mapS. intros [k [it req]] I. cbn [build_field].
    apply C_bind; [|intro; apply C_ret]. apply c_item. intros l sc0 N. apply H. now apply (N_field h fs k (AField it req)).
  - apply C_bind; [|intro; apply C_ret]. apply c_mapS. intros [n [intro v ds]] I. cbn [build_variant].
    apply C_bind; [|intro f; apply C_bind; [apply c_dataset|intro; apply C_ret]].
    apply c_format. intros l sc0 N. apply H. now apply (N_variant h vs n (AVariant intro v ds)).
  - apply C_bind; [|intro; do 2 (apply C_bind; [apply c_pattern|]; intro); apply C_ret].
    destruct n as [hd0 rs intro f ds|r]; cbn [build_node].
    + apply C_bind; [apply c_format; intros l sc0 N; apply H; now apply N_node|]. intros f'.
      apply C_bind; [|intro; apply C_ret]. destruct ds as [ds|]; [apply c_dataset|].
      destruct f as [r [|p [|p0 ps]] g|r]; try apply C_ret.
      * apply C_bind; [apply c_pattern|]. intro. apply c_default_dataset.
      * apply C_bind; [apply c_variable|]. intro. apply c_default_dataset.
    + apply C_bind; [apply c_ref; intros l sc0 N; apply H; now apply N_node_layout|]. intro.
      apply C_bind; [apply c_default_dataset|]. intro. apply C_ret.
  - apply C_bind; [|intro; apply C_ret]. apply c_item. intros l sc0 N. apply H. now apply N_item.
  - apply C_bind; [|intro; apply C_ret]. apply c_mapS. intros it I. apply c_item. intros l sc0 N. apply H.
    now apply (N_tuple h its it).
  - destruct b; apply C_ret.
  - apply C_lift. discriminate.
  - apply C_lift. discriminate.
Qed.
End Closed.

(** ** Adding definitions to the builder only causes redefinition errors *)
Section Oblivious.
Context {IS : IriSyntax} {AE : AbsExternal} {St R : Type} {CR : Cmp R} {CL : CmpLaws R} (ctx : context St R).

Definition defined_in (b b' : @builder R) : Prop := forall r, bt_get r b <> None -> bt_get r b' <> None.

Definition oblivious {A} (m : @M St R A) : Prop :=
  forall st b b', defined_in b b' ->
    fst (m (st, b')) = Err LayoutRedefinition \/
    (fst (m (st, b')) = fst (m (st, b)) /\ fst (snd (m (st, b'))) = fst (snd (m (st, b))) /\
     defined_in (snd (snd (m (st, b)))) (snd (snd (m (st, b'))))).

Lemma o_ret {A} (a : A) : oblivious (ret a).
Proof. intros st b b' H. right. now split. Qed.
Lemma o_lift {A} (o : outcome build_error A) : oblivious (lift o).
Proof. intros st b b' H. right. now split. Qed.
Lemma o_bind {A B} (m : @M St R A) (k : A -> @M St R B) :
  oblivious m -> (forall a, oblivious (k a)) -> oblivious (bindM m k).
Proof.
  intros Hm Hk st b b' H. unfold bindM. specialize (Hm st b b' H).
  destruct (m (st, b)) as [o [st1 b1]], (m (st, b')) as [o' [st1' b1']]. cbn [fst snd] in Hm.
  destruct Hm as [->|(-> & -> & H1)]; [now left|].
  destruct o as [a|e|w|]; [apply (Hk a st1 b1 b1' H1)| | |]; right; now split.
Qed.
Lemma o_iri i : oblivious (iri_resource ctx i).
Proof. intros st b b' H. right. unfold iri_resource. cbn [fst]. destruct (c_iri ctx i st). now split. Qed.
Lemma o_lit l : oblivious (literal_resource ctx l).
Proof. intros st b b' H. right. unfold literal_resource. cbn [fst]. destruct (c_literal ctx l st). now split. Qed.
Lemma o_anon : oblivious (anonymous_resource ctx).
Proof. intros st b b' H. right. unfold anonymous_resource. cbn [fst]. destruct (c_anonymous ctx st). now split. Qed.

Lemma o_layout l : forall sc, oblivious (build_layout ctx l sc).
Proof.
  induction l as [l IH] using layout_ind. intros sc. rewrite build_layout_eq. unfold layout_body.
  apply o_bind.
  { destruct (layout_id l) as [i|]; [|apply o_anon]. apply o_bind; [apply o_lift|]. intros i'. apply o_iri. }
  intros id. apply o_bind.
  { apply (c_pre ctx (@oblivious)); try (intros; first [apply o_ret|apply o_lift|apply o_iri|apply o_lit]); auto.
    intros. now apply o_bind. }
  intros pre st b b' H. unfold bindM, insert_layout. cbn [fst snd].
  assert (K : defined_in (bt_insert id pre b) (bt_insert id pre b')).
  { intros r. rewrite !bt_insert_get. destruct (eqb r id); [discriminate|apply H]. }
  specialize (H id). destruct (bt_get id b') as [p'|]; [now left|].
  destruct (bt_get id b) as [p|]; [now destruct H|]. right. now split.
Qed.
End Oblivious.

Section Properties.
Context {IS : IriSyntax} {AE : AbsExternal} {St R : Type} {CR : Cmp R} {CL : CmpLaws R} (ctx : context St R).

(** ** C55: redefinitions *)

(** When the compilation of a document succeeds, its reference was not defined before and
    no definition is lost. *)
Theorem C55_success_partial l s r s' :
  build_with_context ctx l s = (Ok r, s') -> bt_wf (snd s) ->
  bt_get r (snd s) = None /\ bt_get r (snd s') <> None /\
  forall ref p, bt_get ref (snd s) = Some p -> bt_get ref (snd s') = Some p.
Proof.
  intros H W. split; [|split].
  - unfold build_with_context in H. rewrite build_layout_eq in H.
    destruct (bt_get r (snd s)) as [p|] eqn:G; [|reflexivity]. exfalso. unfold layout_body, bindM in H.
    match type of H with context [match ?m s with _ => _ end] => remember m as idm eqn:EI end.
    set (LG := builder_logic ctx (fun _ _ => True) (fun _ _ _ _ x => x)).
    pose proof (y_identifier ctx LG l scope_default) as Yid. unfold bindM in Yid. rewrite <- EI in Yid.
    destruct (idm s) as [o s1] eqn:E1. destruct o as [id|e|w|]; try discriminate.
    destruct (Yid s id s1 E1 W) as (W1 & [X1 _] & _).
    destruct (layout_pre ctx (build_layout ctx) l scope_default s1) as [o s2] eqn:E2.
    destruct o as [pre|e|w|]; try discriminate.
    assert (X2 : bt_wf (snd s2) /\ ext (snd s1) (snd s2)).
    { assert (Y : forall l sc, sees sc [] -> yields ctx (builder_logic ctx (fun _ _ => True) (fun _ _ _ _ x => x)) (build_layout ctx l sc) (fun b r => True)).
      { clear - CL. intros l. induction l as [l IH] using layout_ind. intros sc S. rewrite build_layout_eq.
        apply (y_layout ctx (fun _ _ => True) (fun _ _ _ _ x => x) (build_layout ctx) (fun _ _ _ _ => True)); auto. }
      destruct (y_pre ctx LG (build_layout ctx) (fun _ _ _ _ => True)
                  (fun _ _ _ _ _ _ x => x) l scope_default sees_default) with (s := s1) (a := pre) (s' := s2)
        as (Y1 & [Y2 _] & _); auto.
      intros l' N sc' S'. now apply Y. }
    destruct X2 as [_ X2]. unfold insert_layout in H. cbn [fst snd] in H.
    destruct (bt_get id (snd s2)) as [p'|] eqn:G2; [discriminate|]. injection H as -> <-.
    apply X1 in G. apply X2 in G. congruence.
  - pose proof (C70_meaning ctx l s r s' H W) as K. apply compiled_eq in K as (_ & p & G & _). congruence.
  - now apply (C70_definitions ctx l s r s').
Qed.

(** Definitions are only an obstacle to the compilation by the error [LayoutRedefinition]: if a
    document compiles with the builder [b], then with a builder that has more definitions the
    result is the same or this error. *)
Theorem C55_more_definitions l st b b' :
  (forall r, bt_get r b <> None -> bt_get r b' <> None) ->
  fst (build_with_context ctx l (st, b')) = Err LayoutRedefinition \/
  fst (build_with_context ctx l (st, b')) = fst (build_with_context ctx l (st, b)).
Proof. intros H. destruct (o_layout ctx l scope_default st b b' H) as [K|(K & _)]; [now left|now right]. Qed.
End Properties.

Section Terms.
Context {IS : IriSyntax} {AE : AbsExternal}.

Lemma iri_denotes_unique env i a b : iri_denotes env i a -> iri_denotes env i b -> a = b.
Proof.
  intros [(t & u & A & H)|[N (x & H1 & H2)]] [(t' & u' & A' & H')|[N' (x' & H1' & H2')]].
  - destruct (C54_unique i t u t' u' A A') as [<- <-].
    destruct (e_prefix env t); [destruct H, H'|]; congruence.
  - now apply N' in A.
  - now apply N in A'.
  - congruence.
Qed.

Lemma let_fst {A B C} (p : A * (B * C)) : fst (let (o, s) := p in (o, snd s)) = fst p.
Proof. now destruct p. Qed.

(** A document whose identifier is already defined does not compile; if it compiles with a builder
    without definitions, the error is [LayoutRedefinition]. *)
Theorem C55_redefinition_partial l h i i' b :
  bt_wf b -> header_of l = Some h -> ah_id h = Some i -> iri_denotes no_env i i' ->
  bt_get (TmIri i') b <> None ->
  (forall r, fst (build_document l b) <> Ok r) /\
  (forall r, fst (build_document l []) = Ok r -> fst (build_document l b) = Err LayoutRedefinition).
Proof.
  intros W Hh Hi HI D.
  assert (BD : forall b, fst (build_document l b) = fst (build_with_context term_context l (0, b))).
  { intros b0. exact (let_fst (build_with_context term_context l (0, b0))). }
  assert (K : forall r, fst (build_document l b) <> Ok r).
  { intros r H. rewrite BD in H.
    match type of H with fst ?x = _ => destruct x as [o s'] eqn:E end. cbn [fst] in H. subst o.
    pose proof (C70_meaning term_context l _ _ _ E W) as K. apply compiled_eq in K as [K _].
    destruct (K h i Hh Hi) as (i'' & K1 & [st K2]). cbn in K2.
    rewrite (iri_denotes_unique _ _ _ _ K1 HI) in K2. subst r.
    destruct (C55_success_partial term_context l _ _ _ E W) as [N _]. cbn [snd] in N. congruence. }
  split; [exact K|]. intros r H. rewrite BD in *.
  destruct (C55_more_definitions term_context l 0 [] b) as [M|M].
  - intros x. now cbn [bt_get].
  - exact M.
  - exfalso. apply (K r). exact (eq_trans M H).
Qed.

(** Anonymous layouts: with one generator for all the documents, and a builder that does not define
    the identifiers to come, documents without identifiers are never rejected as redefinitions. *)
Definition no_future (s : @bstate nat term) : Prop :=
  forall n, fst s <= n -> bt_get (TmBlank (nat_string n)) (snd s) = None.

Definition harmless {A} (m : @M nat term A) : Prop :=
  forall s, no_future s ->
    fst s <= fst (snd (m s)) /\ no_future (snd (m s)) /\
    (forall r, (forall n, fst s <= n -> r <> TmBlank (nat_string n)) ->
       bt_get r (snd (snd (m s))) = bt_get r (snd s)) /\
    fst (m s) <> Err LayoutRedefinition.

Lemma h_bind {A B} (m : @M nat term A) (k : A -> @M nat term B) :
  harmless m -> (forall a, harmless (k a)) -> harmless (bindM m k).
Proof.
  intros Hm Hk s F. unfold bindM. destruct (Hm s F) as (L & F1 & G & E). destruct (m s) as [o s1]. cbn [fst snd] in *.
  destruct o as [a|e|w|]; cbn [fst snd]; try (repeat split; auto; congruence).
  destruct (Hk a s1 F1) as (L2 & F2 & G2 & E2). split; [lia|]. split; [exact F2|]. split; [|exact E2].
  intros r Hr. rewrite G2; [now apply G|]. intros n Hn. apply Hr. lia.
Qed.

Lemma h_layout l : (forall l' h, inside l l' -> header_of l' = Some h -> ah_id h = None) ->
  forall sc, harmless (build_layout term_context l sc).
Proof.
  induction l as [l IH] using layout_ind. intros HI sc. rewrite build_layout_eq. unfold layout_body.
  assert (LI : layout_id l = None).
  { destruct (header_of l) as [h|] eqn:Hh; [|now destruct l]. specialize (HI l h (inside_self l) Hh).
    destruct l; cbn in *; congruence. }
  rewrite LI.
  assert (PRE : harmless (layout_pre term_context (build_layout term_context) l sc)).
  { apply (c_pre term_context (@harmless)).
    - intros A a s F. cbn. repeat split; auto. discriminate.
    - intros A o Ho s F. cbn. repeat split; auto.
    - intros. now apply h_bind.
    - intros i s F. cbn. destruct s. repeat split; auto. discriminate.
    - intros i s F. cbn. destruct s. repeat split; auto. discriminate.
    - intros l' sc' N. apply IH; [exact N|]. intros l1 h I. apply HI. now apply (inside_nested l l'). }
  intros [n b] F.
  assert (AN : anonymous_resource term_context (n, b) = (Ok (TmBlank (nat_string n)), (S n, b))) by reflexivity.
  assert (F1 : no_future (S n, b)).
  { intros m Hm. apply F. cbn [fst] in *. lia. }
  unfold bindM. rewrite AN. destruct (PRE (S n, b) F1) as (L & F2 & G & E).
  destruct (layout_pre term_context (build_layout term_context) l sc (S n, b)) as [o [n2 b2]].
  cbn [fst snd] in *. destruct o as [pre|e|w|]; cbn [fst snd].
  2-4: (split; [lia|]; split; [exact F2|]; split; [|congruence]; intros r Hr; apply G; intros m Hm; apply Hr; lia).
  unfold insert_layout. cbn [fst snd].
  assert (FR : bt_get (TmBlank (nat_string n)) b2 = None).
  { rewrite G; [apply F; cbn [fst]; lia|]. intros m Hm [= K]. apply nat_string_inj in K. lia. }
  rewrite FR. cbn [ret fst snd]. split; [lia|]. split; [|split; [|discriminate]].
  - intros m Hm. cbn [fst snd] in *. rewrite bt_insert_get.
    destruct (eqb_spec (TmBlank (nat_string m)) (TmBlank (nat_string n))) as [K|K].
    + injection K as K. apply nat_string_inj in K. lia.
    + now apply F2.
  - intros r Hr. rewrite bt_insert_get. destruct (eqb_spec r (TmBlank (nat_string n))) as [K|K].
    + now destruct (Hr n).
    + apply G. intros m Hm. apply Hr. lia.
Qed.

Theorem C55_anonymous_partial l n b :
  (forall l' h, inside l l' -> header_of l' = Some h -> ah_id h = None) ->
  (forall m, n <= m -> bt_get (TmBlank (nat_string m)) b = None) ->
  forall o n' b', build_with_context term_context l (n, b) = (o, (n', b')) ->
  o <> Err LayoutRedefinition /\
  (forall r p, bt_get r b = Some p -> bt_get r b' = Some p) /\
  (forall m, n' <= m -> bt_get (TmBlank (nat_string m)) b' = None).
Proof.
  intros HI F o n' b' H. destruct (h_layout l HI scope_default (n, b) F) as (_ & F' & G & E).
  unfold build_with_context in H. rewrite H in *. cbn [fst snd] in *. split; [exact E|]. split; [|exact F'].
  intros r p Hr. rewrite G; [exact Hr|]. intros m Hm ->. cbn [fst] in Hm. rewrite F in Hr by exact Hm. discriminate.
Qed.
End Terms.
