(** * The extra properties of layouts: proofs *)

From Coq Require Import String Ascii List Bool Arith NArith ZArith Lia.
Import ListNotations.
From Verif Require Import Base BaseProofs Orders PatternModel ValueModel LayoutModel LayoutSpec MatchingSpec HydrateModel
  TermModel DehydrateModel AbsModel AbsSpec AbsProofs AbsProperties AbsMeaning AbsRedefine CborModel ExtraModel ExtraSpec.
Open Scope list_scope.
Open Scope nat_scope.

Section Erasure.
Context {IS : IriSyntax} {AE : AbsExternal} {St R : Type} {CR : Cmp R} (ctx : context St R).
Notation kept := (kept ctx).
Notation MX := (@M (St * @extras R) R).

(** [sim m mx]: [mx] does as [m], and maybe changes the properties. *)
Definition sim {A} (m : @M St R A) (mx : MX A) : Prop := forall st ex b, exists ex',
  mx ((st, ex), b) = (fst (m (st, b)), ((fst (snd (m (st, b))), ex'), snd (snd (m (st, b))))).

Lemma sim_ret {A} (a : A) : sim (ret a) (ret a).
Proof. intros st ex b. now exists ex. Qed.
Lemma sim_lift {A} (o : outcome build_error A) : sim (lift o) (lift o).
Proof. intros st ex b. now exists ex. Qed.
Lemma sim_bind {A B} (m : @M St R A) (mx : MX A) (k : A -> @M St R B) (kx : A -> MX B) :
  sim m mx -> (forall a, sim (k a) (kx a)) -> sim (bindM m k) (bindM mx kx).
Proof.
  intros H K st ex b. destruct (H st ex b) as [ex1 E]. unfold bindM. rewrite E.
  destruct (m (st, b)) as [o [st1 b1]]. cbn [fst snd]. destruct o as [a|e|w|]; try (now exists ex1). apply K.
Qed.
Lemma sim_iri i : sim (iri_resource ctx i) (iri_resource kept i).
Proof. intros st ex b. unfold iri_resource, kept. cbn [c_iri fst snd]. destruct (c_iri ctx i st). now exists ex. Qed.
Lemma sim_literal l : sim (literal_resource ctx l) (literal_resource kept l).
Proof. intros st ex b. unfold literal_resource, kept. cbn [c_literal fst snd]. destruct (c_literal ctx l st). now exists ex. Qed.
Lemma sim_anonymous : sim (anonymous_resource ctx) (anonymous_resource kept).
Proof. intros st ex b. unfold anonymous_resource, kept. cbn [c_anonymous fst snd]. destruct (c_anonymous ctx st). now exists ex. Qed.
Lemma sim_insert id p : sim (insert_layout id p) (insert_layout id p).
Proof. intros st ex b. now exists ex. Qed.
Lemma sim_mapS {A B} (f : A -> @M St R B) (fx : A -> MX B) l : (forall a, In a l -> sim (f a) (fx a)) -> sim (mapS f l) (mapS fx l).
Proof.
  induction l as [|a l IH]; intros H; cbn [mapS]; [apply sim_ret|]. apply sim_bind; [apply H; now left|]. intros c.
  apply sim_bind; [apply IH; intros; apply H; now right|]. intros cs. apply sim_ret.
Qed.
Lemma sim_option {A B} (f : A -> @M St R B) (fx : A -> MX B) o : (forall a, sim (f a) (fx a)) -> sim (build_option f o) (build_option fx o).
Proof. intros H. destruct o; cbn [build_option]; [|apply sim_ret]. apply sim_bind; [apply H|]. intros. apply sim_ret. Qed.

Ltac sims := repeat first
  [ apply sim_bind; [|intros ?] | apply sim_ret | apply sim_lift | apply sim_iri | apply sim_literal | apply sim_anonymous
  | apply sim_insert | apply sim_mapS; intros ? ? | apply sim_option; intros ? ].

Lemma sim_build_iri i sc : sim (build_iri ctx i sc) (build_iri kept i sc).
Proof. unfold build_iri. sims. Qed.
Lemma sim_pattern p sc : sim (build_pattern ctx p sc) (build_pattern kept p sc).
Proof. destruct p; cbn [build_pattern]; sims. Qed.
Lemma sim_dataset sc ds : sim (build_dataset ctx sc ds) (build_dataset kept sc ds).
Proof. unfold build_dataset, build_quad. sims; apply sim_pattern. Qed.
Lemma sim_resource r sc : sim (build_resource ctx r sc) (build_resource kept r sc).
Proof. destruct r; cbn [build_resource]; sims. Qed.
Lemma sim_extra ex sc : sim (build_extra ctx ex sc) (build_extra kept ex sc).
Proof. unfold build_extra. sims; first [apply sim_build_iri|apply sim_resource]. Qed.
Lemma sim_header h sc : sim (build_header ctx h sc) (build_header kept h sc).
Proof.
  unfold build_header. apply sim_bind; [apply sim_lift|]. intros sc'. apply sim_bind; [apply sim_dataset|]. intros ds.
  apply sim_bind; [apply sim_extra|]. intros. apply sim_ret.
Qed.
Lemma sim_literal_resource i r sc : sim (build_literal_resource ctx i r sc) (build_literal_resource kept i r sc).
Proof. destruct r; cbn [build_literal_resource]; [apply sim_pattern|]. destruct i; sims. Qed.
Lemma sim_build_literal k h r sc : sim (build_literal ctx k h r sc) (build_literal kept k h r sc).
Proof.
  unfold build_literal. apply sim_bind; [apply sim_header|]. intros [hd sc']. apply sim_bind; [apply sim_literal_resource|].
  intros res. destruct k as [[dt|]|dt|dt|pat [dt|]|pat]; sims; apply sim_build_iri.
Qed.
Lemma sim_default h r f : sim (default_list_dataset ctx h r f) (default_list_dataset kept h r f).
Proof. unfold default_list_dataset. sims. Qed.

Section Nested.
Context (build : alayout -> scope -> @M St R R) (buildx : alayout -> scope -> MX R).
Notation simn l := (forall sc, sim (build l sc) (buildx l sc)).

Lemma sim_ref r sc : (forall l, nested_ref r l -> simn l) -> sim (build_ref ctx build r sc) (build_ref kept buildx r sc).
Proof. intros H. destruct r; cbn [build_ref]; [apply sim_build_iri|now apply H]. Qed.
Lemma sim_format d f sc : (forall l, nested_format f l -> simn l) -> sim (build_format ctx build d f sc) (build_format kept buildx d f sc).
Proof.
  intros H. destruct f as [r i g|r]; cbn [build_format nested_format] in *; sims; try apply sim_pattern; now apply sim_ref.
Qed.
Lemma sim_item n c it sc : (forall l, nested_format (ai_value it) l -> simn l) ->
  sim (build_item ctx build n c it sc) (build_item kept buildx n c it sc).
Proof.
  intros H. unfold build_item. apply sim_bind; [apply sim_dataset|]. intros ds.
  apply sim_bind; [|intros ds'; apply sim_bind; [|intros; apply sim_ret]].
  - unfold build_property. destruct (ai_property it); [|sims]. destruct (Nat.eqb n 0); [sims|].
    destruct (ai_intro it); sims. apply sim_pattern.
  - now apply sim_format.
Qed.
Lemma sim_variant sc nv : (forall l, nested_format (av_value (snd nv)) l -> simn l) ->
  sim (build_variant ctx build sc nv) (build_variant kept buildx sc nv).
Proof.
  destruct nv as [n [i v ds]]. cbn [snd av_value build_variant]. intros H. apply sim_bind; [now apply sim_format|]. intros vf. apply sim_bind; [apply sim_dataset|]. intros. apply sim_ret.
Qed.
Lemma sim_node n sc : (forall l, nested_node n l -> simn l) -> sim (build_node ctx build n sc) (build_node kept buildx n sc).
Proof.
  intros H. destruct n as [hd rs intro f ds|r]; cbn [build_node nested_node] in *.
  - apply sim_bind; [now apply sim_format|]. intros vf. apply sim_bind; [|intros; apply sim_ret].
    destruct ds as [ds|]; [apply sim_dataset|]. destruct f as [r [|p [|p' ps]] g|r]; sims; try apply sim_pattern; apply sim_default.
  - apply sim_bind; [now apply sim_ref|]. intros r'. apply sim_bind; [apply sim_default|]. intros. apply sim_ret.
Qed.
Lemma sim_pre l sc : (forall l', nested l l' -> simn l') -> sim (layout_pre ctx build l sc) (layout_pre kept buildx l sc).
Proof.
  intros H. destruct l as [h c|k h res|h fs|h vs|h n hd tl|h it|h its|b|h|h]; cbn [layout_pre];
    try (apply sim_build_literal); try (apply sim_bind; [apply sim_header|]; intros [hd' sc']).
  - sims.
  - apply sim_bind; [|intros; apply sim_ret]. apply sim_mapS. intros [k [it req]] I. cbn [build_field].
    apply sim_bind; [|intros; apply sim_ret]. apply sim_item. intros l N. apply H. now apply (N_field h fs k (AField it req)).
  - apply sim_bind; [|intros; apply sim_ret]. apply sim_mapS. intros [n v] I. apply sim_variant. intros l N. apply H.
    now apply (N_variant h vs n v).
  - apply sim_bind; [apply sim_node|].
    { intros l N. apply H. destruct n; [now apply N_node|now apply N_node_layout]. }
    intros n'. sims; apply sim_pattern.
  - apply sim_bind; [|intros; apply sim_ret]. apply sim_item. intros l N. apply H. now apply N_item.
  - apply sim_bind; [|intros; apply sim_ret]. apply sim_mapS. intros it I. apply sim_item. intros l N. apply H.
    now apply (N_tuple h its it).
  - destruct b; sims.
  - sims.
  - sims.
Qed.
End Nested.

Lemma layout_extra_eq l sc : build_layout_extra ctx l sc = layout_body_extra ctx (build_layout_extra ctx) l sc.
Proof. destruct l; reflexivity. Qed.

Lemma properties_quiet l sc s : exists m, layout_properties ctx l sc s = (Ok m, s).
Proof. destruct l; cbn [layout_properties]; unfold ret; try (destruct (fst (header_properties ctx _ sc s)); eauto; fail); eauto. Qed.

(** The new compilation gives the same result, and the same builder. *)
Lemma erasure l : forall sc, sim (build_layout ctx l sc) (build_layout_extra ctx l sc).
Proof.
  induction l as [l IH] using layout_ind. intros sc. rewrite build_layout_eq, layout_extra_eq. unfold layout_body, layout_body_extra.
  apply sim_bind; [destruct (layout_id l); sims|]. intros id.
  enough (X : forall m, sim
    (bindM (layout_pre ctx (build_layout ctx) l sc) (fun pre => bindM (insert_layout id pre)
       (fun old => match snd old with Some _ => lift (Err LayoutRedefinition) | None => ret (fst old) end)))
    (bindM (layout_pre kept (build_layout_extra ctx) l sc) (fun pre => bindM (insert_properties id m) (fun _ => bindM (insert_layout id pre)
       (fun old => match snd old with Some _ => lift (Err LayoutRedefinition) | None => ret (fst old) end))))).
  { intros st ex b. destruct (properties_quiet l sc (st, ex, b)) as [m E]. destruct (X m st ex b) as [ex' H]. exists ex'.
    rewrite <- H. unfold bindM at 1. now rewrite E. }
  intros m. apply sim_bind; [now apply sim_pre|]. intros pre st ex b. unfold bindM, insert_properties, insert_layout. cbn [fst snd].
  exists (bt_insert id m ex). now destruct (bt_get id b).
Qed.
End Erasure.

(** ** Maps *)
Lemma last_entry_spec {A B} {CA : Cmp A} {LA : CmpLaws A} (l : list (A * B)) p v :
  bt_get p (bt_collect l) = Some v <-> last_entry l p v.
Proof.
  induction l as [|[q w] l IH] using rev_ind.
  - cbn. split; [discriminate|]. intros ([|? ?] & after & H & _); discriminate.
  - unfold bt_collect in *. rewrite fold_left_app. cbn [fold_left fst snd].
    pose proof (bt_collect_wf l) as W. unfold bt_collect in W. rewrite bt_insert_get by exact W.
    destruct (eqb_spec p q) as [->|N].
    + split.
      * intros [= ->]. exists l, []. split; [reflexivity|]. intros w' [].
      * intros (before & after & E & NI). destruct after as [|e after _] using rev_ind.
        -- apply app_inj_tail in E as [_ E]. congruence.
        -- rewrite app_comm_cons, app_assoc in E. apply app_inj_tail in E as [_ E]. exfalso. apply (NI w). rewrite E. apply in_app_iff. right. now left.
    + rewrite IH. split.
      * intros (before & after & -> & NI). exists before, (after ++ [(q, w)]). split; [now rewrite <- app_assoc|].
        intros w' I. apply in_app_iff in I as [I|[[= -> _]|[]]]; [now apply (NI w')|now apply N].
      * intros (before & after & E & NI). destruct after as [|e after _] using rev_ind.
        -- apply app_inj_tail in E as [_ E]. congruence.
        -- rewrite app_comm_cons, app_assoc in E. apply app_inj_tail in E as [-> _]. exists before, after. split; [reflexivity|].
           intros w' I. apply (NI w'). apply in_app_iff. now left.
Qed.

Section Described.
Context {IS : IriSyntax} {AE : AbsExternal} {St R : Type} {CR : Cmp R} {CL : CmpLaws R} (ctx : context St R).
Notation kept := (kept ctx).
Notation MX := (@M (St * @extras R) R).
Notation bx := (@builder R * @extras R)%type.

Lemma described_eq ri rl defs props env l r : described ri rl defs props env l r <->
  (forall h i, header_of l = Some h -> ah_id h = Some i -> iri_resource_denotes ri env i r) /\
  (exists m, props r = Some m /\ layout_properties_mean ri rl env l m) /\
  exists p, defs r = Some p /\ layout_denotes ri rl (described ri rl defs props) env l p.
Proof. destruct l; reflexivity. Qed.

Lemma described_mono ri rl (defs defs' : R -> option (prelayout R)) (props props' : R -> option (list (R * R))) l :
  (forall r p, defs r = Some p -> defs' r = Some p) -> (forall r m, props r = Some m -> props' r = Some m) ->
  forall env r, described ri rl defs props env l r -> described ri rl defs' props' env l r.
Proof.
  intros HD HP. induction l as [l IH] using layout_ind. intros env r. rewrite !described_eq.
  intros (A & (m & B1 & B2) & p & C1 & C2). split; [exact A|]. split; [exists m; auto|]. exists p. split; [auto|].
  revert C2. apply layout_denotes_mono. intros env' l' r' N. now apply IH.
Qed.

(** A described layout is compiled. *)
Lemma described_compiled ri rl defs props l : forall env r, described ri rl defs props env l r -> compiled ri rl defs env l r.
Proof.
  induction l as [l IH] using layout_ind. intros env r. rewrite described_eq, compiled_eq. intros (A & _ & p & C1 & C2).
  split; [exact A|]. exists p. split; [exact C1|]. revert C2. apply layout_denotes_mono. intros env' l' r' N. now apply IH.
Qed.

Definition viewx (s : @bstate (St * @extras R) R) : bx := (snd s, snd (fst s)).
Definition laterx (v v' : bx) : Prop :=
  ext (fst v) (fst v') /\ forall r m, bt_get r (snd v) = Some m -> bt_get r (snd v') = Some m.
Definition validx (v : bx) : Prop :=
  bt_wf (fst v) /\ bt_wf (snd v) /\ forall r, bt_get r (fst v) = None -> bt_get r (snd v) = None.
Context (New : bx -> R -> Prop) (New_mono : forall v v' r, laterx v v' -> New v r -> New v' r).
Definition growsx (v v' : bx) : Prop :=
  laterx v v' /\ forall r p, bt_get r (fst v') = Some p -> bt_get r (fst v) = Some p \/ New v' r.

Lemma growsx_refl v : growsx v v.
Proof. split; [split; now intros r p|]. intros r p H. now left. Qed.
Lemma growsx_trans u v w : growsx u v -> growsx v w -> growsx u w.
Proof.
  intros [[X Y] N] [[X' Y'] N']. split; [split; [intros r p H; now apply X', X|intros r m H; now apply Y', Y]|]. intros r p H.
  apply N' in H as [H|H]; [|now right]. apply N in H as [H|H]; [now left|right]. apply (New_mono v); [now split|exact H].
Qed.

Definition extra_logic : logic kept.
Proof.
  refine (Logic kept bx viewx validx laterx growsx growsx_refl growsx_trans (fun u v H => proj1 H) _ _ _).
  - intros i [st ex] b. unfold viewx, ExtraModel.kept. cbn [c_iri fst snd]. now destruct (c_iri ctx i st).
  - intros l [st ex] b. unfold viewx, ExtraModel.kept. cbn [c_literal fst snd]. now destruct (c_literal ctx l st).
  - intros [st ex] b. unfold viewx, ExtraModel.kept. cbn [c_anonymous fst snd]. now destruct (c_anonymous ctx st).
Defined.
Notation yieldsx := (yields kept extra_logic).

(** The resources of the two contexts are the same. *)
Lemma kept_iri i r : ctx_iri kept i r <-> ctx_iri ctx i r.
Proof.
  unfold ctx_iri, ExtraModel.kept. cbn [c_iri]. split.
  - intros [[st ex] H]. exists st. cbn [fst snd] in H. now destruct (c_iri ctx i st).
  - intros [st H]. exists (st, []). cbn [fst snd]. now destruct (c_iri ctx i st).
Qed.
Lemma kept_lit i r : ctx_lit kept i r <-> ctx_lit ctx i r.
Proof.
  unfold ctx_lit, ExtraModel.kept. cbn [c_literal]. split.
  - intros [[st ex] H]. exists st. cbn [fst snd] in H. now destruct (c_literal ctx i st).
  - intros [st H]. exists (st, []). cbn [fst snd]. now destruct (c_literal ctx i st).
Qed.

Lemma y_properties ex sc :
  yieldsx (build_properties ctx ex sc) (fun _ m => properties_mean (ctx_iri kept) (ctx_lit kept) (env_of sc) ex m).
Proof.
  unfold build_properties. eapply y_bind'.
  - apply (y_mapS kept extra_logic _ (fun _ e e' => entry_means (ctx_iri kept) (ctx_lit kept) (env_of sc) e e')); [auto|].
    intros [p v] _. cbn [fst snd]. eapply y_bind'; [apply y_build_iri|]. intros p' Hp.
    apply (y_bind' _ _ _ _ (fun r => exists l, written_literal (env_of sc) v l /\ ctx_lit kept l r)).
    { destruct v as [b|z|s|s ty]; cbn [build_resource written_literal];
        try (eapply y_weaken; [apply y_literal|]; intros ? r H; eexists; split; [reflexivity|exact H]).
      eapply y_bind'; [apply y_resolve|]. intros ty' Hty. eapply y_weaken; [apply y_literal|]. intros ? r H.
      exists (RdfLiteral s (TypeAny ty')). split; [now exists ty'|exact H]. }
    intros v' Hv. apply y_ret. intros _. now split.
  - intros l F. apply y_ret. intros _. exists l. split; [exact F|]. intros p v. apply last_entry_spec.
Qed.

Lemma y_layout_properties l sc : sees sc [] ->
  forall s p s', (exists build, layout_pre kept build l sc s = (Ok p, s')) -> validx (viewx s) ->
  exists m, layout_properties ctx l sc s = (Ok m, s) /\ layout_properties_mean (ctx_iri kept) (ctx_lit kept) (env_of sc) l m.
Proof.
  intros S s p s' [build H] W.
  assert (HH : forall h, (exists a s1, build_header kept h sc s = (Ok a, s1)) ->
    exists m, header_properties ctx h sc s = (Ok m, snd (header_properties ctx h sc s)) /\
      exists env', header_env (env_of sc) h env' /\ properties_mean (ctx_iri kept) (ctx_lit kept) env' (ah_extra h) m).
  { clear H p s'. intros h (a & s1 & H).
    assert (Y : yieldsx (header_properties ctx h sc) (fun _ m => exists env', header_env (env_of sc) h env' /\
       properties_mean (ctx_iri kept) (ctx_lit kept) env' (ah_extra h) m)).
    { unfold header_properties.
      apply (y_bind' _ _ _ _ (fun sc' => header_env (env_of sc) h (env_of sc') /\ sees sc' (header_names h))).
      { apply y_lift. intros _ sc' E. split; [now apply header_denotes_env|]. exact (sees_header h sc sc' [] S E). }
      intros sc' [HE S']. eapply y_bind'; [apply (y_dataset _ _ _ sc' _ S')|]. intros ds _.
      eapply y_weaken; [apply y_properties|]. intros ? m Hm. now exists (env_of sc'). }
    enough (E : exists m s2, header_properties ctx h sc s = (Ok m, s2)).
    { destruct E as (m & s2 & E). destruct (Y s m s2 E W) as (_ & _ & Q). exists m. rewrite E. now split. }
    clear Y. unfold build_header, header_properties, build_extra, build_properties, bindM in *.
    destruct (lift (with_header h sc) s) as [[sc'|e|w|] s2]; try discriminate.
    destruct (build_dataset kept sc' (ah_dataset h) s2) as [[ds|e|w|] s3]; try discriminate.
    match type of H with context [mapS ?f ?l s3] => destruct (mapS f l s3) as [[es|e|w|] s4] end; try discriminate.
    exists (bt_collect es), s4. reflexivity. }
  unfold layout_properties_mean. 
  destruct l as [h c|k h res|h fs|h vs|h n hd tl|h it|h its|b|h|h]; cbn [layout_properties header_of]; try (now exists []);
    try discriminate H;
    (assert (HB : exists a s1, build_header kept h sc s = (Ok a, s1));
      [ first [ unfold layout_pre, build_literal, bindM in H | idtac ];
        destruct (build_header kept h sc s) as [[a|e|w|] s1]; try discriminate H; eauto
      | destruct (HH h HB) as (m & E & M); exists m; rewrite E; cbn [fst]; now split ]).
Qed.

Notation meaning v := (described (ctx_iri kept) (ctx_lit kept) (fun r => bt_get r (fst v)) (fun r => bt_get r (snd v))).

Lemma y_body l sc :
  sees sc [] -> (forall l', nested l l' -> y_nested kept extra_logic (build_layout_extra ctx) (fun v env l r => meaning v env l r) l') ->
  (forall v r, meaning v (env_of sc) l r -> New v r) ->
  yieldsx (layout_body_extra ctx (build_layout_extra ctx) l sc) (fun v r => meaning v (env_of sc) l r).
Proof.
  intros S HN HNew. unfold layout_body_extra.
  assert (MONO : forall v v' env l r, laterx v v' -> meaning v env l r -> meaning v' env l r).
  { intros v v' env l' r [X Y]. apply described_mono; assumption. }
  eapply y_bind'; [apply (y_identifier kept extra_logic l sc)|]. intros id Hid s r s' E W.
  cbn [extra_logic view valid grows] in W |- *. unfold bindM at 1 in E.
  destruct (properties_quiet ctx l sc s) as [m0 E0]. rewrite E0 in E. unfold bindM in E.
  destruct (layout_pre kept (build_layout_extra ctx) l sc s) as [o s1] eqn:P.
  destruct o as [p|e|w|]; try discriminate.
  destruct (y_layout_properties l sc S s p s1 (ex_intro _ _ P) W) as (m & E1 & M). rewrite E0 in E1. injection E1 as <-.
  destruct (y_pre kept extra_logic (build_layout_extra ctx) (fun v env l r => meaning v env l r) MONO l sc S HN s p s1 P W) as (W1 & X1 & Q1).
  cbn [extra_logic view valid grows] in W1, X1, Q1.
  unfold insert_properties, insert_layout in E. cbn [fst snd] in E.
  destruct s1 as [[st1 ex1] b1]. unfold viewx in W1, X1, Q1. cbn [fst snd] in *.
  destruct W1 as (Wb & We & Wd). cbn [fst snd] in Wb, We, Wd.
  destruct (bt_get id b1) eqn:G; [discriminate|]. injection E as <- <-. unfold viewx. cbn [fst snd].
  assert (X2 : laterx (b1, ex1) (bt_insert id p b1, bt_insert id m0 ex1)).
  { split; cbn [fst snd]; intros r q Hr; rewrite bt_insert_get by assumption; destruct (eqb_spec r id) as [->|N];
      try assumption; [congruence|]. rewrite (Wd id G) in Hr. discriminate. }
  assert (K : meaning (bt_insert id p b1, bt_insert id m0 ex1) (env_of sc) l id).
  { apply described_eq. split; [exact Hid|]. cbn [fst snd]. rewrite !bt_insert_get by assumption.
    destruct (eqb_spec id id) as [_|N]; [|now destruct N]. split; [now exists m0|]. exists p. split; [reflexivity|].
    revert Q1. apply layout_denotes_mono. intros env' l' r' _. apply (MONO (b1, ex1) (bt_insert id p b1, bt_insert id m0 ex1) env' l' r' X2). }
  split; [|split; [|exact K]].
  - split; [now apply bt_insert_wf|]. split; [now apply bt_insert_wf|]. cbn [fst snd]. intros r.
    rewrite !bt_insert_get by assumption. destruct (eqb_spec r id); [discriminate|apply Wd].
  - apply (growsx_trans _ (b1, ex1)); [exact X1|]. split; [exact X2|]. cbn [fst snd]. intros r q Hr.
    rewrite bt_insert_get in Hr by assumption. destruct (eqb_spec r id) as [->|N]; [right; now apply HNew|now left].
Qed.
End Described.

(** ** The meaning, with more resources *)
Section Resources.
Context {IS : IriSyntax} {AE : AbsExternal} {R : Type} {CR : Cmp R}
  (ri ri' : string -> R -> Prop) (rl rl' : rdf_literal -> R -> Prop)
  (HI : forall i r, ri i r -> ri' i r) (HL : forall l r, rl l r -> rl' l r).

Lemma iri_resource_res env i r : iri_resource_denotes ri env i r -> iri_resource_denotes ri' env i r.
Proof. intros (i' & A & B). exists i'. auto. Qed.
Lemma pat_res env ns p p' : pat_denotes ri rl env ns p p' -> pat_denotes ri' rl' env ns p p'.
Proof.
  destruct p as [n|i|v ty]; cbn [pat_denotes]; [auto| |].
  - intros (i' & r & A & B & C). exists i', r. auto.
  - intros (ty' & r & A & B & C). exists ty', r. auto.
Qed.
Lemma quad_res env ns q q' : quad_denotes ri rl env ns q q' -> quad_denotes ri' rl' env ns q q'.
Proof.
  intros (A & B & C & D). split; [now apply pat_res|]. split; [now apply pat_res|]. split; [now apply pat_res|].
  destruct (q_g q), (q_g q'); auto. now apply pat_res.
Qed.
Lemma dataset_res env ns ds ex ds' : dataset_denotes ri rl env ns ds ex ds' -> dataset_denotes ri' rl' env ns ds ex ds'.
Proof.
  intros (A & B & C & D). split; [exact A|]. split; [|split; [exact C|]].
  - intros q I. destruct (B q I) as (q' & I' & Q). exists q'. split; [exact I'|now apply quad_res].
  - intros q' I. destruct (D q' I) as [I'|(q & I' & Q)]; [now left|right]. exists q. split; [exact I'|now apply quad_res].
Qed.
Lemma header_res env h env' h' : header_denotes ri rl env h env' h' -> header_denotes ri' rl' env h env' h'.
Proof. intros (A & B & C & D). split; [exact A|]. split; [exact B|]. split; [exact C|now apply dataset_res]. Qed.
Lemma datatype_res env dt d r : datatype_denotes ri env dt d r -> datatype_denotes ri' env dt d r.
Proof. destruct dt; cbn [datatype_denotes]; [apply iri_resource_res|apply HI]. Qed.
Lemma literal_res env k hd res p : literal_denotes ri env k hd res p -> literal_denotes ri' env k hd res p.
Proof.
  destruct k; cbn [literal_denotes]; [| | | |auto]; intros (r & A & B); exists r; (split; [|exact B]);
    (now apply datatype_res) || (now apply iri_resource_res).
Qed.
Lemma ref_res D env r r' : ref_denotes ri D env r r' -> ref_denotes ri' D env r r'.
Proof. destruct r; cbn [ref_denotes]; [apply iri_resource_res|auto]. Qed.
Lemma format_res D env ns d f f' : format_denotes ri rl D env ns d f f' -> format_denotes ri' rl' D env ns d f f'.
Proof.
  destruct f as [r input graph|r]; cbn [format_denotes]; intros (A & B & C); (split; [now apply ref_res|]); [|now split].
  split; [revert B; apply Forall2_impl, pat_res|]. destruct graph as [[g|]|], (vf_graph f') as [[g'|]|]; auto. now apply pat_res.
Qed.
Lemma item_res D env n ns it it' : item_denotes ri rl D env n ns it it' -> item_denotes ri' rl' D env n ns it it'.
Proof.
  intros (A & B & ex & C & E). split; [exact A|]. split; [now apply format_res|]. exists ex. split; [|now apply dataset_res].
  unfold property_denotes in *. destruct (ai_property it) as [p|]; [|exact C]. destruct C as (C1 & C2 & p' & C3 & C4).
  split; [exact C1|]. split; [exact C2|]. exists p'. split; [now apply pat_res|exact C4].
Qed.
Lemma variant_res D env ns v v' : variant_denotes ri rl D env ns v v' -> variant_denotes ri' rl' D env ns v v'.
Proof.
  destruct v as [n v]. intros (A & B & C & E). split; [exact A|]. split; [exact B|]. split; [now apply format_res|now apply dataset_res].
Qed.
Lemma list_quads_res hd first ds : list_quads ri hd first ds -> list_quads ri' hd first ds.
Proof. intros (A & f & r & B & C & D). split; [exact A|]. exists f, r. auto. Qed.
Lemma node_res D env ns n n' : node_denotes ri rl D env ns n n' -> node_denotes ri' rl' D env ns n n'.
Proof.
  destruct n as [hd rs intro f ds|r]; cbn [node_denotes].
  - intros (A & B & C). split; [exact A|]. split; [now apply format_res|]. destruct ds as [ds|]; [now apply dataset_res|].
    destruct f as [r [|p [|? ?]] g|r]; auto.
    + destruct C as (first & C1 & C2). exists first. split; [now apply pat_res|now apply list_quads_res].
    + destruct C as (x & C1 & C2). exists x. split; [exact C1|now apply list_quads_res].
  - intros (A & B & C & E & F). split; [exact A|]. split; [now apply ref_res|]. split; [exact C|]. split; [exact E|now apply list_quads_res].
Qed.
Lemma layout_res D env l p : layout_denotes ri rl D env l p -> layout_denotes ri' rl' D env l p.
Proof.
  destruct l as [h c|k h res|h fs|h vs|h n hd tl|h it|h its|b|h|h]; cbn [layout_denotes]; auto.
  - intros (env' & h' & A & B). exists env', h'. split; [now apply header_res|exact B].
  - intros (env' & h' & res' & A & B & C). exists env', h', res'. split; [now apply header_res|]. split; [|now apply literal_res].
    destruct res; cbn [resource_denotes] in *; [now apply pat_res|exact B].
  - intros (env' & h' & fs' & A & B & C). exists env', h', fs'. split; [now apply header_res|]. split; [|exact C].
    revert B. apply all2_mono. intros [k f] f' I (K1 & K2 & K3). split; [exact K1|]. split; [exact K2|now apply item_res].
  - intros (env' & h' & vs' & A & B & C). exists env', h', vs'. split; [now apply header_res|]. split; [|exact C].
    revert B. apply all2_mono. intros v v' I. apply variant_res.
  - intros (env' & h' & n' & hd' & tl' & A & B & C1 & C2 & C3). exists env', h', n', hd', tl'. split; [now apply header_res|].
    split; [now apply node_res|]. split; [now apply pat_res|]. split; [now apply pat_res|exact C3].
  - intros (env' & h' & it' & A & B & C). exists env', h', it'. split; [now apply header_res|]. split; [now apply item_res|exact C].
  - intros (env' & h' & its' & A & B & C). exists env', h', its'. split; [now apply header_res|]. split; [|exact C].
    revert B. apply all2_mono. intros it it' I. apply item_res.
Qed.

Lemma described_res defs props l : forall env r, described ri rl defs props env l r -> described ri' rl' defs props env l r.
Proof.
  induction l as [l IH] using layout_ind. intros env r. rewrite !described_eq.
  intros (A & (m & B1 & B2) & p & C1 & C2).
  split; [intros h i H1 H2; apply iri_resource_res; now apply (A h i)|]. split.
  - exists m. split; [exact B1|]. revert B2. unfold layout_properties_mean. destruct (header_of l) as [h|]; [|auto].
    intros (env' & HE & es & F & L). exists env'. split; [exact HE|]. exists es. split; [|exact L]. revert F. apply Forall2_impl.
    intros e e' (E1 & li & E2 & E3). split; [now apply iri_resource_res|]. exists li. auto.
  - exists p. split; [exact C1|]. apply layout_res. revert C2. apply layout_denotes_mono. intros env' l' r' N. now apply IH.
Qed.
End Resources.

Section Documents.
Context {IS : IriSyntax} {AE : AbsExternal} {St R : Type} {CR : Cmp R} {CL : CmpLaws R} (ctx : context St R).
Notation meaning v := (described (ctx_iri (kept ctx)) (ctx_lit (kept ctx)) (fun r => bt_get r (fst v)) (fun r => bt_get r (snd v))).

Lemma document_described l0 : exists NM,
  yields (kept ctx) (extra_logic ctx (fun v r => exists l env, inside l0 l /\ meaning v env l r) NM)
    (build_with_extra ctx l0) (fun v r => meaning v no_env l0 r).
Proof.
  match goal with |- context [extra_logic _ ?n] => set (New := n) end.
  assert (NM : forall v v' r, laterx v v' -> New v r -> New v' r).
  { intros v v' r [X Y] (l & env & I & K). exists l, env. split; [exact I|]. revert K. now apply described_mono. }
  exists NM.
  assert (K : forall l, inside l0 l -> forall sc, sees sc [] ->
     yields (kept ctx) (extra_logic ctx New NM) (build_layout_extra ctx l sc) (fun v r => meaning v (env_of sc) l r)).
  { intros l. induction l as [l IH] using layout_ind. intros I sc S. rewrite layout_extra_eq.
    apply y_body; [exact S| |].
    - intros l' N sc' S'. apply IH; [exact N|now apply (nested_inside l0 l)|exact S'].
    - intros v r H. now exists l, (env_of sc). }
  exact (K l0 (inside_self l0) scope_default sees_default).
Qed.
End Documents.
