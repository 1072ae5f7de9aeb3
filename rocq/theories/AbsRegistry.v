(** * The registry of a builder (C76) *)

From Coq Require Import String Ascii List Bool Arith NArith Lia.
Import ListNotations.
From Verif Require Import Base BaseProofs Orders PatternModel ValueModel LayoutModel LayoutSpec
  MatchingSpec HydrateModel HydrateSpec TermModel DehydrateModel DehydrateSpec DehydrateProperties
  CharModel CharSpec AutomatonModel AutomatonSpec RegexpModel RegexpSpec RegexpCompile RegexpBuild RegexpProperties
  AbsModel AbsSpec AbsProofs AbsProperties AbsMeaning.
Open Scope list_scope.
Open Scope nat_scope.

(** ** Specification *)

(** The words accepted by the automaton of a layout. *)
Inductive reads (d : det_automaton nat) : nat -> list N -> nat -> Prop :=
| reads_nil q : reads d q [] q
| reads_cons q row lo hi c q' w q'' :
    In (q, row) (da_transitions d) -> In ((lo, hi), q') row -> (lo <= c <= hi)%N ->
    reads d q' w q'' -> reads d q (c :: w) q''.
Definition recognizes (d : det_automaton nat) (w : list N) : Prop :=
  exists q, In q (da_final d) /\ reads d (da_initial d) w q.

(** The compiled form of an optional regular expression.  Missing from this specification: the
    automata of the expressions that are not [compilable], see C32. *)
Definition compiled_pattern (pat : option regexp) (pat' : option (det_automaton nat)) : Prop :=
  match pat, pat' with
  | None, None => True
  | Some e, Some d => sets_good e -> compilable e = true ->
      forall w, chars w -> (recognizes d w <-> matches e w)
  | _, _ => False
  end.

Section Registry.
Context {R : Type}.

(** The layout of a definition. *)
Definition layout_of (p : prelayout R) (l : layout R) : Prop :=
  match p with
  | PreOf l' => l = l'
  | PreText pat h res dt => exists pat', compiled_pattern pat pat' /\ l = DataL (KTextString pat') h res dt
  | PreId h res pat => exists pat', compiled_pattern pat pat' /\ l = IdL h res pat'
  | PreUnion _ | PreIntersection _ => False
  end.

(** The definitions that are not unions nor intersections, with regular expressions whose character sets are well formed. *)
Definition plain (p : prelayout R) : Prop :=
  match p with
  | PreOf _ => True
  | PreText (Some e) _ _ _ | PreId _ _ (Some e) => sets_good e
  | PreText None _ _ _ | PreId _ _ None => True
  | PreUnion _ | PreIntersection _ => False
  end.

Context {CR : Cmp R} {LR : CmpLaws R}.

(** ** Proofs *)
Lemma recognizes_accepts (a : dfa nat (N * N)) w :
  recognizes (DetAutomaton (d_initial a) (d_final a) (d_transitions a)) w <-> d_accepts range_has a w.
Proof.
  unfold recognizes, d_accepts. cbn [da_initial da_final].
  assert (K : forall q q', reads (DetAutomaton (d_initial a) (d_final a) (d_transitions a)) q w q' <-> d_run range_has a q w q').
  { induction w as [|c w IH]; intros q q'; split.
    - inversion 1; constructor.
    - inversion 1; constructor.
    - inversion 1 as [|? row lo hi ? q1 ? ? H1 H2 H3 H4]; subst. cbn [da_transitions] in H1. econstructor; [exists row; split; [exact H1|exact H2]|exact H3|now apply IH].
    - inversion 1 as [|? [lo hi] ? q1 ? ? (row & H1 & H2) H3 H4]; subst. econstructor; [exact H1|exact H2|exact H3|now apply IH]. }
  split; intros (q & Hq & H); exists q; (split; [exact Hq|now apply K]).
Qed.

Lemma compile_pattern_spec {E} fuel pat pat' : compile_pattern (E := E) fuel pat = Ok pat' -> compiled_pattern pat pat'.
Proof.
  destruct pat as [e|]; cbn [compile_pattern]; [|now intros [= <-]].
  intro H. apply bind_Ok in H as (d & C & H). injection H as <-. unfold compile_regexp in C.
  destruct (re_build fuel e) as [a|[]|w|] eqn:B; try discriminate. injection C as <-.
  intros SG CO w Cw. rewrite recognizes_accepts. exact (C32_build_partial fuel e a SG CO B w Cw).
Qed.

Lemma compile_spec {E} fuel p (l : layout R) : compile (E := E) fuel p = Ok l -> layout_of p l.
Proof.
  destruct p as [l0|pat h res dt|h res pat|ls|ls]; cbn [compile layout_of]; try discriminate.
  - now intros [= <-].
  - intros H. apply bind_Ok in H as (d & C & H). injection H as <-. exists d. split; [exact (compile_pattern_spec _ _ _ C)|reflexivity].
  - intros H. apply bind_Ok in H as (d & C & H). injection H as <-. exists d. split; [exact (compile_pattern_spec _ _ _ C)|reflexivity].
Qed.

Lemma build_into_spec {E} fuel (b : @builder R) : forall m m',
  builder_build_into (E := E) fuel b m = Ok m' -> bt_wf b -> bt_wf m ->
  bt_wf m' /\ forall r,
    match bt_get r b with
    | Some p => exists l, bt_get r m' = Some l /\ layout_of p l
    | None => bt_get r m' = bt_get r m
    end.
Proof.
  induction b as [|[id p] b IH]; intros m m' H W WM; cbn [builder_build_into] in H.
  - injection H as <-. split; [exact WM|]. intro r. reflexivity.
  - apply bind_Ok in H as (l & C & H). apply compile_spec in C. cbn [layouts_insert fst] in H.
    unfold bt_wf in W. cbn [keys map fst] in W. inversion W as [|? ? W1 W2]; subst.
    destruct (IH _ _ H W1 (bt_insert_wf _ _ _ WM)) as [W' G]. split; [exact W'|]. intro r. specialize (G r).
    cbn [bt_get]. rewrite bt_insert_get in G. destruct (eqb_spec r id) as [Er|NE]; [subst r|exact G].
    assert (N : bt_get id b = None).
    { apply bt_get_None. intro I. rewrite Forall_forall in W2. apply (lt_irrefl id). now apply W2. }
    rewrite N in G. exists l. auto.
Qed.

(** C76.  The registry built from a builder has exactly the definitions of the builder: each reference is
    defined by its definition, with its regular expressions compiled; and nothing else is defined. *)
Theorem C76_registry {E} fuel (b : @builder R) m :
  bt_wf b -> builder_build (E := E) fuel b = Ok m ->
  bt_wf m /\ forall r,
    match bt_get r b with
    | Some p => exists l, layouts_get m r = Some l /\ layout_of p l
    | None => layouts_get m r = None
    end.
Proof.
  intros W H. destruct (build_into_spec fuel b [] m H W ltac:(constructor)) as [W' G]. split; [exact W'|].
  intro r. specialize (G r). unfold layouts_get. destruct (bt_get r b); exact G.
Qed.

Lemma compile_total {E} p : plain p -> exists N, forall fuel, N <= fuel -> exists l, compile (E := E) fuel p = Ok l.
Proof.
  assert (K : forall e, sets_good e -> exists N, forall fuel, N <= fuel -> exists d, compile_regexp (E := E) fuel e = Ok d).
  { intros e SG. destruct (C32_build_total e SG) as [N H]. exists N. intros fuel L. destruct (H fuel L) as [d D].
    unfold compile_regexp. rewrite D. eauto. }
  destruct p as [l|[e|] h res dt|h res [e|]|l|l]; cbn [plain compile compile_pattern]; intro P; try contradiction.
  - exists 0. eauto.
  - destruct (K e P) as [N H]. exists N. intros fuel L. destruct (H fuel L) as [d ->]. cbn [bind]. eauto.
  - exists 0. cbn [bind]. eauto.
  - destruct (K e P) as [N H]. exists N. intros fuel L. destruct (H fuel L) as [d ->]. cbn [bind]. eauto.
  - exists 0. cbn [bind]. eauto.
Qed.

(** Without unions and intersections, the registry is built. *)
Theorem C76_total {E} (b : @builder R) :
  (forall r p, In (r, p) b -> plain p) ->
  exists N, forall fuel, N <= fuel -> exists m, builder_build (E := E) fuel b = Ok m.
Proof.
  unfold builder_build. generalize (@nil (R * layout R)) as m0. intros m0 H.
  enough (K : exists N, forall fuel, N <= fuel -> forall m0, exists m, builder_build_into (E := E) fuel b m0 = Ok m)
    by (destruct K as [N K]; exists N; intros fuel L; exact (K fuel L m0)).
  clear m0. induction b as [|[id p] b IH].
  - exists 0. intros fuel _ m0. exists m0. reflexivity.
  - destruct IH as [N IH]; [intros r q I; apply (H r); now right|].
    destruct (compile_total (E := E) p) as [N' C]; [apply (H id); now left|].
    exists (Nat.max N N'). intros fuel L m0. destruct (C fuel ltac:(lia)) as [l E1]. cbn [builder_build_into]. rewrite E1. cbn [bind].
    apply IH. lia.
Qed.

(** With a union or an intersection, it never is. *)
Theorem C76_unions {E} fuel (b : @builder R) m r l :
  In (r, PreUnion l) b \/ In (r, PreIntersection l) b -> builder_build (E := E) fuel b <> Ok m.
Proof.
  unfold builder_build. generalize (@nil (R * layout R)) as m0. induction b as [|[id p] b IH]; intros m0 I H.
  - destruct I as [[]|[]].
  - cbn [builder_build_into] in H. apply bind_Ok in H as (l0 & C & H).
    destruct I as [[I|I]|[I|I]]; try (injection I as _ ->; discriminate C); apply (IH _ ltac:(eauto) H).
Qed.
End Registry.

(** ** Documents *)
Section Documents.
Context {IS : IriSyntax} {AE : AbsExternal} {St R : Type} {CR : Cmp R} {LR : CmpLaws R}.
Variable ctx : context St R.

Definition good_patterns (l : alayout) : Prop :=
  forall l' h res e, inside l l' ->
    l' = ALiteralL (AKId (Some e)) h res \/ (exists dt, l' = ALiteralL (AKTextString (Some e) dt) h res) -> sets_good e.

Lemma denotes_plain (ri : string -> R -> Prop) rl rec env l p : layout_denotes ri rl rec env l p ->
  (forall h res e, l = ALiteralL (AKId (Some e)) h res \/ (exists dt, l = ALiteralL (AKTextString (Some e) dt) h res) -> sets_good e) ->
  plain p.
Proof.
  destruct l as [h c|k h res|h fs|h vs|h n hd tl|h it|h its|b|h|h]; cbn [layout_denotes]; intros H G; try contradiction;
    repeat match goal with H : ex _ |- _ => destruct H | H : _ /\ _ |- _ => destruct H end; subst; try exact Logic.I.
  destruct k as [dt|dt|dt|pat dt|pat]; cbn [literal_denotes] in *;
    repeat match goal with H : ex _ |- _ => destruct H | H : _ /\ _ |- _ => destruct H end; subst; try exact Logic.I;
    destruct pat as [e|]; try exact Logic.I; cbn [plain]; eapply G; eauto.
Qed.

(** The registry of a document: when it compiles, the registry can be built, it defines the reference of the document by
    its meaning, and keeps the definitions there were. *)
Theorem C76_document {E} l s r s' :
  build_with_context ctx l s = (Ok r, s') -> bt_wf (snd s) -> good_patterns l ->
  (forall ref p, In (ref, p) (snd s) -> plain p) ->
  exists N, forall fuel, N <= fuel -> exists m, builder_build (E := E) fuel (snd s') = Ok m /\
    (exists p lay, layout_denotes (ctx_iri ctx) (ctx_lit ctx) (compiled (ctx_iri ctx) (ctx_lit ctx) (fun r => bt_get r (snd s'))) no_env l p /\
       layouts_get m r = Some lay /\ layout_of p lay) /\
    (forall ref p, bt_get ref (snd s) = Some p -> exists lay, layouts_get m ref = Some lay /\ layout_of p lay) /\
    (forall ref, layouts_get m ref <> None ->
       bt_get ref (snd s) <> None \/ exists l' env, inside l l' /\
         compiled (ctx_iri ctx) (ctx_lit ctx) (fun r => bt_get r (snd s')) env l' ref).
Proof.
  intros H W GP PL. destruct (C70_definitions ctx l s r s' H W) as (W' & X & N). pose proof (C70_meaning ctx l s r s' H W) as M.
  destruct (C76_total (E := E) (snd s')) as [B HB].
  { intros ref p I. apply bt_get_wf in I; [|exact W']. destruct (N ref p I) as [K|(l' & env & I' & M')].
    - apply bt_get_In in K. exact (PL _ _ K).
    - destruct l'; destruct M' as (_ & p' & D & M'); rewrite I in D; injection D as <-;
        (eapply denotes_plain; [exact M'|]; intros; eapply GP; [exact I'|]; eassumption). }
  exists B. intros fuel L. destruct (HB fuel L) as [m Hm]. exists m. split; [exact Hm|].
  destruct (C76_registry fuel (snd s') m W' Hm) as [_ G]. split; [|split].
  - assert (M0 : exists p, bt_get r (snd s') = Some p /\
      layout_denotes (ctx_iri ctx) (ctx_lit ctx) (compiled (ctx_iri ctx) (ctx_lit ctx) (fun r => bt_get r (snd s'))) no_env l p)
      by (destruct l; exact (proj2 M)).
    destruct M0 as (p & D & M0). specialize (G r). rewrite D in G. destruct G as (lay & G1 & G2). exists p, lay. auto.
  - intros ref p K. specialize (G ref). rewrite (X ref p K) in G. exact G.
  - intros ref K. specialize (G ref). destruct (bt_get ref (snd s')) as [p|] eqn:D; [|congruence].
    destruct (N ref p D) as [K'|K']; [left; congruence|right; exact K'].
Qed.
End Documents.
