(** * Proofs for C110: a document compiled with the generator at another number

    The two runs of [build_with_context] on the same document are related step by step.  [near k]: the references that name the same
    layout after [k] names were generated. *)

From Coq Require Import String Ascii List Bool Arith NArith ZArith Permutation Lia.
Import ListNotations.
From Verif Require Import Base BaseProofs Orders PatternModel ValueModel LayoutModel LayoutSpec MatchingModel MatchingSpec HydrateModel HydrateSpec TermModel DehydrateModel DehydrateFinish AbsModel AbsSpec AbsProofs AbsProperties AbsMeaning RelabelSpec.
Open Scope list_scope.
Open Scope nat_scope.

(** [PreText] and [PreId] contain no reference to layouts.  The fields are sorted on both sides. *)
Definition renamed_pre {R} (N : R -> R -> Prop) (p p' : prelayout R) : Prop :=
  match p, p' with
  | PreOf l, PreOf l' => renamed_layout N l l' /\ fields_sorted l /\ fields_sorted l'
  | PreText _ _ _ _, PreText _ _ _ _ | PreId _ _ _, PreId _ _ _ => p = p'
  | PreUnion l, PreUnion l' | PreIntersection l, PreIntersection l' => Forall2 N l l'
  | _, _ => False
  end.

(** The names given by the generator from [n] and from [n'], and the IRIs. *)
Definition shifted (n n' k : nat) (r r' : term) : Prop :=
  (exists i, r = TmIri i /\ r' = TmIri i) \/
  (exists i, i < k /\ r = TmBlank (nat_string (n + i)) /\ r' = TmBlank (nat_string (n' + i))).

Lemma layout_grows {R} (N N' : R -> R -> Prop) l l' : (forall r r', N r r' -> N' r r') -> renamed_layout N l l' -> renamed_layout N' l l'.
Proof.
  intros K. assert (IT : forall it it', renamed_item N it it' -> renamed_item N' it it') by (intros it it' (H1 & (H2 & H3 & H4) & H5); repeat split; auto).
  intros H. destruct H as [| | | | |h fs fs' F|h vs vs' F|h it it' F|h m m' hd tl F|h its its' F]; constructor; auto.
  - induction F as [|f f' fs fs' (H1 & H2 & H3) F IH]; constructor; auto. repeat split; auto; apply IT, H2.
  - induction F as [|f f' fs fs' (H1 & H2) F IH]; constructor; auto. split; auto.
  - induction F; constructor; auto.
Qed.
Lemma pre_grows {R} (N N' : R -> R -> Prop) p p' : (forall r r', N r r' -> N' r r') -> renamed_pre N p p' -> renamed_pre N' p p'.
Proof.
  intros K H. destruct p, p'; cbn [renamed_pre] in *; try contradiction; try assumption; [split; [eapply layout_grows; [exact K|apply H]|apply H]| |];
    (induction H; constructor; auto).
Qed.

Section Build.
Context {IS : IriSyntax} {AE : AbsExternal}.
(** A context of terms, with a generator in its state. *)
Context {St : Type} (gen : St -> nat) (next : St -> St) (ctx : context St term)
  (keeps_iri : forall i st, c_iri ctx i st = (TmIri i, st)) (keeps_literal : forall l st, c_literal ctx l st = (TmLit l, st))
  (generates : forall st, c_anonymous ctx st = (TmBlank (nat_string (gen st)), next st)) (gen_next : forall st, gen (next st) = S (gen st)).
Notation M := (@M St term).

(** ** Computations that do not use the state *)
Definition quiet {A} (m : M A) : Prop := exists o, forall s, m s = (o, s).

Lemma q_ret {A} (a : A) : quiet (ret a).
Proof. now exists (Ok a). Qed.
Lemma q_lift {A} (o : outcome build_error A) : quiet (lift o).
Proof. now exists o. Qed.
Lemma q_bind {A B} (m : M A) (f : A -> M B) : quiet m -> (forall a, quiet (f a)) -> quiet (bindM m f).
Proof.
  intros [o H] K. destruct o as [a|e|w|]; [destruct (K a) as [o' H'];exists o'|exists (Err e)|exists (Panic w)|exists OutOfFuel];
    intros s; unfold bindM; rewrite H; auto.
Qed.
Lemma q_iri i : quiet (iri_resource ctx i).
Proof. exists (Ok (TmIri i)). intros [n b]. unfold iri_resource. now rewrite keeps_iri. Qed.
Lemma q_literal l : quiet (literal_resource ctx l).
Proof. exists (Ok (TmLit l)). intros [n b]. unfold literal_resource. now rewrite keeps_literal. Qed.
Lemma q_mapS {A B} (f : A -> M B) l : (forall a, quiet (f a)) -> quiet (mapS f l).
Proof. intros K. induction l; cbn [mapS]; auto using q_ret, q_bind. Qed.
Lemma q_option {A B} (f : A -> M B) o : (forall a, quiet (f a)) -> quiet (build_option f o).
Proof. intros K. destruct o; cbn [build_option]; auto using q_ret, q_bind. Qed.
Hint Resolve q_ret q_lift q_bind q_iri q_literal q_mapS q_option : quiet.

Lemma q_build_iri i sc : quiet (build_iri ctx i sc).
Proof. unfold build_iri. auto with quiet. Qed.
Lemma q_pattern p sc : quiet (build_pattern ctx p sc).
Proof. destruct p; cbn [build_pattern]; auto 10 with quiet. Qed.
Hint Resolve q_build_iri q_pattern : quiet.
Lemma q_dataset sc ds : quiet (build_dataset ctx sc ds).
Proof. unfold build_dataset, build_quad. auto 20 with quiet. Qed.
Hint Resolve q_dataset : quiet.
Lemma q_extra x sc : quiet (build_extra ctx x sc).
Proof.
  unfold build_extra. apply q_bind; auto with quiet. apply q_mapS. intros [i r]. apply q_bind; auto with quiet. intros p. apply q_bind; auto with quiet.
  destruct r; cbn [snd build_resource]; auto with quiet.
Qed.
Hint Resolve q_extra : quiet.
Lemma q_header h sc : quiet (build_header ctx h sc).
Proof. unfold build_header. auto 10 with quiet. Qed.
Lemma q_default_dataset a b p : quiet (default_list_dataset ctx a b p).
Proof. unfold default_list_dataset. auto with quiet. Qed.
Hint Resolve q_header q_default_dataset : quiet.
Lemma q_resource input r sc : quiet (build_literal_resource ctx input r sc).
Proof. destruct r; cbn [build_literal_resource]; [auto with quiet|]. destruct input; auto with quiet. Qed.
Hint Resolve q_resource : quiet.
Lemma q_build_literal k h r sc : quiet (build_literal ctx k h r sc).
Proof.
  unfold build_literal. apply q_bind; auto with quiet. intros [hd sc1]. apply q_bind; auto with quiet. intros res.
  destruct k as [[d|]|d|d|p [d|]|p]; auto with quiet.
Qed.
Lemma q_property a b intro p sc ds : quiet (build_property ctx a b intro p sc ds).
Proof. destruct p; cbn [build_property]; auto with quiet. destruct (Nat.eqb a 0); auto with quiet. destruct intro; auto with quiet. Qed.
Hint Resolve q_build_literal q_property : quiet.

(** ** The two runs *)
Section Two.
Variables n n' : nat.
(** What else there is in the states. *)
Variable beside : nat -> St -> St -> Prop.
Hypothesis beside_next : forall k st st', gen st = n + k -> gen st' = n' + k -> beside k st st' -> beside (S k) (next st) (next st').
Notation near := (shifted n n').

Lemma near_grows k k' r r' : k <= k' -> near k r r' -> near k' r r'.
Proof. intros L [H|(i & I & E)]; [now left|right]. exists i. split; [lia|exact E]. Qed.
Lemma near_iff k r r' q q' : near k r r' -> near k q q' -> (r = q <-> r' = q').
Proof.
  intros [(i & -> & ->)|(i & I & -> & ->)] [(j & -> & ->)|(j & J & -> & ->)]; try (split; congruence); split; intros E; injection E as E;
    try congruence; apply nat_string_inj in E; repeat f_equal; lia.
Qed.

Definition together (k : nat) (s s' : @bstate St term) : Prop :=
  (gen (fst s) = n + k /\ beside k (fst s) (fst s')) /\ gen (fst s') = n' + k /\
  (forall r r', near k r r' ->
     match bt_get r (snd s), bt_get r' (snd s') with
     | Some p, Some p' => renamed_pre (near k) p p'
     | None, None => True
     | _, _ => False
     end) /\
  (forall r, bt_get r (snd s) <> None -> exists r', near k r r') /\
  (forall r', bt_get r' (snd s') <> None -> exists r, near k r r').

(** The same outcome; the results related by [P] after the names generated meanwhile. *)
Definition run_alike {A B} (k : nat) (P : nat -> A -> B -> Prop) (m : M A) (m' : M B) : Prop :=
  forall s s', together k s s' -> exists k', k <= k' /\ together k' (snd (m s)) (snd (m' s')) /\ renamed_outcome eq (P k') (fst (m s)) (fst (m' s')).

Lemma w_ret {A B} k (P : nat -> A -> B -> Prop) a b : P k a b -> run_alike k P (ret a) (ret b).
Proof. intros H s s' T. exists k. split; [lia|split; [exact T|exact H]]. Qed.
Lemma w_bind {A B A' B'} k (P : nat -> A -> B -> Prop) (Q : nat -> A' -> B' -> Prop) m m' f f' :
  run_alike k P m m' -> (forall k1 a b, k <= k1 -> P k1 a b -> run_alike k1 Q (f a) (f' b)) -> run_alike k Q (bindM m f) (bindM m' f').
Proof.
  intros H K s s' T. unfold bindM. destruct (H s s' T) as (k1 & L & T1 & O). destruct (m s) as [o s1], (m' s') as [o' s1']. cbn [fst snd] in *.
  destruct o as [a|e|w|], o' as [b|e'|w'|]; cbn in O; try contradiction; [|exists k1; auto|exists k1; auto|exists k1; auto].
  destruct (K k1 a b L O _ _ T1) as (k2 & L2 & T2 & O2). exists k2. split; [lia|auto].
Qed.
Lemma w_quiet {A} k (m : M A) : quiet m -> run_alike k (fun _ => eq) m m.
Proof. intros [o H] s s' T. exists k. rewrite !H. split; [lia|split; [exact T|]]. destruct o; reflexivity. Qed.
Lemma w_mapS {A B C} k (P : nat -> B -> C -> Prop) (f : A -> M B) (f' : A -> M C) l :
  (forall k k' b c, k <= k' -> P k b c -> P k' b c) -> (forall k a, In a l -> run_alike k P (f a) (f' a)) ->
  run_alike k (fun k => Forall2 (P k)) (mapS f l) (mapS f' l).
Proof.
  intros G. revert k. induction l as [|a l IH]; intros k K; cbn [mapS]; [apply w_ret; constructor|].
  eapply w_bind; [apply K; now left|]. intros k1 b c L1 H1. eapply w_bind; [apply IH; intros; apply K; now right|]. intros k2 bs cs L2 H2.
  apply w_ret. constructor; eauto.
Qed.

Definition goods (k : nat) (r r' : term) : Prop := near k r r'.

Lemma w_anonymous k : run_alike k goods (anonymous_resource ctx) (anonymous_resource ctx).
Proof.
  intros [m b] [m' b'] ([E BE] & E' & G & D & D'). cbn [fst snd] in *. exists (S k). split; [lia|]. unfold anonymous_resource. cbn [fst snd]. rewrite !generates.
  unfold together. cbn [fst snd]. rewrite !gen_next, E, E'. split; [|right; exists k; repeat split; lia].
  split; [split; [lia|now apply beside_next]|split; [lia|]]. split;
    [|split; [intros r R; apply D in R as [r' R]; exists r'; apply (near_grows k); auto; lia|intros r R; apply D' in R as [r' R]; exists r'; apply (near_grows k); auto; lia]].
  intros r r' H. assert (near k r r' \/ (r = TmBlank (nat_string (n + k)) /\ r' = TmBlank (nat_string (n' + k)))) as [K|[-> ->]].
  { destruct H as [H|(i & I & H)]; [left; now left|]. destruct (Nat.eq_dec i k) as [->|NE]; [now right|]. left. right. exists i. split; [lia|exact H]. }
  - specialize (G r r' K). destruct (bt_get r b), (bt_get r' b'); try contradiction; auto. eapply pre_grows; [|exact G]. intros. eapply near_grows; [|eassumption]. lia.
  - destruct (bt_get (TmBlank (nat_string (n + k))) b) eqn:E1.
    + destruct (D (TmBlank (nat_string (n + k)))) as [q [(i & E2 & _)|(i & I & E2 & _)]]; [congruence|discriminate E2|]. injection E2 as E2. apply nat_string_inj in E2. lia.
    + destruct (bt_get (TmBlank (nat_string (n' + k))) b') eqn:E3; [|exact Logic.I].
      destruct (D' (TmBlank (nat_string (n' + k)))) as [q [(i & _ & E2)|(i & I & _ & E2)]]; [congruence|discriminate E2|]. injection E2 as E2. apply nat_string_inj in E2. lia.
Qed.

Lemma w_insert k id id' p p' : near k id id' -> renamed_pre (near k) p p' ->
  run_alike k goods
    (bindM (insert_layout id p) (fun old => match snd old with Some _ => lift (Err LayoutRedefinition) | None => ret (fst old) end))
    (bindM (insert_layout id' p') (fun old => match snd old with Some _ => lift (Err LayoutRedefinition) | None => ret (fst old) end)).
Proof.
  intros H P [m b] [m' b'] (E & E' & G & D & D'). cbn [fst snd] in *. exists k. split; [lia|].
  assert (T : together k (m, bt_insert id p b) (m', bt_insert id' p' b')).
  { split; [exact E|split; [exact E'|]]. cbn [fst snd]. split; [|split].
    - intros r r' R. rewrite !bt_insert_get. pose proof (near_iff _ _ _ _ _ R H) as EQ.
      destruct (eqb_spec r id) as [->|NE], (eqb_spec r' id') as [->|NE']; [exact P|now elim NE'; apply EQ|now elim NE; apply EQ|now apply G].
    - intros r. rewrite bt_insert_get. destruct (eqb_spec r id) as [->|NE]; [eauto|apply D].
    - intros r. rewrite bt_insert_get. destruct (eqb_spec r id') as [->|NE]; [eauto|apply D']. }
  unfold bindM, insert_layout. cbn [fst snd]. specialize (G id id' H).
  destruct (bt_get id b), (bt_get id' b'); try contradiction; cbn [lift ret fst snd]; (split; [exact T|]); [reflexivity|exact H].
Qed.

(** ** Layouts *)
Section Nested.
Variable build : alayout -> scope -> M term.
Definition nested_runs (l : alayout) : Prop := forall k sc, run_alike k goods (build l sc) (build l sc).

Lemma w_ref k r sc : (forall l, nested_ref r l -> nested_runs l) -> run_alike k goods (build_ref ctx build r sc) (build_ref ctx build r sc).
Proof.
  intros K. destruct r as [i|l]; cbn [build_ref]; [|now apply (K l)]. unfold build_iri. eapply w_bind; [apply w_quiet; auto with quiet|].
  intros k1 j ? L <-. intros s s' T. exists k1. destruct s, s'. unfold iri_resource. cbn [fst snd]. rewrite !keeps_iri. cbn [fst snd]. split; [lia|split; [exact T|]]. left. cbn. eauto.
Qed.
Lemma w_format k d f sc : (forall l, nested_format f l -> nested_runs l) ->
  run_alike k (fun k => renamed_format (near k)) (build_format ctx build d f sc) (build_format ctx build d f sc).
Proof.
  intros K. destruct f as [r inp g|r]; cbn [build_format].
  - eapply w_bind; [apply w_quiet; auto with quiet|]. intros k1 ps ? L1 <-. eapply w_bind; [apply w_ref; auto|]. intros k2 q q' L2 Q.
    eapply w_bind; [apply w_quiet; auto with quiet|]. intros k3 gr ? L3 <-. apply w_ret. split; [|split; reflexivity]. eapply near_grows; [|exact Q]. lia.
  - eapply w_bind; [apply w_ref; auto|]. intros k2 q q' L2 Q. eapply w_bind; [apply w_quiet; auto with quiet|]. intros k3 p ? L3 <-.
    apply w_ret. split; [|split; reflexivity]. eapply near_grows; [|exact Q]. lia.
Qed.
Lemma w_item k a b it sc : (forall l, nested_format (ai_value it) l -> nested_runs l) ->
  run_alike k (fun k => renamed_item (near k)) (build_item ctx build a b it sc) (build_item ctx build a b it sc).
Proof.
  intros K. unfold build_item. do 2 (eapply w_bind; [apply w_quiet; auto with quiet|]; intros ? ? ? ? <-).
  eapply w_bind; [now apply w_format|]. intros k3 f f' L F. apply w_ret. split; [reflexivity|split; [exact F|reflexivity]].
Qed.
Lemma w_variant k sc v : (forall l, nested_format (av_value (snd v)) l -> nested_runs l) ->
  run_alike k (fun k => renamed_variant (near k)) (build_variant ctx build sc v) (build_variant ctx build sc v).
Proof.
  destruct v as [name [intro f ds]]. cbn [snd av_value build_variant]. intros K. eapply w_bind; [now apply w_format|]. intros k1 g g' L1 F.
  eapply w_bind; [apply w_quiet; auto with quiet|]. intros k2 ? ? L2 <-. apply w_ret. split; [reflexivity|]. split; [reflexivity|split; [|reflexivity]].
  destruct F as (F1 & F2 & F3). split; [eapply near_grows; [|exact F1]; lia|auto].
Qed.
Lemma w_node k nd sc : (forall l, match nd with ANode _ _ _ f _ => nested_format f l | ANodeLayout r => nested_ref r l end -> nested_runs l) ->
  run_alike k (fun k => renamed_item (near k)) (build_node ctx build nd sc) (build_node ctx build nd sc).
Proof.
  intros K. unfold build_node. destruct nd as [hd rs intro f ds|r].
  - eapply w_bind; [now apply w_format|]. intros k1 g g' L1 (F1 & F2 & F3). eapply w_bind.
    + apply w_quiet. destruct ds; auto with quiet. destruct f as [r [|p [|p' inp]] g0|r]; auto with quiet.
    + intros k2 ? ? L2 <-. apply w_ret. split; [reflexivity|split; [|reflexivity]]. split; [eapply near_grows; [|exact F1]; lia|auto].
  - eapply w_bind; [apply w_ref; auto|]. intros k2 q q' L2 Q. eapply w_bind; [apply w_quiet; auto with quiet|]. intros k3 p ? L3 <-.
    apply w_ret. split; [reflexivity|split; [|reflexivity]]. split; [eapply near_grows; [|exact Q]; lia|auto].
Qed.

Lemma item_grows k k' it it' : k <= k' -> renamed_item (near k) it it' -> renamed_item (near k') it it'.
Proof. intros L (H1 & (H2 & H3 & H4) & H5). repeat split; auto. eapply near_grows; eauto. Qed.
Lemma fields_collect k (fs fs' : list (value * field term)) : Forall2 (renamed_field (near k)) fs fs' -> Forall2 (renamed_field (near k)) (bt_collect fs) (bt_collect fs').
Proof.
  intros F. unfold bt_collect.
  assert (INS : forall e e' m m', renamed_field (near k) e e' -> Forall2 (renamed_field (near k)) m m' ->
    Forall2 (renamed_field (near k)) (bt_insert (fst e) (snd e) m) (bt_insert (fst e') (snd e') m')).
  { intros [a f] [a' f'] m m' (E & E2) G. cbn [fst snd] in *. subst a'. induction G as [|[b g] [b' g'] m m' (H1 & H2) G IH]; cbn [bt_insert].
    - constructor; [split; auto|constructor].
    - cbn [fst snd] in *. subst b'. assert (renamed_field (near k) (a, f) (a, f')) by (split; auto). assert (renamed_field (near k) (b, g) (b, g')) by (split; auto).
      assert (renamed_field (near k) (b, f) (b, f')) by (split; auto). destruct (cmp a b); auto using Forall2_cons. }
  assert (FO : forall m m', Forall2 (renamed_field (near k)) m m' ->
    Forall2 (renamed_field (near k)) (fold_left (fun m kv => bt_insert (fst kv) (snd kv) m) fs m) (fold_left (fun m kv => bt_insert (fst kv) (snd kv) m) fs' m')).
  { induction F as [|e e' fs fs' E F IH]; intros m m' G; cbn [fold_left]; auto. }
  apply FO. constructor.
Qed.

Lemma w_pre k l sc : (forall l', nested l l' -> nested_runs l') ->
  run_alike k (fun k => renamed_pre (near k)) (layout_pre ctx build l sc) (layout_pre ctx build l sc).
Proof.
  intros K. destruct l as [h c|kd h r|h fs|h vs|h nd p q|h it|h its|b|h|h]; cbn [layout_pre].
  - eapply w_bind; [apply w_quiet; auto with quiet|]. intros k1 [hd sc1] ? L <-. apply w_ret. repeat constructor.
  - intros s s' T. destruct (q_build_literal kd h r sc) as [o H]. exists k. rewrite !H. split; [lia|split; [exact T|]]. cbn [fst].
    assert (LIT : forall p, o = Ok p -> (exists a b c d, p = PreText a b c d) \/ (exists a b c, p = PreId a b c) \/ exists kd hd r d, p = PreOf (DataL kd hd r d)).
    { intros p ->. specialize (H s). unfold build_literal in H.
      unfold bindM at 1 in H. destruct (build_header ctx h sc s) as [[[hd sc1]| | |] s1]; try discriminate H.
      unfold bindM at 1 in H. destruct (build_literal_resource _ _ _ _ s1) as [[res| | |] s2]; try discriminate H.
      destruct kd; try (unfold bindM in H; match goal with H : (match ?x with _ => _ end) = _ |- _ => destruct x as [[dt| | |] s3] end; try discriminate H);
        unfold ret in H; injection H as <- _; eauto 10. }
    destruct o as [p| | |]; cbn; auto. destruct (LIT p eq_refl) as [(a & b & c & d & ->)|[(a & b & c & ->)|(a & b & c & d & ->)]]; cbn [renamed_pre]; repeat constructor.
  - eapply w_bind; [apply w_quiet; auto with quiet|]. intros k1 [hd sc1] ? L <-. eapply w_bind.
    + apply (w_mapS k1 (fun k => renamed_field (near k))).
      * intros i j [a f] [a' f'] LE (H1 & H2 & H3). cbn [fst snd] in *. split; [exact H1|split; [eapply item_grows; eauto|exact H3]].
      * intros k2 [a [it req]] I. cbn [build_field]. eapply w_bind; [apply w_item|].
        { intros l NF. apply K. now apply (N_field h fs a (AField it req)). }
        intros k3 i i' L3 IT. apply w_ret. split; [reflexivity|split; [exact IT|reflexivity]].
    + intros k2 gs gs' L2 F. apply w_ret. cbn [renamed_pre]. split; [constructor; now apply fields_collect|]. split; cbn [fields_sorted]; apply bt_collect_wf.
  - eapply w_bind; [apply w_quiet; auto with quiet|]. intros k1 [hd sc1] ? L <-. eapply w_bind.
    + apply (w_mapS k1 (fun k => renamed_variant (near k))).
      * intros i j v v' LE (H1 & H2). split; [exact H1|eapply item_grows; eauto].
      * intros k2 [a v] I. apply w_variant. intros l NF. apply K. now apply (N_variant h vs a v).
    + intros k2 gs gs' L2 F. apply w_ret. cbn [renamed_pre]. split; [now constructor|split; exact Logic.I].
  - eapply w_bind; [apply w_quiet; auto with quiet|]. intros k1 [hd sc1] ? L <-. eapply w_bind.
    + apply w_node. intros l NF. apply K. destruct nd; [now apply N_node|now apply N_node_layout].
    + intros k2 it it' L2 IT. do 2 (eapply w_bind; [apply w_quiet; auto with quiet|]; intros ? ? ? ? <-). apply w_ret. cbn [renamed_pre].
      split; [constructor; eapply item_grows; [|exact IT]; lia|split; exact Logic.I].
  - eapply w_bind; [apply w_quiet; auto with quiet|]. intros k1 [hd sc1] ? L <-. eapply w_bind.
    + apply w_item. intros l NF. apply K. now apply N_item.
    + intros k2 i i' L2 IT. apply w_ret. cbn [renamed_pre]. split; [now constructor|split; exact Logic.I].
  - eapply w_bind; [apply w_quiet; auto with quiet|]. intros k1 [hd sc1] ? L <-. eapply w_bind.
    + apply (w_mapS k1 (fun k => renamed_item (near k))); [intros; eapply item_grows; eauto|].
      intros k2 it I. apply w_item. intros l NF. apply K. now apply (N_tuple h its it).
    + intros k2 gs gs' L2 F. apply w_ret. cbn [renamed_pre]. split; [now constructor|split; exact Logic.I].
  - destruct b; apply w_ret; repeat constructor.
  - intros s s' T. exists k. split; [lia|split; [exact T|reflexivity]].
  - intros s s' T. exists k. split; [lia|split; [exact T|reflexivity]].
Qed.
End Nested.

Lemma w_id k l sc : run_alike k goods
  (match layout_id l with Some i => bindM (lift (resolve i sc)) (fun i => iri_resource ctx i) | None => anonymous_resource ctx end)
  (match layout_id l with Some i => bindM (lift (resolve i sc)) (fun i => iri_resource ctx i) | None => anonymous_resource ctx end).
Proof.
  destruct (layout_id l) as [i|]; [|apply w_anonymous]. eapply w_bind; [apply w_quiet; auto with quiet|].
  intros k1 j ? L <-. intros s s' T. exists k1. destruct s, s'. unfold iri_resource. cbn [fst snd]. rewrite !keeps_iri. cbn [fst snd]. split; [lia|split; [exact T|]]. left. cbn. eauto.
Qed.

Lemma w_layout l : forall k sc, run_alike k goods (build_layout ctx l sc) (build_layout ctx l sc).
Proof.
  induction l as [l IH] using layout_ind. intros k sc. rewrite !build_layout_eq. unfold layout_body. eapply w_bind; [apply w_id|].
  intros k1 id id' L ID. eapply w_bind; [apply w_pre; intros l' N k2 sc2; now apply IH|]. intros k2 p p' L2 P.
  apply w_insert; [|exact P]. eapply near_grows; [|exact ID]. lia.
Qed.
End Two.
End Build.

Section Terms.
Context {IS : IriSyntax} {AE : AbsExternal}.
Variables n n' : nat.
Notation near := (shifted n n').
Notation ctx := term_context.

(** The states of the generator of terms. *)
Definition together_terms (k : nat) (s s' : @bstate nat term) : Prop :=
  fst s = n + k /\ fst s' = n' + k /\
  (forall r r', near k r r' ->
     match bt_get r (snd s), bt_get r' (snd s') with
     | Some p, Some p' => renamed_pre (near k) p p'
     | None, None => True
     | _, _ => False
     end) /\
  (forall r, bt_get r (snd s) <> None -> exists r', near k r r') /\
  (forall r', bt_get r' (snd s') <> None -> exists r, near k r r').

(** The document with an empty builder. *)
Lemma document_moved l : exists k,
  together_terms k (snd (build_with_context ctx l (n, []))) (snd (build_with_context ctx l (n', []))) /\
  renamed_outcome eq (near k) (fst (build_with_context ctx l (n, []))) (fst (build_with_context ctx l (n', []))).
Proof.
  destruct (w_layout (fun st => st) S term_context (fun _ _ => eq_refl) (fun _ _ => eq_refl) (fun _ => eq_refl) (fun _ => eq_refl) n n' (fun _ _ _ => True)
    (fun _ _ _ _ _ H => H) l 0 scope_default (n, []) (n', [])) as (k & _ & [[E _] T] & O).
  - split; [cbn; split; [lia|exact Logic.I]|split; [cbn; lia|]]. split; [intros; exact Logic.I|]. split; intros r H; now elim H.
  - exists k. split; [split; [exact E|exact T]|exact O].
Qed.
End Terms.
