(** * Dehydration does not depend on the order of the patterns (C107) *)

From Coq Require Import String List Bool Arith NArith Permutation Sorted Qcanon Lia.
Import ListNotations.
From Verif Require Import Base BaseProofs Orders PatternModel MatchingModel MatchingSpec ValueModel LayoutModel LayoutSpec HydrateModel
  TermModel DehydrateModel DehydrateSpec DehydrateProofs ReorderSpec ReorderProofs.
Open Scope list_scope.
Open Scope nat_scope.

Section Dehydrate.
Context {Q S I : Type} {CS : Cmp S} {LS : CmpLaws S} {X : Xsd} {IS : IriSyntax}.
Variable ops : interpretation Q S I.
Notation M := (DehydrateModel.M (Q := Q) (S := S) (I := I)).

(** States with the same quads. *)
Definition alike (st st' : dstate S I) : Prop :=
  ds_interp st = ds_interp st' /\ (forall q, In q (ds_output st) <-> In q (ds_output st')).

(** Computations that do the same up to the order of the quads; their results are in the relation [P]. *)
Definition sim {A} (P : A -> A -> Prop) (m m' : M A) : Prop := forall st st', alike st st' ->
  alike (snd (m st)) (snd (m' st')) /\
  match fst (m st), fst (m' st') with
  | Ok a, Ok a' => P a a'
  | Err e, Err e' => e = e'
  | Panic w, Panic w' => w = w'
  | OutOfFuel, OutOfFuel => True
  | _, _ => False
  end.

Lemma sim_bind {A B} (P : A -> A -> Prop) (P' : B -> B -> Prop) m m' k k' : sim P m m' ->
  (forall a a', P a a' -> sim P' (k a) (k' a')) -> sim P' (bindM m k) (bindM m' k').
Proof.
  intros H K st st' E. specialize (H st st' E). unfold bindM.
  destruct (m st) as [[a|e|w|] s], (m' st') as [[a'|e'|w'|] s']; cbn [fst snd] in *; destruct H as [H1 H2];
    try (now destruct H2); try (split; [exact H1|exact H2]). now apply K.
Qed.
Lemma sim_ret {A} (P : A -> A -> Prop) a a' : P a a' -> sim P (ret a) (ret a').
Proof. intros H st st' E. split; [exact E|exact H]. Qed.
Lemma sim_lift {A} (P : A -> A -> Prop) (o : outcome (de_error Q) A) : (forall a, P a a) -> sim P (lift o) (lift o).
Proof. intros H st st' E. split; [exact E|]. cbn. destruct o; auto. Qed.
Lemma sim_raise {A} (P : A -> A -> Prop) e : sim (A := A) P (raise e) (raise e).
Proof. intros st st' E. split; [exact E|reflexivity]. Qed.
Lemma sim_is_ok {A} (P : A -> A -> Prop) m m' : sim P m m' -> sim eq (is_ok m) (is_ok m').
Proof.
  intros H st st' E. specialize (H st st' E). unfold is_ok.
  destruct (m st) as [[a|e|w|] s], (m' st') as [[a'|e'|w'|] s']; cbn [fst snd] in *; destruct H as [H1 H2]; split; auto; now destruct H2.
Qed.
Lemma sim_new : sim eq (new_resourceM ops) (new_resourceM ops).
Proof. intros [i o] [i' o'] [E H]. cbn in E. subst i'. unfold new_resourceM. cbn. destruct (new_resource ops i). cbn. repeat split; apply H. Qed.
Lemma sim_assign_iri r s : sim eq (assign_iriM ops r s) (assign_iriM ops r s).
Proof. intros [i o] [i' o'] [E H]. cbn in E. subst i'. cbn. repeat split; apply H. Qed.
Lemma sim_assign_literal r s : sim eq (assign_literalM ops r s) (assign_literalM ops r s).
Proof. intros [i o] [i' o'] [E H]. cbn in E. subst i'. cbn. repeat split; apply H. Qed.
Lemma emit_In (qs : list (quad S)) d q : In q (fold_left (fun d q => ds_insert q d) qs d) <-> In q qs \/ In q d.
Proof.
  revert d. induction qs as [|a qs IH]; intros d; cbn [fold_left]; [cbn; tauto|]. rewrite IH, ds_insert_In. cbn [In]. split; intros; intuition congruence.
Qed.
Lemma sim_emit qs qs' : (forall q, In q qs <-> In q qs') -> sim eq (emit (Q := Q) (I := I) qs) (emit qs').
Proof.
  intros H [i o] [i' o'] [E K]. cbn in *. split; [|reflexivity]. split; [exact E|]. cbn. intros q. rewrite !emit_In, H, K. reflexivity.
Qed.
Lemma sim_resources n : sim eq (new_resources (I := I) ops n) (new_resources ops n).
Proof.
  induction n as [|n IH]; cbn [new_resources]; [now apply sim_ret|]. apply (sim_bind eq); [apply sim_new|]. intros r ? <-.
  apply (sim_bind eq); [exact IH|]. intros rs ? <-. now apply sim_ret.
Qed.

Lemma env_length_new n st rs st' : new_resources ops n st = (Ok rs, st') -> length rs = n.
Proof.
  revert st rs st'. induction n as [|n IH]; intros st rs st'; cbn [new_resources].
  - intros [= <- _]. reflexivity.
  - unfold bindM at 1. destruct (new_resourceM ops st) as [[r|e|w|] s1]; try discriminate. unfold bindM.
    destruct (new_resources ops n s1) as [[rs'|e|w|] s2] eqn:E; try discriminate. intros [= <- _]. cbn. now rewrite (IH _ _ _ E).
Qed.
Lemma resources_ok n st : exists rs st', new_resources (Q := Q) ops n st = (Ok rs, st').
Proof.
  revert st. induction n as [|n IH]; intros st; cbn [new_resources]; [now do 2 eexists|].
  unfold bindM at 1. unfold new_resourceM at 1. destruct (new_resource ops (ds_interp st)) as [r i]. unfold bindM.
  destruct (IH (DState i (ds_output st))) as (rs & st' & ->). now do 2 eexists.
Qed.

(** The variables below [n] are declared in the environment. *)
Definition declares (e : env S) (n : nat) : Prop := n <= length (env_list e).
Definition bounded (n : nat) (ps : list (qpat Q)) : Prop := forall x, var_of ps x -> x < n.

Lemma sim_intro e k n : declares e n -> sim (fun a a' => a = a' /\ declares a (n + k)) (env_intro ops e k) (env_intro ops e k).
Proof.
  intros D st st' E. destruct (sim_resources k st st' E) as [A B]. unfold env_intro, bindM.
  destruct (new_resources ops k st) as [[rs|?|?|] s] eqn:E1, (new_resources ops k st') as [[rs'|?|?|] s'] eqn:E2; cbn [fst snd] in *; try (now destruct B).
  { subst rs'. cbn [ret fst snd]. split; [exact A|]. split; [reflexivity|]. unfold declares in *. cbn [env_list]. rewrite app_length, (env_length_new _ _ _ _ E1). lia. }
Qed.

Lemma pattern_ok e n (p : pattern Q) : declares e n -> (forall x, p = PVar x -> x < n) -> exists r, instantiate_pattern ops e p = Ok r.
Proof.
  intros D H. destruct p as [r|x]; cbn; [now eexists|]. rewrite env_get_spec. specialize (H x eq_refl).
  destruct (nth_error (env_list e) x) as [r|] eqn:E; [now exists r|]. apply nth_error_None in E. unfold declares in D. lia.
Qed.
Lemma quad_ok e n (q : qpat Q) : declares e n -> (forall x, qvar_of q x -> x < n) -> exists r, instantiate_quad ops e q = Ok r.
Proof.
  intros D H. unfold instantiate_quad.
  destruct (pattern_ok e n (q_s q) D) as (a & ->); [intros x E; apply H; now left|]. cbn [bind].
  destruct (pattern_ok e n (q_p q) D) as (b & ->); [intros x E; apply H; right; now left|]. cbn [bind].
  destruct (pattern_ok e n (q_o q) D) as (c & ->); [intros x E; apply H; do 2 right; now left|]. cbn [bind].
  destruct (q_g q) as [g|] eqn:EG; [|now eexists].
  destruct (pattern_ok e n g D) as (d & ->); [intros x E; apply H; do 3 right; now rewrite EG, E|]. now eexists.
Qed.
Lemma quads_ok e n (qs : list (qpat Q)) : declares e n -> bounded n qs ->
  exists l, mapM (instantiate_quad ops e) qs = Ok l /\ Forall2 (fun q r => instantiate_quad ops e q = Ok r) qs l.
Proof.
  intros D. induction qs as [|q qs IH]; intros B; cbn [mapM]; [eexists; split; [reflexivity|constructor]|].
  destruct (quad_ok e n q D) as (r & E); [intros x V; apply B; exists q; split; [now left|exact V]|].
  destruct IH as (l & E1 & F); [intros x (p & I0 & V); apply B; exists p; split; [now right|exact V]|].
  exists (r :: l). rewrite E, E1. split; [reflexivity|]. now constructor.
Qed.
Lemma instances_same e (qs qs' : list (qpat Q)) l l' : same_patterns qs qs' ->
  Forall2 (fun q r => instantiate_quad ops e q = Ok r) qs l -> Forall2 (fun q r => instantiate_quad ops e q = Ok r) qs' l' ->
  forall r, In r l -> In r l'.
Proof.
  intros H F F' r I0.
  assert (K : exists q, In q qs /\ instantiate_quad ops e q = Ok r).
  { clear -F I0. induction F as [|q a qs l E F IH]; [destruct I0|]. destruct I0 as [<-|I0]; [exists q; split; [now left|exact E]|].
    destruct (IH I0) as (q' & A & B). exists q'. split; [now right|exact B]. }
  destruct K as (q & Iq & E). apply H in Iq. clear -F' Iq E.
  induction F' as [|q' a qs l E' F' IH]; [destruct Iq|]. destruct Iq as [->|Iq]; [left; congruence|right; auto].
Qed.
Lemma dataset_run e (qs : list (qpat Q)) l : Forall2 (fun q r => instantiate_quad ops e q = Ok r) qs l ->
  forall st, instantiate_dataset ops e qs st = (Ok tt, DState (ds_interp st) (fold_left (fun d q => ds_insert q d) l (ds_output st))).
Proof.
  intros F. induction F as [|q r qs l E F IH]; intros st; cbn [instantiate_dataset]; [destruct st; reflexivity|].
  unfold bindM at 1. cbn [lift]. rewrite E. unfold bindM, emit. cbn [fold_left]. rewrite IH. reflexivity.
Qed.

Lemma bounded_same n qs qs' : same_patterns qs qs' -> bounded n qs -> bounded n qs'.
Proof. intros H B x (p & I0 & V). apply B. exists p. split; [now apply H|exact V]. Qed.

Lemma sim_dataset e n qs qs' : declares e n -> bounded n qs -> same_patterns qs qs' ->
  sim eq (instantiate_dataset (I := I) ops e qs) (instantiate_dataset ops e qs').
Proof.
  intros D B H. destruct (quads_ok e n qs D B) as (l & _ & F). destruct (quads_ok e n qs' D (bounded_same n qs qs' H B)) as (l' & _ & F').
  intros st st' [E1 E2]. rewrite (dataset_run _ _ _ F), (dataset_run _ _ _ F'). cbn [fst snd]. split; [|reflexivity]. split; [exact E1|].
  cbn [ds_output]. intros q. rewrite !emit_In, E2.
  pose proof (instances_same e qs qs' l l' H F F' q). pose proof (instances_same e qs' qs l' l (patterns_sym _ _ H) F' F q). tauto.
Qed.
Lemma sim_open e n k qs qs' : declares e n -> bounded (n + k) qs -> same_patterns qs qs' ->
  sim (fun a a' => a = a' /\ declares a (n + k)) (open (I := I) ops e k qs) (open ops e k qs').
Proof.
  intros D B H. unfold open. eapply sim_bind; [apply (sim_intro e k n D)|]. intros e1 ? (<- & D1).
  apply (sim_bind eq); [now apply (sim_dataset e1 (n + k))|]. intros _ _ _. apply sim_ret. auto.
Qed.

Section Rec.
Variables rec rec' : value -> option S -> Q -> list S -> M unit.
Hypothesis RECS : forall v g r ins, sim eq (rec v g r ins) (rec' v g r ins).

Lemma sim_sub v g vf e : sim eq (dehydrate_sub_value ops rec v g vf e) (dehydrate_sub_value ops rec' v g vf e).
Proof.
  unfold dehydrate_sub_value. apply (sim_bind eq); [now apply sim_lift|]. intros ins ? <-. apply (sim_bind eq).
  - destruct (vf_graph vf) as [[p|]|]; try (now apply sim_ret). apply (sim_bind eq); [now apply sim_lift|]. intros r ? <-. now apply sim_ret.
  - intros g' ? <-. apply RECS.
Qed.

Definition same_selection (a a' : option (list (quad S))) : Prop :=
  match a, a' with
  | None, None => True
  | Some d, Some d' => forall q, In q d <-> In q d'
  | _, _ => False
  end.

Lemma sim_variants v g e n vs vs' : declares e n -> Forall2 reordered_variant vs vs' ->
  (forall va, In va vs -> bounded (n + it_intro (va_item va)) (it_dataset (va_item va))) ->
  forall sel sel', same_selection sel sel' ->
  sim same_selection (dehydrate_variants ops rec v g e vs sel) (dehydrate_variants ops rec' v g e vs' sel').
Proof.
  intros D F. induction F as [|va va' vs vs' (_ & E1 & E2 & E3) F IH]; intros B sel sel' SS; cbn [dehydrate_variants]; [now apply sim_ret|].
  assert (IH' := IH (fun va I => B va (or_intror I))). rewrite <- E1.
  eapply sim_bind; [apply (sim_intro e _ n D)|]. intros e1 ? (<- & D1).
  pose proof (B va (or_introl eq_refl)) as B1.
  destruct (quads_ok e1 _ _ D1 B1) as (l & L1 & L2). destruct (quads_ok e1 _ _ D1 (bounded_same _ _ _ E3 B1)) as (l' & L1' & L2').
  apply (sim_bind (fun d d' => forall q, In q d <-> In q d')).
  { unfold instantiate_variant_dataset. rewrite L1, L1'. cbn [bind]. intros st st' E. split; [exact E|]. cbn [lift fst]. intros q. rewrite !emit_In.
    pose proof (instances_same e1 _ _ l l' E3 L2 L2' q). pose proof (instances_same e1 _ _ l' l (patterns_sym _ _ E3) L2' L2 q). tauto. }
  intros d d' HD. rewrite <- E2. apply (sim_bind eq); [eapply sim_is_ok, sim_sub|]. intros ok ? <-. destruct ok; [|now apply IH'].
  destruct sel, sel'; try contradiction; [apply sim_raise|now apply IH'].
Qed.

Lemma field_get (fs fs' : list (value * field Q)) k : Forall2 reordered_field fs fs' ->
  match bt_get k fs, bt_get k fs' with
  | None, None => True
  | Some f, Some f' => reordered_item (f_item f) (f_item f')
  | _, _ => False
  end.
Proof.
  intros F. induction F as [|[k1 f] [k2 f'] fs fs' (E1 & E2 & _) F IH]; cbn [bt_get]; [exact Logic.I|].
  cbn [fst snd] in *. subst k2. destruct (eqb k k1); auto.
Qed.

Lemma sim_entries g e n fs fs' : declares e n -> Forall2 reordered_field fs fs' ->
  (forall k f, In (k, f) fs -> bounded (n + it_intro (f_item f)) (it_dataset (f_item f))) ->
  forall entries, sim eq (dehydrate_entries ops rec g e fs entries) (dehydrate_entries ops rec' g e fs' entries).
Proof.
  intros D F B. induction entries as [|[k v] entries IH]; cbn [dehydrate_entries]; [now apply sim_ret|].
  pose proof (field_get fs fs' k F) as K. destruct (bt_get k fs) as [f|] eqn:E, (bt_get k fs') as [f'|]; try contradiction; [|apply sim_raise].
  destruct K as (E1 & E2 & E3). rewrite <- E1, <- E2. apply bt_get_In in E.
  eapply sim_bind; [apply (sim_open e n _ _ _ D); [apply (B k f E)|exact E3]|]. intros e1 ? (<- & D1).
  apply (sim_bind eq); [apply sim_sub|]. intros _ _ _. exact IH.
Qed.
Lemma sim_required ref entries fs fs' : Forall2 reordered_field fs fs' ->
  sim eq (check_required (S := S) (I := I) ref entries fs) (check_required ref entries fs').
Proof.
  intros F. induction F as [|[k1 f] [k2 f'] fs fs' (E1 & _ & E2) F IH]; cbn [check_required]; [now apply sim_ret|].
  cbn [fst snd] in *. subst k2. rewrite <- E2. destruct (f_required f && _); [apply sim_raise|exact IH].
Qed.
Lemma sim_items g e n it it' : declares e n -> reordered_item it it' -> bounded (n + it_intro it) (it_dataset it) ->
  forall l, sim eq (dehydrate_items ops rec g e it l) (dehydrate_items ops rec' g e it' l).
Proof.
  intros D (E1 & E2 & E3) B. induction l as [|v l IH]; cbn [dehydrate_items]; [now apply sim_ret|]. rewrite <- E1, <- E2.
  eapply sim_bind; [now apply (sim_open e n)|]. intros e1 ? (<- & D1). apply (sim_bind eq); [apply sim_sub|]. intros _ _ _. exact IH.
Qed.
Lemma sim_nodes g e n it it' tl : declares e n -> reordered_item it it' -> bounded (n + 2 + it_intro it) (it_dataset it) ->
  forall l hd, sim eq (dehydrate_nodes ops rec g e it tl hd l) (dehydrate_nodes ops rec' g e it' tl hd l).
Proof.
  intros D (E1 & E2 & E3) B. induction l as [|v l IH]; intros hd; cbn [dehydrate_nodes]; [now apply sim_ret|].
  apply (sim_bind eq); [destruct l; [now apply sim_lift|apply sim_new]|]. intros rest ? <-. rewrite <- E1, <- E2.
  eapply sim_bind; [apply (sim_open _ (n + 2)); [|exact B|exact E3]|].
  { unfold declares, env_bind in *. cbn [env_list]. rewrite app_length. cbn. lia. }
  intros e1 ? (<- & D1). apply (sim_bind eq); [apply sim_sub|]. intros _ _ _. apply IH.
Qed.
Lemma sim_tuple g e n its its' : declares e n -> Forall2 reordered_item its its' ->
  (forall it, In it its -> bounded (n + it_intro it) (it_dataset it)) ->
  forall l, sim eq (dehydrate_tuple ops rec g e its l) (dehydrate_tuple ops rec' g e its' l).
Proof.
  intros D F. induction F as [|it it' its its' (E1 & E2 & E3) F IH]; intros B l; destruct l as [|v l]; cbn [dehydrate_tuple]; try (now apply sim_ret); try apply sim_raise.
  rewrite <- E1, <- E2. eapply sim_bind; [apply (sim_open e n _ _ _ D); [apply B; now left|exact E3]|]. intros e1 ? (<- & D1).
  apply (sim_bind eq); [apply sim_sub|]. intros _ _ _. apply IH. intros it0 I0. apply B. now right.
Qed.

Lemma sim_literal k v t m : dehydrate_literal (I := I) ops k v t = Some m -> sim eq m m.
Proof.
  destruct k, v; cbn; try discriminate; intros [= <-] [i o] [i' o'] [E H]; cbn in E; subst i';
    unfold dehydrate_boolean, dehydrate_number, dehydrate_byte_string, dehydrate_text_string, panic; cbn [ds_interp].
  - destruct (existsb _ _); split; try reflexivity; split; auto.
  - split; [split; auto|]. cbn. destruct (number_literal _ _); reflexivity.
  - split; [split; auto|reflexivity].
  - destruct (iris_in ops i t); split; try reflexivity; split; auto.
Qed.

Lemma sim_layout v g ref l l' ins : reordered l l' -> (forall x, ~ undeclared_in l x) ->
  (forall n, input_count l = Some n -> length ins = n) ->
  sim eq (dehydrate_layout ops rec v g ref l ins) (dehydrate_layout ops rec' v g ref l' ins).
Proof.
  intros H U A.
  assert (D : forall n, input_count l = Some n -> declares (Root ins) n) by (intros n E; unfold declares; cbn; now rewrite (A n E)).
  assert (LT : forall n x, ~ n <= x -> x < n) by (intros; lia).
  destruct H as [| |h h' c (_ & E1 & E2)|k h h' r d (_ & E1 & E2)|h h' r p (_ & E1 & E2)|h h' fs fs' (E0 & E1 & E2) F|h h' vs vs' (E0 & E1 & E2) F
    |h h' i i' (E0 & E1 & E2) F|h h' i i' a b (E0 & E1 & E2) F|h h' its its' (E0 & E1 & E2) F]; cbn [dehydrate_layout]; try rewrite <- E1.
  - apply sim_raise.
  - now apply sim_ret.
  - destruct (eqb v c); [|apply sim_raise]. eapply sim_bind; [apply (sim_open _ 1); [now apply D| |exact E2]|intros; now apply sim_ret].
    intros x V. apply LT. intros N. apply (U x). now split.
  - destruct v as [v| |]; try apply sim_raise. destruct (dehydrate_literal ops k v (into ops d)) as [m|] eqn:EL; [|apply sim_raise].
    eapply sim_bind; [apply (sim_open _ 1); [now apply D| |exact E2]|].
    { intros x V. apply LT. intros N. apply (U x). left. now split. }
    intros e1 ? (<- & D1). apply (sim_bind eq); [now apply sim_lift|]. intros r1 ? <-. apply (sim_bind eq); [exact (sim_literal _ _ _ _ EL)|].
    intros lit ? <-. apply sim_assign_literal.
  - destruct v as [[]| |]; try apply sim_raise.
    eapply sim_bind; [apply (sim_open _ 1); [now apply D| |exact E2]|].
    { intros x V. apply LT. intros N. apply (U x). left. now split. }
    intros e1 ? (<- & D1). apply (sim_bind eq); [now apply sim_lift|]. intros r1 ? <-. destruct (is_iri _); [apply sim_assign_iri|apply sim_raise].
  - destruct v as [|es|]; try apply sim_raise.
    eapply sim_bind; [apply (sim_open _ (h_input h)); [now apply D| |exact E2]|].
    { intros x V. apply LT. intros N. apply (U x). left. now split. }
    intros e1 ? (<- & D1). apply (sim_bind eq); [|intros; now apply sim_required].
    apply (sim_entries g e1 _ fs fs' D1 F). intros k f I0 x V. apply LT. intros N. apply (U x). right. exists k, f. split; [exact I0|]. split; [now left|exact N].
  - eapply sim_bind; [apply (sim_open _ (h_input h)); [now apply D| |exact E2]|].
    { intros x V. apply LT. intros N. apply (U x). left. now split. }
    intros e1 ? (<- & D1). eapply sim_bind; [apply (sim_variants v g e1 _ vs vs' D1 F)|].
    + intros va I0 x V. apply LT. intros N. apply (U x). right. exists va. split; [exact I0|]. split; [now left|exact N].
    + exact Logic.I.
    + intros [d|] [d'|] SS; try contradiction; [now apply sim_emit|apply sim_raise].
  - destruct v as [| |l0]; try apply sim_raise.
    eapply sim_bind; [apply (sim_open _ (h_input h)); [now apply D| |exact E2]|].
    { intros x V. apply LT. intros N. apply (U x). left. now split. }
    intros e1 ? (<- & D1). apply (sim_items g e1 _ i i' D1 F). intros x V. apply LT. intros N. apply (U x). right. split; [now left|exact N].
  - destruct v as [| |l0]; try apply sim_raise.
    eapply sim_bind; [apply (sim_open _ (h_input h)); [now apply D| |exact E2]|].
    { intros x V. apply LT. intros N. apply (U x). left. now split. }
    intros e1 ? (<- & D1). apply (sim_bind eq); [now apply sim_lift|]. intros hd ? <-.
    apply (sim_nodes g e1 _ i i' b D1 F). intros x V. apply LT. intros N. apply (U x). right. right. split; [now left|exact N].
  - destruct v as [| |l0]; try apply sim_raise.
    eapply sim_bind; [apply (sim_open _ (h_input h)); [now apply D| |exact E2]|].
    { intros x V. apply LT. intros N. apply (U x). left. now split. }
    intros e1 ? (<- & D1). apply (sim_tuple g e1 _ its its' D1 F). intros it I0 x V. apply LT. intros N. apply (U x). right. exists it.
    split; [exact I0|]. split; [now left|exact N].
Qed.
End Rec.

Variables reg reg' : registry Q.
Hypothesis RR : reordered_registry reg reg'.
Hypothesis SC : forall r l x, reg r = Some l -> ~ undeclared_in l x.

Lemma count_same (l l' : layout Q) : reordered l l' -> input_count l' = input_count l.
Proof. intros H. destruct H as [| | | | |h h' fs fs' (A & _)|h h' vs vs' (A & _)|h h' i i' (A & _)|h h' i i' a b (A & _)|h h' l l' (A & _)]; cbn; congruence. Qed.

Lemma sim_dehydrate fuel v g ref ins : sim eq (dehydrate_with ops reg fuel v g ref ins) (dehydrate_with ops reg' fuel v g ref ins).
Proof.
  revert v g ref ins. induction fuel as [|fuel IH]; intros v g ref ins; cbn [dehydrate_with].
  { intros st st' E. split; [exact E|exact Logic.I]. }
  unfold dehydrate_body. pose proof (RR ref) as K. destruct (reg ref) as [l|] eqn:E, (reg' ref) as [l'|]; try contradiction; [|apply sim_raise].
  rewrite (count_same l l' K). destruct (input_count l) as [n|] eqn:C.
  - destruct (Nat.eqb_spec n (length ins)) as [L|L]; [|apply sim_raise]. apply sim_layout; auto; [intros x; now apply (SC ref)|]. intros n0 E0. congruence.
  - apply sim_layout; auto; [intros x; now apply (SC ref)|]. intros n0 E0. congruence.
Qed.
End Dehydrate.
