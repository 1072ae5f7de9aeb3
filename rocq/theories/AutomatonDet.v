(** * Determinization: lemmas *)

From Coq Require Import String List Bool Arith NArith Lia Sorted Relations.
Import ListNotations.
From Verif Require Import Base BaseProofs Orders CharModel AutomatonModel AutomatonSpec AutomatonProofs.
Open Scope list_scope.

Lemma collect_elim {K V} `{CmpLaws K} (l : list (K * V)) x y :
  In (x, y) (bt_collect l) -> NoDup (keys l) -> In (x, y) l.
Proof. intros H1 H2. now apply (proj1 (bt_collect_In l x y H2)). Qed.

Section Det.
Context {Q : Type} {CQ : Cmp Q} {LQ : CmpLaws Q}.
Variable a : nfa Q.
Hypothesis W : nfa_wf a.

Definition eps : Q -> Q -> Prop := clos_refl_trans Q (fun q q' => n_edge a q None q').

Lemma epsilon_edge q q' : In q' (epsilon_successors a q) <-> n_edge a q None q'.
Proof.
  destruct W as [W1 W2]. unfold epsilon_successors, n_edge. split.
  - destruct (bt_get q (n_transitions a)) as [ts|] eqn:E1; [|intros []].
    destruct (bt_get None ts) as [qs|] eqn:E2; [|intros []]. intro H.
    exists ts, qs. split; [now apply bt_get_In|]. split; [now apply bt_get_In|exact H].
  - intros (ts & qs & H1 & H2 & H3). rewrite (bt_get_wf _ _ _ W1 H1).
    now rewrite (bt_get_wf _ _ _ (proj1 (W2 _ _ H1)) H2).
Qed.

Lemma clos_ext {A} (R1 R2 : A -> A -> Prop) x y :
  (forall x y, R1 x y -> R2 x y) -> clos_refl_trans A R1 x y -> clos_refl_trans A R2 x y.
Proof.
  intros H. induction 1 as [x y Hxy|x|x y z _ IH1 _ IH2]; [apply rt_step; auto|apply rt_refl|eapply rt_trans; eauto].
Qed.

(** A set closed by the steps contains what it reaches. *)
Lemma closed_reaches {A} (R : A -> A -> Prop) (P : A -> Prop) :
  (forall x y, P x -> R x y -> P y) -> forall x y, clos_refl_trans A R x y -> P x -> P y.
Proof. intros HC x y H. induction H as [x y Hxy|x|x y z _ IH1 _ IH2]; eauto. Qed.

Lemma closure_spec fuel qs s : modulo_epsilon_state fuel a qs = Ok s ->
  StronglySorted lt s /\ forall q, In q s <-> exists q0, In q0 qs /\ eps q0 q.
Proof.
  unfold modulo_epsilon_state. intro H. apply bind_Ok in H as (r & H & [= <-]).
  split; [apply set_collect_sorted|]. intro q. rewrite set_collect_In.
  apply explore_spec in H as (new & -> & _ & HS & HN). cbn [app] in *. split.
  - intro Hq. apply in_map_iff in Hq as ([k b] & <- & Hk). apply HN in Hk as (x & l & <- & Hv & (x0 & Hx0 & R) & _).
    exists x0. split; [now apply in_rev|]. eapply clos_ext; [|exact R].
    intros y z (l' & b' & [= <- <-] & Hz). now apply epsilon_edge.
  - intros (q0 & H0 & R).
    apply (closed_reaches _ (fun q => In q (keys new)) ) with (2 := R).
    + intros x y Hx Hxy. apply in_map_iff in Hx as ([k b] & <- & Hk).
      apply HN in Hk as (x & l & <- & [= <- <-] & _ & HX). cbn [fst] in Hxy. apply HX. now apply epsilon_edge.
    + apply HS. now apply in_rev in H0.
Qed.

Lemma extend_closures_spec fuel targets : forall current s, extend_closures fuel a current targets = Ok s ->
  (StronglySorted lt current -> StronglySorted lt s) /\
  forall q, In q s <-> In q current \/ exists t, In t targets /\ eps t q.
Proof.
  induction targets as [|t targets IH]; intros current s H; cbn [extend_closures] in H.
  - injection H as <-. split; [auto|]. intro q. split; [auto|intros [H|(t & [] & _)]; exact H].
  - apply bind_Ok in H as (c & Hc & H). apply closure_spec in Hc as [_ Hc]. apply IH in H as [S1 H1]. split.
    + intro S0. apply S1. now apply set_extend_sorted.
    + intro q. rewrite H1, set_extend_In, Hc. split.
      * intros [[H|(q0 & [<-|[]] & R)]|(t' & Ht' & R)]; [auto| |]; right; eexists; (split; [|exact R]); [now left|now right].
      * intros [H|(t' & [<-|Ht'] & R)]; [auto| |].
        -- left. right. exists t. split; [now left|exact R].
        -- right. eauto.
Qed.

(** The states of [m] for the character [c]. *)
Definition image (m : range_map (list Q)) (c : N) : list Q := match rm_get c m with Some s => s | None => [] end.
Definition rm_good (m : range_map (list Q)) : Prop :=
  rm_from 0 m /\ forall r s, In (r, s) m -> StronglySorted lt s.

Lemma image_sorted m c : rm_good m -> StronglySorted lt (image m c).
Proof.
  intros [G1 G2]. unfold image. destruct (rm_get c m) as [s|] eqn:E; [|constructor].
  apply (rm_get_In m 0 c s G1) in E as (r & H & _). eauto.
Qed.

Lemma rm_update_vals (m : range_map (list Q)) (P : list Q -> Prop) lo hi f :
  (forall r s, In (r, s) m -> P s) -> P (f None) -> (forall s, P s -> P (f (Some s))) ->
  forall r s, In (r, s) (rm_update lo hi f m) -> P s.
Proof.
  intros H1 H2 H3. revert lo. induction m as [|[[x y] v] m IH]; intros lo r s H; cbn [rm_update] in H.
  - destruct H as [[= <- <-]|[]]. exact H2.
  - assert (Hv : P v) by (eapply H1; left; reflexivity).
    assert (Hm : forall r s, In (r, s) m -> P s) by (intros; eapply H1; right; eassumption).
    specialize (IH Hm). destruct (y <? lo)%N.
    + destruct H as [[= <- <-]|H]; [exact Hv|eauto].
    + destruct (hi <? x)%N.
      * destruct H as [[= <- <-]|[[= <- <-]|H]]; eauto.
      * apply in_app_or in H as [H|[[= <- <-]|H]]; [| now apply H3|].
        -- destruct (x <? lo)%N; [destruct H as [[= <- <-]|[]]; exact Hv|].
           destruct (lo <? x)%N; [destruct H as [[= <- <-]|[]]; exact H2|destruct H].
        -- destruct (y <? hi)%N; [eauto|]. destruct (hi <? y)%N; [destruct H as [[= <- <-]|H]; eauto|eauto].
Qed.

Lemma label_spec fuel targets ranges : forall m m',
  determinize_label fuel a ranges targets m = Ok m' -> rm_good m ->
  rm_good m' /\ forall c q, In q (image m' c) <->
    In q (image m c) \/ (cs_mem c ranges = true /\ exists t, In t targets /\ eps t q).
Proof.
  induction ranges as [|r ranges IH]; intros m m' H G; cbn [determinize_label] in H.
  - injection H as <-. split; [exact G|]. intros c q. simpl. intuition discriminate.
  - apply bind_Ok in H as (new & Hn & H). destruct (N.ltb_spec (snd r) (fst r)) as [|LE]; [discriminate|].
    apply extend_closures_spec in Hn as [S1 Hn]. specialize (S1 (SSorted_nil _)).
    set (f := fun o => set_extend match o with Some s => s | None => [] end new) in *.
    destruct G as [G1 G2].
    assert (G' : rm_good (rm_update (fst r) (snd r) f m)).
    { split; [apply rm_update_from; [lia|exact LE|exact G1]|]. apply rm_update_vals; [exact G2| |].
      - apply set_extend_sorted. constructor.
      - intros s Hs. now apply set_extend_sorted. }
    apply IH in H as [G3 H]; [|exact G']. split; [exact G3|]. intros c q. rewrite H. clear H IH.
    unfold image at 1. rewrite (rm_update_get m 0) by (lia || exact G1). cbn [cs_mem existsb].
    destruct r as [lo hi]. cbn [fst snd] in *. fold (image m c).
    destruct (in_range (lo, hi) c) eqn:Er; cbn [orb].
    + unfold f. rewrite set_extend_In, Hn. fold (image m c). simpl. tauto.
    + unfold image. tauto.
Qed.

Lemma labels_spec fuel ts : forall m m',
  determinize_labels fuel a ts m = Ok m' -> rm_good m ->
  rm_good m' /\ forall c q, In q (image m' c) <->
    In q (image m c) \/ (exists l qs t, In (Some l, qs) ts /\ cs_mem c l = true /\ In t qs /\ eps t q).
Proof.
  induction ts as [|[[l|] qs] ts IH]; intros m m' H G; cbn [determinize_labels] in H.
  - injection H as <-. split; [exact G|]. intros c q. split; [auto|]. intros [H|(l & qs & t & [] & _)]. exact H.
  - apply bind_Ok in H as (m1 & H1 & H). apply label_spec in H1 as [G1 H1]; [|exact G].
    apply IH in H as [G2 H]; [|exact G1]. split; [exact G2|]. intros c q. rewrite H, H1. split.
    + intros [[Hq|(Hc & t & Ht & He)]|(l' & qs' & t & Hl & Hr)]; [auto| |].
      * right. exists l, qs, t. split; [now left|auto].
      * right. exists l', qs', t. split; [now right|exact Hr].
    + intros [Hq|(l' & qs' & t & [[= -> ->]|Hl] & Hc & Ht & He)]; [auto| |].
      * left. right. eauto.
      * right. exists l', qs', t. auto.
  - apply IH in H as [G2 H]; [|exact G]. split; [exact G2|]. intros c q. rewrite H. split.
    + intros [Hq|(l' & qs' & t & Hl & Hr)]; [auto|]. right. exists l', qs', t. split; [now right|exact Hr].
    + intros [Hq|(l' & qs' & t & [Hl|Hl] & Hr)]; [auto|discriminate|]. right. exists l', qs', t. auto.
Qed.

Lemma states_spec fuel ss : forall m m',
  determinize_states fuel a ss m = Ok m' -> rm_good m ->
  rm_good m' /\ forall c q, In q (image m' c) <->
    In q (image m c) \/ (exists p l t, In p ss /\ n_edge a p (Some l) t /\ cs_mem c l = true /\ eps t q).
Proof.
  destruct W as [W1 W2].
  induction ss as [|p ss IH]; intros m m' H G; cbn [determinize_states] in H.
  - injection H as <-. split; [exact G|]. intros c q. split; [auto|]. intros [H|(p & l & t & [] & _)]. exact H.
  - apply bind_Ok in H as (m1 & H1 & H).
    assert (K : rm_good m1 /\ forall c q, In q (image m1 c) <-> In q (image m c) \/
      exists l t, n_edge a p (Some l) t /\ cs_mem c l = true /\ eps t q).
    { destruct (bt_get p (n_transitions a)) as [ts|] eqn:E.
      - apply labels_spec in H1 as [G1 H1]; [|exact G]. split; [exact G1|]. intros c q. rewrite H1.
        split; (intros [Hq|Hq]; [auto|right]).
        + destruct Hq as (l & qs & t & Hl & Hc & Ht & He). exists l, t. split; [|auto].
          exists ts, qs. split; [now apply bt_get_In|auto].
        + destruct Hq as (l & t & (ts' & qs & Hp & Hl & Ht) & Hc & He).
          rewrite (bt_get_wf _ _ _ W1 Hp) in E. injection E as ->. exists l, qs, t. auto.
      - injection H1 as <-. split; [exact G|]. intros c q. split; [auto|].
        intros [Hq|(l & t & (ts' & qs & Hp & _) & _)]; [exact Hq|]. rewrite (bt_get_wf _ _ _ W1 Hp) in E. discriminate. }
    destruct K as [G1 K]. apply IH in H as [G2 H]; [|exact G1]. split; [exact G2|]. intros c q. rewrite H, K. split.
    + intros [[Hq|(l & t & Hr)]|(p' & l & t & Hp & Hr)]; [auto| |].
      * right. exists p, l, t. split; [now left|exact Hr].
      * right. exists p', l, t. split; [now right|exact Hr].
    + intros [Hq|(p' & l & t & [<-|Hp] & Hr)]; [auto| |].
      * left. right. eauto.
      * right. exists p', l, t. auto.
Qed.

(** The ranges of a range map are distinct. *)
Lemma rm_from_NoDup {V} (m : range_map V) : forall k, rm_from k m -> NoDup (keys m).
Proof.
  induction m as [|[[x y] v] m IH]; intros k H; [constructor|]. destruct H as (H1 & H2 & H3). cbn [keys map fst].
  constructor; [|eapply IH; exact H3]. intro HI. apply in_map_iff in HI as ([r' v'] & E & HI). cbn [fst] in E. subst r'.
  assert (forall k (m : range_map V), rm_from k m -> In ((x, y), v') m -> (k <= x)%N) as HF.
  { clear. intros k m. revert k. induction m as [|[[a b] v] m IH]; intros k W H; [destruct H|].
    destruct W as (W1 & W2 & W3). destruct H as [[= <- <- <-]|H]; [exact W1|]. specialize (IH _ W3 H). lia. }
  specialize (HF _ _ H3 HI). lia.
Qed.

(** Runs of the automaton. *)
Lemma run_app q w1 r w2 s : n_run a q w1 r -> n_run a r w2 s -> n_run a q (w1 ++ w2) s.
Proof. induction 1; intros; simpl; eauto using nr_epsilon, nr_char. Qed.

Lemma eps_run q r : eps q r <-> n_run a q [] r.
Proof.
  split.
  - intro H. unfold eps in H. apply clos_rt_rt1n in H. induction H as [q|q q' r E _ IH]; [constructor|]. eapply nr_epsilon; eauto.
  - remember [] as w eqn:Ew. intro H. revert Ew. induction H as [q|q q' w r E _ IH|q s c q' w r E Hc _ IH]; intro Ew; [apply rt_refl| |discriminate].
    eapply rt_trans; [apply rt_step; exact E|exact (IH Ew)].
Qed.

Lemma run_char q c w r : n_run a q (c :: w) r <->
  exists p l t, eps q p /\ n_edge a p (Some l) t /\ cs_mem c l = true /\ n_run a t w r.
Proof.
  split.
  - remember (c :: w) as u eqn:Eu. intro H. revert c w Eu.
    induction H as [q|q q' u r E _ IH|q s c' q' u r E Hc H _]; intros c w Eu; [discriminate| |].
    + destruct (IH c w Eu) as (p & l & t & He & Hr). exists p, l, t. split; [|exact Hr].
      eapply rt_trans; [apply rt_step; exact E|exact He].
    + injection Eu as -> ->. exists q, s, q'. split; [apply rt_refl|auto].
  - intros (p & l & t & He & E & Hc & H). change (c :: w) with ([] ++ c :: w). eapply run_app; [apply eps_run; exact He|].
    eapply nr_char; eassumption.
Qed.

(** ** The automaton built *)

Definition eps_closed (s : list Q) : Prop := forall q r, In q s -> eps q r -> In r s.

Section Built.
Variable fuel : nat.
Variable d : dfa (list Q) (N * N).
Hypothesis HD : determinize fuel a = Ok d.

Lemma det_states : exists visited : list (list Q),
  In (d_initial d) visited /\
  (forall q, In q (d_initial d) <-> exists i, In i (n_initial a) /\ eps i q) /\
  (forall s, In s visited -> StronglySorted lt s /\ eps_closed s) /\
  (forall s, In s (d_final d) <-> In s visited /\ exists q, In q s /\ In q (n_final a)) /\
  bt_wf (d_transitions d) /\
  (forall s, In s visited <-> In s (keys (d_transitions d))) /\
  (forall s ts, In (s, ts) (d_transitions d) -> exists m, rm_good m /\ ts = bt_collect m /\
     (forall r s', In (r, s') m -> In s' visited) /\
     forall c q, In q (image m c) <->
       exists p l t, In p s /\ n_edge a p (Some l) t /\ cs_mem c l = true /\ eps t q).
Proof.
  unfold determinize in HD. apply bind_Ok in HD as (init & HI & H). apply bind_Ok in H as (vis & H & [= <-]).
  apply closure_spec in HI as [SI HI]. apply explore_spec in H as (new & -> & ND & HS & HN). cbn [app] in *.
  specialize (ND (NoDup_nil _)). cbn [d_initial d_final d_transitions].
  assert (HV : forall s b, In (s, b) new -> exists m, rm_good m /\ b = (existsb (fun q => mem q (n_final a)) s, bt_collect m) /\
    (forall r s', In (r, s') m -> In s' (keys new)) /\
    forall c q, In q (image m c) <-> exists p l t, In p s /\ n_edge a p (Some l) t /\ cs_mem c l = true /\ eps t q).
  { intros s b Hs. apply HN in Hs as (s' & l & -> & Hv & _ & HX). apply bind_Ok in Hv as (ts & Hts & [= <- <-]).
    apply bind_Ok in Hts as (m & Hm & [= <-]). apply states_spec in Hm as [G Hm]; [|split; [exact Logic.I|intros ? ? []]].
    exists m. split; [exact G|]. split; [reflexivity|]. split.
    - intros r s' Hr. apply HX. apply in_map_iff. exists (r, s'). split; [reflexivity|].
      apply bt_collect_In; [|exact Hr]. eapply rm_from_NoDup. apply G.
    - intros c q. rewrite Hm. simpl. split; [intros [[]|H]; exact H|auto]. }
  exists (keys new).
  assert (HC : forall s, In s (keys new) -> StronglySorted lt s /\ eps_closed s).
  { intros s Hs. apply in_map_iff in Hs as ([s' b] & <- & Hs). apply HN in Hs as (s0 & l & <- & _ & (x0 & [<-|[]] & R) & _).
    cbn [fst]. revert R.
    assert (HP0 : StronglySorted lt init /\ eps_closed init).
    { split; [exact SI|]. intros q r Hq Hr. apply HI in Hq as (i & Hi & He). apply HI. exists i. split; [exact Hi|].
      eapply rt_trans; eassumption. }
    intro R. revert HP0. apply (closed_reaches _ (fun s => StronglySorted lt s /\ eps_closed s)) with (2 := R).
    clear R. intros x y [Sx Cx] (l' & b' & Hv & Hy). apply bind_Ok in Hv as (ts & Hts & [= <- <-]).
    apply bind_Ok in Hts as (m & Hm & [= <-]). apply states_spec in Hm as [G Hm]; [|split; [exact Logic.I|intros ? ? []]].
    apply in_map_iff in Hy as ([r s] & <- & Hy). apply collect_elim in Hy; [|eapply rm_from_NoDup; apply G].
    cbn [snd]. split; [eapply G; exact Hy|]. intros q r' Hq Hr'.
    assert (Ei : image m (fst r) = s).
    { unfold image. assert (rm_get (fst r) m = Some s) as ->; [|reflexivity]. apply (rm_get_In m 0); [apply G|].
      exists r. split; [exact Hy|]. assert (forall k (m : range_map (list Q)), rm_from k m -> In (r, s) m -> (fst r <= snd r)%N) as HF.
      { clear. intros k m. revert k. induction m as [|[[a b] v] m IH]; intros k W H; [destruct H|].
        destruct W as (W1 & W2 & W3). destruct H as [[= <- <-]|H]; [exact W2|eauto]. }
      specialize (HF _ _ (proj1 G) Hy). split; lia. }
    rewrite <- Ei in Hq |- *. apply Hm in Hq as [[]|(p & lb & t & Hp & He & Hc & Ht)].
    apply Hm. right. exists p, lb, t. split; [exact Hp|]. split; [exact He|]. split; [exact Hc|].
    eapply rt_trans; eassumption. }
  assert (NDk : NoDup (keys (map (fun x : list Q * (bool * list (N * N * list Q)) => (fst x, snd (snd x))) new))).
  { unfold keys. rewrite map_map. cbn [fst]. exact ND. }
  split; [apply HS; now left|]. split; [exact HI|]. split; [exact HC|]. split; [|split; [apply bt_collect_wf|split]].
  - intro s. rewrite set_collect_In, in_map_iff. split.
    + intros ([s' [fin ts]] & <- & Hf). apply filter_In in Hf as [Hs Hf]. cbn [fst snd] in *. split.
      * apply in_map_iff. now exists (s', (fin, ts)).
      * apply HV in Hs as (m & _ & [= -> _] & _). apply existsb_exists in Hf as (q & Hq & Hf). exists q. split; [exact Hq|]. now apply mem_In.
    + intros [Hs (q & Hq & Hf)]. apply in_map_iff in Hs as ([s' b] & <- & Hs). exists (s', b). split; [reflexivity|].
      apply filter_In. split; [exact Hs|]. apply HV in Hs as (m & _ & -> & _). cbn [fst snd].
      apply existsb_exists. exists q. split; [exact Hq|]. now apply mem_In.
  - intro s. split.
    + intro Hs. apply in_map_iff in Hs as ([s' b] & <- & Hs). apply in_map_iff. exists (s', snd b). split; [reflexivity|].
      apply bt_collect_In; [exact NDk|]. apply in_map_iff. now exists (s', b).
    + intro Hs. apply in_map_iff in Hs as ([s' ts] & <- & Hs). apply collect_elim in Hs; [|exact NDk].
      apply in_map_iff in Hs as ([s0 b] & [= <- <-] & Hs). apply in_map_iff. now exists (s0, b).
  - intros s ts Hs. apply collect_elim in Hs; [|exact NDk]. apply in_map_iff in Hs as ([s0 b] & [= <- <-] & Hs).
    apply HV in Hs as (m & G & -> & HK & HM). exists m. split; [exact G|]. split; [reflexivity|]. split; [exact HK|exact HM].
Qed.

Theorem det_language w : d_accepts range_has d w <-> n_accepts a w.
Proof.
  destruct det_states as (vis & VI & HI & HC & HF & WT & HK & HT).
  assert (SND : forall s w s', d_run range_has d s w s' -> In s vis ->
    In s' vis /\ forall x, In x s' <-> exists q, In q s /\ n_run a q w x).
  { intros s w0 s' R. induction R as [s|s r c s1 w0 s' (ts & Hs & Hr) Hc R IH]; intro Vs.
    - split; [exact Vs|]. intro x. split.
      + intro Hx. exists x. split; [exact Hx|constructor].
      + intros (q & Hq & Hx). apply eps_run in Hx. eapply (proj2 (HC s Vs)); eassumption.
    - destruct (HT _ _ Hs) as (m & G & -> & HV & HM). apply collect_elim in Hr; [|eapply rm_from_NoDup; apply G].
      destruct (IH (HV _ _ Hr)) as [V' IH']. split; [exact V'|]. intro x. rewrite IH'.
      assert (Ei : image m c = s1).
      { unfold image. assert (rm_get c m = Some s1) as ->; [|reflexivity]. apply (rm_get_In m 0); [apply G|]. eauto. }
      split.
      + intros (t' & Ht' & Hx). rewrite <- Ei in Ht'. apply HM in Ht' as (p & l & t & Hp & He & Hl & Ht).
        exists p. split; [exact Hp|]. apply run_char. exists p, l, t. split; [apply rt_refl|]. split; [exact He|].
        split; [exact Hl|]. change w0 with ([] ++ w0). eapply run_app; [apply eps_run; exact Ht|exact Hx].
      + intros (q & Hq & Hx). apply run_char in Hx as (p & l & t & Hp & He & Hl & Hx). exists t. split; [|exact Hx].
        rewrite <- Ei. apply HM. exists p, l, t. split; [eapply (proj2 (HC s Vs)); eassumption|]. split; [exact He|].
        split; [exact Hl|apply rt_refl]. }
  assert (EX : forall w s q x, In s vis -> In q s -> n_run a q w x -> exists s', d_run range_has d s w s').
  { clear w. intro w. induction w as [|c w IH]; intros s q x Vs Hq Hx; [exists s; constructor|].
    apply run_char in Hx as (p & l & t & Hp & He & Hl & Hx).
    assert (Hs : In s (keys (d_transitions d))) by now apply HK.
    apply in_map_iff in Hs as ([s0 ts] & <- & Hs). cbn [fst] in *.
    destruct (HT _ _ Hs) as (m & G & -> & HV & HM).
    assert (Ht : In t (image m c)).
    { apply HM. exists p, l, t. split; [eapply (proj2 (HC s0 Vs)); eassumption|]. split; [exact He|]. split; [exact Hl|apply rt_refl]. }
    unfold image in Ht. destruct (rm_get c m) as [s1|] eqn:E1; [|destruct Ht].
    apply (rm_get_In m 0) in E1 as (r & Hr & Hc); [|apply G].
    destruct (IH s1 t x (HV _ _ Hr) Ht Hx) as (s' & R). exists s'. eapply dr_char; [|exact Hc|exact R].
    exists (bt_collect m). split; [exact Hs|]. apply bt_collect_In; [eapply rm_from_NoDup; apply G|exact Hr]. }
  split.
  - intros (f & Hf & R). apply HF in Hf as [Vf (q & Hq & Hqf)]. destruct (SND _ _ _ R VI) as [_ HX].
    apply HX in Hq as (i & Hi & Hr). apply HI in Hi as (i0 & Hi0 & He). exists i0, q. split; [exact Hi0|]. split; [exact Hqf|].
    change w with ([] ++ w). eapply run_app; [apply eps_run; exact He|exact Hr].
  - intros (i & f & Hi & Hf & R). assert (Hi' : In i (d_initial d)) by (apply HI; exists i; split; [exact Hi|apply rt_refl]).
    destruct (EX w _ i f VI Hi' R) as (s' & R'). exists s'. split; [|exact R'].
    destruct (SND _ _ _ R' VI) as [V' HX]. apply HF. split; [exact V'|]. exists f. split; [|exact Hf].
    apply HX. eauto.
Qed.

Theorem det_deterministic : deterministic range_has d.
Proof.
  destruct det_states as (vis & VI & HI & HC & HF & WT & HK & HT).
  intros s r r' s1 s2 c (ts & Hs & Hr) (ts' & Hs' & Hr') Hc Hc'.
  assert (ts' = ts) as ->.
  { pose proof (bt_get_wf _ _ _ WT Hs) as E. rewrite (bt_get_wf _ _ _ WT Hs') in E. congruence. }
  destruct (HT _ _ Hs) as (m & G & -> & _). assert (ND := rm_from_NoDup m 0 (proj1 G)).
  apply collect_elim in Hr; [|exact ND]. apply collect_elim in Hr'; [|exact ND].
  destruct G as [G _]. clear -G Hr Hr' Hc Hc'. revert G Hr Hr'. generalize 0%N as k. induction m as [|[[x y] v] m IH]; [intros ? ? []|].
  assert (HF : forall k (m : range_map (list Q)) r s, rm_from k m -> In (r, s) m -> (k <= fst r)%N).
  { clear. intros k m. revert k. induction m as [|[[a b] v] m IH]; intros k r s W H; [destruct H|].
    destruct W as (W1 & W2 & W3). destruct H as [[= <- <-]|H]; [exact W1|]. specialize (IH _ _ _ W3 H). lia. }
  intros k (W1 & W2 & W3) [[= <- <-]|Hr] [[= <- <-]|Hr'].
  - auto.
  - specialize (HF _ _ _ _ W3 Hr'). unfold range_has in *. simpl in *. lia.
  - specialize (HF _ _ _ _ W3 Hr). unfold range_has in *. simpl in *. lia.
  - eapply IH; eassumption.
Qed.
End Built.
End Det.
