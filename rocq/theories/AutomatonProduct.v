(** * Products of automata: lemmas *)

From Coq Require Import String List Bool Arith NArith Lia Sorted Relations.
Import ListNotations.
From Verif Require Import Base BaseProofs Orders CharModel CharSpec CharProofs AutomatonModel AutomatonSpec
  AutomatonProofs AutomatonDet AutomatonTerm.
Open Scope list_scope.


Lemma entry_In' {K V} `{CmpLaws K} k (d : V) m : bt_wf m ->
  forall v, In (k, v) m -> entry k d m = v.
Proof. intros W v H1. unfold entry. now rewrite (bt_get_wf _ _ _ W H1). Qed.

Lemma successors_edge {Q} `{CmpLaws Q} (a : nfa Q) q l q' : nfa_wf a ->
  (n_edge a q l q' <-> exists qs, In (l, qs) (successors a q) /\ In q' qs).
Proof.
  intros [W1 W2]. unfold successors. split.
  - intros (ts & qs & H1 & H2 & H3). exists qs. rewrite (entry_In' q [] _ W1 _ H1). auto.
  - intros (qs & H1 & H2). revert H1.
    apply (entry_or (fun ts : transitions Q => In (l, qs) ts -> n_edge a q l q')); [|intros []].
    intros ts Hts Hl. exists ts, qs. auto.
Qed.

Lemma successors_good {Q} `{CmpLaws Q} (a : nfa Q) q s qs : labels_good a -> In (Some s, qs) (successors a q) -> cs_good s.
Proof.
  intros G. unfold successors. apply (entry_or (fun ts : transitions Q => In (Some s, qs) ts -> cs_good s)); [|intros []].
  intros ts H1 H2. eapply G; eassumption.
Qed.

Lemma entry_None {K V} `{CmpLaws K} (m : list (K * list V)) k x : bt_wf m ->
  In x (entry k [] m) <-> exists v, In (k, v) m /\ In x v.
Proof.
  intro W. split.
  - apply (entry_or (fun l => In x l -> exists v, In (k, v) m /\ In x v)); [eauto|intros []].
  - intros (v & H1 & H2). now rewrite (entry_In' k [] _ W _ H1).
Qed.

(** ** Non deterministic automata *)
Section NfaProduct.
Context {Q R S : Type} {CQ : Cmp Q} {CR : Cmp R} {CS : Cmp S} {LQ : CmpLaws Q} {LR : CmpLaws R} {LS : CmpLaws S}.
Variable a : nfa Q.
Variable b : nfa R.
Variable f : Q -> R -> S.
Hypothesis INJ : forall q r q' r', f q r = f q' r' -> q = q' /\ r = r'.
Hypothesis Wa : nfa_wf a.
Hypothesis Wb : nfa_wf b.
Hypothesis Ga : labels_good a.
Hypothesis Gb : labels_good b.

Lemma target_pairs_In s q r qs rs : In (s, (q, r)) (target_pairs f qs rs) <-> s = f q r /\ In q qs /\ In r rs.
Proof.
  unfold target_pairs. rewrite in_flat_map. split.
  - intros (q0 & Hq & H). apply in_map_iff in H as (r0 & [= <- <- <-] & Hr). auto.
  - intros (-> & Hq & Hr). exists q. split; [exact Hq|]. apply in_map_iff. now exists r.
Qed.

(** The transitions out of a pair. *)
Lemma product_edge q r l s q' r' :
  (exists tg, In (l, tg) (product_transitions a b f q r) /\ In (s, (q', r')) tg) <->
  s = f q' r' /\
  match l with
  | Some l => exists la lb, n_edge a q (Some la) q' /\ n_edge b r (Some lb) r' /\ l = charset_intersection la lb /\ l <> []
  | None => n_edge a q None q' /\ n_edge b r None r'
  end.
Proof.
  unfold product_transitions. split.
  - intros (tg & H & Hs). apply in_flat_map in H as ([[la|] qs] & Ha & H).
    + apply in_flat_map in H as ([[lb|] rs] & Hb & H); [|destruct H].
      destruct (charset_intersection la lb) as [|x xs] eqn:E; [destruct H|].
      cbn [cs_is_empty] in H. destruct H as [[= <- <-]|[]]. apply target_pairs_In in Hs as (-> & Hq & Hr). split; [reflexivity|].
      exists la, lb. rewrite (successors_edge a _ _ _ Wa), (successors_edge b _ _ _ Wb). rewrite E.
      split; [eauto|]. split; [eauto|]. split; [reflexivity|discriminate].
    + destruct (bt_get None (entry r [] (n_transitions b))) as [rs|] eqn:E; [|destruct H].
      destruct H as [[= <- <-]|[]]. apply target_pairs_In in Hs as (-> & Hq & Hr). split; [reflexivity|].
      apply bt_get_In in E. rewrite (successors_edge a _ _ _ Wa), (successors_edge b _ _ _ Wb). split; [exists qs; auto|]. exists rs. auto.
  - intros [-> H]. destruct l as [l|].
    + destruct H as (la & lb & Ea & Eb & -> & NE). apply (successors_edge a _ _ _ Wa) in Ea as (qs & Ha & Hq).
      apply (successors_edge b _ _ _ Wb) in Eb as (rs & Hb & Hr). exists (target_pairs f qs rs). split.
      * apply in_flat_map. exists (Some la, qs). split; [exact Ha|]. apply in_flat_map. exists (Some lb, rs). split; [exact Hb|].
        destruct (charset_intersection la lb); [contradiction|]. now left.
      * apply target_pairs_In. auto.
    + destruct H as [Ea Eb]. apply (successors_edge a _ _ _ Wa) in Ea as (qs & Ha & Hq).
      apply (successors_edge b _ _ _ Wb) in Eb as (rs & Hb & Hr). exists (target_pairs f qs rs). split.
      * apply in_flat_map. exists (None, qs). split; [exact Ha|].
        assert (bt_get None (entry r [] (n_transitions b)) = Some rs) as ->; [|now left].
        apply bt_get_wf; [|exact Hb]. apply (entry_or (fun ts : transitions R => bt_wf ts)); [|constructor].
        intros ts Hts. apply (proj2 Wb _ _ Hts).
      * apply target_pairs_In. auto.
Qed.

Lemma add_targets_spec ts : forall m, bt_wf m ->
  bt_wf (fold_left (@add_targets Q R S _) ts m) /\
  forall l s, (exists ss, In (l, ss) (fold_left (@add_targets Q R S _) ts m) /\ In s ss) <->
    (exists ss, In (l, ss) m /\ In s ss) \/ exists tg, In (l, tg) ts /\ In s (map fst tg).
Proof.
  induction ts as [|[l0 tg0] ts IH]; intros m W; cbn [fold_left].
  - split; [exact W|]. intros l s. split; [auto|]. intros [H|(tg & [] & _)]; exact H.
  - assert (W' : bt_wf (add_targets m (l0, tg0))) by (apply bt_insert_wf; exact W).
    destruct (IH _ W') as [W2 H]. split; [exact W2|]. intros l s. rewrite H. clear H IH.
    assert (K : (exists ss, In (l, ss) (add_targets m (l0, tg0)) /\ In s ss) <->
      (exists ss, In (l, ss) m /\ In s ss) \/ (l = l0 /\ In s (map fst tg0))).
    { unfold add_targets. cbn [fst snd]. split.
      - intros (ss & H1 & H2). apply (bt_insert_In m) in H1; [|exact W]. destruct H1 as [[-> ->]|[_ H1]]; [|eauto].
        apply set_extend_In in H2 as [H2|H2]; [|auto]. left. now apply entry_None in H2.
      - intros [(ss & H1 & H2)|[-> H2]].
        + destruct (eqb_spec l l0) as [->|N].
          * eexists. split; [apply (bt_insert_In m); [exact W|left; split; reflexivity]|]. apply set_extend_In. left.
            apply entry_None; [exact W|eauto].
          * exists ss. split; [|exact H2]. apply (bt_insert_In m); [exact W|auto].
        + eexists. split; [apply (bt_insert_In m); [exact W|left; split; reflexivity]|]. apply set_extend_In. now right. }
    rewrite K. split.
    + intros [[H|[-> H]]|(tg & H1 & H2)]; [auto| |].
      * right. exists tg0. split; [now left|exact H].
      * right. exists tg. split; [now right|exact H2].
    + intros [H|(tg & [[= -> ->]|H1] & H2)]; [auto|auto|]. right. eauto.
Qed.

Definition cs_label (l : option charset) : Prop := match l with Some s => cs_good s | None => True end.

Lemma add_targets_labels ts : forall m, (forall l, In l (keys m) -> cs_label l) ->
  (forall l tg, In (l, tg) ts -> cs_label l) ->
  forall l, In l (keys (fold_left (@add_targets Q R S _) ts m)) -> cs_label l.
Proof.
  induction ts as [|[l0 tg] ts IH]; intros m Hm Ht l H; [now apply Hm|]. cbn [fold_left] in H. apply (IH _) in H; [exact H| |].
  - intros l1 H1. unfold add_targets in H1. apply (proj1 (bt_insert_keys _ _ _ _)) in H1. destruct H1 as [H1|H1]; [|exact (Hm _ H1)].
    rewrite H1. apply (Ht l0 tg). now left.
  - intros l1 tg1 H1. apply (Ht l1 tg1). now right.
Qed.

Lemma product_labels q r l tg : In (l, tg) (product_transitions a b f q r) -> cs_label l.
Proof.
  intro H. unfold product_transitions in H. apply in_flat_map in H as ([[la|] qs] & Ha & H).
  - apply in_flat_map in H as ([[lb|] rs] & Hb & H); [|destruct H]. destruct (cs_is_empty _); [destruct H|].
    destruct H as [[= <- _]|[]]. apply intersection_good; [exact (successors_good a _ _ _ Ga Ha)|exact (successors_good b _ _ _ Gb Hb)].
  - destruct (bt_get None _); [|destruct H]. destruct H as [[= <- _]|[]]. exact Logic.I.
Qed.

Definition pv (x : S * (Q * R)) : res (list (S * (Q * R)) * (bool * transitions S)) :=
  let '(_, (q, r)) := x in
  let ts := product_transitions a b f q r in
  Ok (flat_map snd ts, (mem q (n_final a) && mem r (n_final b), fold_left (@add_targets Q R S _) ts [])).

Section Built.
Variable fuel : nat.
Variable p : nfa S.
Hypothesis HP : nfa_product a b f fuel = Ok p.

Lemma product_states : exists vis : list S,
  (forall q r, In q (n_initial a) -> In r (n_initial b) -> In (f q r) vis) /\
  (forall s, In s (n_initial p) <-> exists q r, s = f q r /\ In q (n_initial a) /\ In r (n_initial b)) /\
  (forall s, In s vis -> exists q r, s = f q r) /\
  (forall s, In s (n_final p) <-> In s vis /\ exists q r, s = f q r /\ In q (n_final a) /\ In r (n_final b)) /\
  (forall q r l q' r', In (f q r) vis -> n_edge p (f q r) l (f q' r') -> In (f q' r') vis) /\
  (forall s l s', n_edge p s l s' <-> In s vis /\ exists q r q' r', s = f q r /\ s' = f q' r' /\
     exists tg, In (l, tg) (product_transitions a b f q r) /\ In (s', (q', r')) tg) /\
  nfa_wf p /\ labels_good p.
Proof.
  unfold nfa_product in HP. apply bind_Ok in HP as (new & H & [= <-]). cbn [n_initial n_final n_transitions].
  change (explore fst pv fuel (rev (target_pairs f (n_initial a) (n_initial b))) [] = Ok new) in H.
  apply explore_spec in H as (new' & -> & ND & HS & HN). cbn [app] in *. specialize (ND (NoDup_nil _)).
  assert (HV : forall s bb, In (s, bb) new' -> exists q r, s = f q r /\
    bb = (mem q (n_final a) && mem r (n_final b), fold_left (@add_targets Q R S _) (product_transitions a b f q r) []) /\
    forall x, In x (flat_map snd (product_transitions a b f q r)) -> In (fst x) (keys new')).
  { intros s bb Hs. apply HN in Hs as ([s0 [q r]] & l & E & Hv & (x0 & H0 & RR) & HX). cbn [fst] in E. subst s0.
    cbn [pv] in Hv. injection Hv as <- <-. exists q, r. split; [|auto].
    assert (K : (fun x : S * (Q * R) => fst x = f (fst (snd x)) (snd (snd x))) (s, (q, r))).
    { revert RR. intro RR. refine (closed_reaches _ (fun x : S * (Q * R) => fst x = f (fst (snd x)) (snd (snd x))) _ _ _ RR _).
      - clear. intros [s1 [q1 r1]] [s2 [q2 r2]] _ (l & b' & [= <- <-] & Hy). cbn [fst snd].
        apply in_flat_map in Hy as ([l tg] & H1 & H2). cbn [snd] in H2.
        unfold product_transitions in H1. apply in_flat_map in H1 as ([[la|] qs] & Ha & H1).
        + apply in_flat_map in H1 as ([[lb|] rs] & Hb & H1); [|destruct H1].
          destruct (cs_is_empty _); [destruct H1|]. destruct H1 as [[= _ <-]|[]]. apply target_pairs_In in H2. apply H2.
        + destruct (bt_get None _) as [rs|]; [|destruct H1]. destruct H1 as [[= _ <-]|[]]. apply target_pairs_In in H2. apply H2.
      - apply in_rev in H0. destruct x0 as [s1 [q1 r1]]. apply target_pairs_In in H0. cbn [fst snd]. apply H0. }
    exact K. }
  assert (NDk : NoDup (keys (map (fun x : S * (bool * transitions S) => (fst x, snd (snd x))) new'))).
  { unfold keys. rewrite map_map. exact ND. }
  assert (Wp : bt_wf (bt_collect (map (fun x : S * (bool * transitions S) => (fst x, snd (snd x))) new'))) by apply bt_collect_wf.
  assert (HE : forall s l s', n_edge (Nfa (bt_collect (map (fun x : S * (bool * transitions S) => (fst x, snd (snd x))) new'))
    (set_collect (map fst (target_pairs f (n_initial a) (n_initial b))))
    (set_collect (map fst (filter (fun x : S * (bool * transitions S) => fst (snd x)) new')))) s l s' <->
    In s (keys new') /\ exists q r q' r', s = f q r /\ s' = f q' r' /\
     exists tg, In (l, tg) (product_transitions a b f q r) /\ In (s', (q', r')) tg).
  { intros s l s'. unfold n_edge. cbn [n_transitions]. split.
    - intros (ts & qs & H1 & H2 & H3). apply collect_elim in H1; [|exact NDk].
      apply in_map_iff in H1 as ([s0 bb] & [= <- <-] & H1). split; [apply in_map_iff; now exists (s0, bb)|].
      destruct (HV _ _ H1) as (q & r & -> & -> & _). cbn [snd] in H2.
      destruct (proj1 (proj2 (add_targets_spec (product_transitions a b f q r) [] (SSorted_nil _)) l s')) as [(ss & [] & _)|(tg & H4 & H5)]; [eauto|].
      apply in_map_iff in H5 as ([s1 [q' r']] & <- & H5). cbn [fst]. exists q, r, q', r'. split; [reflexivity|].
      assert (HK := proj1 (product_edge q r l s1 q' r') (ex_intro _ tg (conj H4 H5))). split; [apply HK|eauto].
    - intros [H1 (q & r & q' & r' & -> & -> & tg & H2 & H3)]. apply in_map_iff in H1 as ([s0 bb] & E & H1). cbn [fst] in E. subst s0.
      destruct (HV _ _ H1) as (q1 & r1 & E & -> & _). apply INJ in E as [<- <-].
      destruct (proj2 (proj2 (add_targets_spec (product_transitions a b f q r) [] (SSorted_nil _)) l (f q' r'))) as (ss & H4 & H5).
      { right. exists tg. split; [exact H2|]. apply in_map_iff. now exists (f q' r', (q', r')). }
      eexists _, ss. split; [apply bt_collect_In; [exact NDk|]; apply in_map_iff; eexists; split; [|exact H1]; reflexivity|].
      split; [exact H4|exact H5]. }
  exists (keys new'). split; [|split; [|split; [|split; [|split; [|split; [|split]]]]]].
  - intros q r Hq Hr. apply (HS (f q r, (q, r))). apply -> in_rev. apply target_pairs_In. auto.
  - intro s. rewrite set_collect_In, in_map_iff. split.
    + intros ([s0 [q r]] & <- & H). apply target_pairs_In in H as (-> & H). cbn [fst]. eauto.
    + intros (q & r & -> & Hq & Hr). exists (f q r, (q, r)). split; [reflexivity|]. apply target_pairs_In. auto.
  - intros s Hs. apply in_map_iff in Hs as ([s0 bb] & <- & Hs). destruct (HV _ _ Hs) as (q & r & -> & _). exists q, r. reflexivity.
  - intro s. rewrite set_collect_In, in_map_iff. split.
    + intros ([s0 bb] & <- & H). apply filter_In in H as [H1 H2]. cbn [fst snd] in *.
      split; [apply in_map_iff; now exists (s0, bb)|]. destruct (HV _ _ H1) as (q & r & -> & -> & _). cbn [fst] in H2.
      apply andb_true_iff in H2 as [H2 H3]. exists q, r. split; [reflexivity|]. split; now apply mem_In.
    + intros [H1 (q & r & -> & Hq & Hr)]. apply in_map_iff in H1 as ([s0 bb] & E & H1). cbn [fst] in E. subst s0.
      exists (f q r, bb). split; [reflexivity|]. apply filter_In. split; [exact H1|].
      destruct (HV _ _ H1) as (q1 & r1 & E & -> & _). apply INJ in E as [<- <-]. cbn [fst snd].
      apply andb_true_iff. split; now apply mem_In.
  - intros q r l q' r' Hv He. apply HE in He as [_ (q1 & r1 & q2 & r2 & E1 & E2 & tg & H1 & H2)].
    apply in_map_iff in Hv as ([s0 bb] & E & Hv). cbn [fst] in E. subst s0.
    destruct (HV _ _ Hv) as (q3 & r3 & E & -> & HX). apply INJ in E as [<- <-]. apply INJ in E1 as [<- <-].
    specialize (HX (f q' r', (q2, r2))). apply HX. apply in_flat_map. exists (l, tg). auto.
  - exact HE.
  - split; [exact Wp|]. cbn [n_transitions]. intros s ts H. apply collect_elim in H; [|exact NDk].
    apply in_map_iff in H as ([s0 bb] & [= <- <-] & H). destruct (HV _ _ H) as (q & r & _ & -> & _). cbn [snd].
    destruct (add_targets_spec (product_transitions a b f q r) [] (SSorted_nil _)) as [W2 _]. split; [exact W2|].
    intros cs qs rg H1 H2. 
    assert (K : cs_good cs); [|exact (cs_good_ranges _ _ K H2)].
    apply (add_targets_labels (product_transitions a b f q r) [] ltac:(intros ? [])) with (l := Some cs).
    + exact (product_labels q r).
    + apply in_map_iff. now exists (Some cs, qs).
  - intros s ts cs qs H H1. cbn [n_transitions] in H. apply collect_elim in H; [|exact NDk].
    apply in_map_iff in H as ([s0 bb] & [= <- <-] & H). destruct (HV _ _ H) as (q & r & _ & -> & _). cbn [snd] in H1.
    apply (add_targets_labels (product_transitions a b f q r) [] ltac:(intros ? [])) with (l := Some cs).
    + exact (product_labels q r).
    + apply in_map_iff. now exists (Some cs, qs).
Qed.

(** Every word of the product is a word of both. *)
Theorem product_sound w : chars w -> n_accepts p w -> n_accepts a w /\ n_accepts b w.
Proof.
  destruct product_states as (vis & V0 & HI & HVf & HF & HVe & HE & _).
  intros Cw (i & fi & Hi & Hf & RR).
  apply HI in Hi as (q & r & -> & Hq & Hr). apply HF in Hf as [_ (qf & rf & -> & Hqf & Hrf)].
  enough (K : forall s w s', n_run p s w s' -> chars w -> forall q r qf rf, s = f q r -> s' = f qf rf ->
    n_run a q w qf /\ n_run b r w rf).
  { destruct (K _ _ _ RR Cw _ _ _ _ eq_refl eq_refl) as [K1 K2]. split; [exists q, qf|exists r, rf]; auto. }
  clear -INJ HE Wa Wb Ga Gb LQ LR LS. intros s w s' RR. induction RR as [s|s s1 w s' E _ IH|s l c s1 w s' E Hc _ IH]; intros Cw q r qf rf E1 E2.
  - subst s. apply INJ in E2 as [<- <-]. split; constructor.
  - apply HE in E as [_ (q0 & r0 & q1 & r1 & E3 & E4 & HK)]. rewrite E1 in E3. apply INJ in E3 as [<- <-]. subst s1.
    apply product_edge in HK as [_ [Ea Eb]]. destruct (IH Cw _ _ _ _ eq_refl E2) as [Ra Rb].
    split; eapply nr_epsilon; eassumption.
  - apply HE in E as [_ (q0 & r0 & q1 & r1 & E3 & E4 & HK)]. rewrite E1 in E3. apply INJ in E3 as [<- <-]. subst s1.
    apply product_edge in HK as [_ (la & lb & Ea & Eb & -> & _)]. assert (C1 := Forall_inv Cw). assert (C2 := Forall_inv_tail Cw).
    rewrite intersection_mem in Hc; [|destruct Ea as (ts & qs & H1 & H2 & _); eapply Ga; eassumption
      |destruct Eb as (ts & qs & H1 & H2 & _); eapply Gb; eassumption|exact C1].
    apply andb_true_iff in Hc as [Hc1 Hc2]. destruct (IH C2 _ _ _ _ eq_refl E2) as [Ra Rb].
    split; eapply nr_char; eassumption.
Qed.

(** Without epsilon transitions, every word of both is a word of the product. *)
Theorem product_complete w : epsilon_free a -> epsilon_free b -> chars w ->
  n_accepts a w -> n_accepts b w -> n_accepts p w.
Proof.
  destruct product_states as (vis & V0 & HI & HVf & HF & HVe & HE & _).
  intros Fa Fb Cw (q & qf & Hq & Hqf & Ra) (r & rf & Hr & Hrf & Rb).
  assert (K : In (f qf rf) vis /\ n_run p (f q r) w (f qf rf)).
  { specialize (V0 q r Hq Hr). clear Hq Hr Hqf Hrf HI HF. revert r Rb V0.
    induction Ra as [q|q q1 w q' E _ _|q la c q1 w q' E Hc _ IH]; intros r Rb V0.
    - inversion Rb as [x Ex1 Ex2 Ex3|x1 x2 x3 x4 E Rx Ex1 Ex2 Ex3|]; subst; [split; [exact V0|constructor]|]. exfalso. eapply Fb; exact E.
    - exfalso. eapply Fa; exact E.
    - inversion Rb as [|? ? ? ? E'|? lb ? r1 ? ? E' Hc' Rb']; subst; [exfalso; eapply Fb; exact E'|].
      assert (C1 := Forall_inv Cw). assert (C2 := Forall_inv_tail Cw).
      assert (Hi : cs_mem c (charset_intersection la lb) = true).
      { rewrite intersection_mem; [now rewrite Hc, Hc'|destruct E as (ts & qs & H1 & H2 & _); eapply Ga; eassumption
        |destruct E' as (ts & qs & H1 & H2 & _); eapply Gb; eassumption|exact C1]. }
      assert (Ep : n_edge p (f q r) (Some (charset_intersection la lb)) (f q1 r1)).
      { apply HE. split; [exact V0|]. exists q, r, q1, r1. split; [reflexivity|]. split; [reflexivity|].
        apply (product_edge q r (Some (charset_intersection la lb))). split; [reflexivity|]. exists la, lb. split; [exact E|]. split; [exact E'|].
        split; [reflexivity|]. intro E0. rewrite E0 in Hi. discriminate Hi. }
      destruct (IH C2 r1 Rb' (HVe _ _ _ _ _ V0 Ep)) as [V1 R1]. split; [exact V1|]. eapply nr_char; eassumption. }
  destruct K as [V1 R1]. exists (f q r), (f qf rf). split; [apply HI; eauto|]. split; [|exact R1].
  apply HF. split; [exact V1|]. eauto.
Qed.
(** The steps of the product are the common steps. *)
Theorem product_traces t : chars (letters t) -> n_accepts_trace p t <-> n_accepts_trace a t /\ n_accepts_trace b t.
Proof.
  destruct product_states as (vis & V0 & HI & HVf & HF & HVe & HE & _). intro Ct. split.
  - intros (i & fi & Hi & Hf & RR).
    apply HI in Hi as (q & r & -> & Hq & Hr). apply HF in Hf as [_ (qf & rf & -> & Hqf & Hrf)].
    enough (K : forall s t s', n_trace p s t s' -> chars (letters t) -> forall q r qf rf, s = f q r -> s' = f qf rf ->
      n_trace a q t qf /\ n_trace b r t rf).
    { destruct (K _ _ _ RR Ct _ _ _ _ eq_refl eq_refl) as [K1 K2]. split; [exists q, qf|exists r, rf]; auto. }
    clear -INJ HE Wa Wb Ga Gb LQ LR LS. intros s t s' RR. induction RR as [s|s s1 t s' E _ IH|s l c s1 t s' E Hc _ IH]; intros Cw q r qf rf E1 E2.
    + subst s. apply INJ in E2 as [<- <-]. split; constructor.
    + apply HE in E as [_ (q0 & r0 & q1 & r1 & E3 & E4 & HK)]. rewrite E1 in E3. apply INJ in E3 as [<- <-]. subst s1.
      apply product_edge in HK as [_ [Ea Eb]]. destruct (IH Cw _ _ _ _ eq_refl E2) as [Ra Rb].
      split; eapply nt_epsilon; eassumption.
    + apply HE in E as [_ (q0 & r0 & q1 & r1 & E3 & E4 & HK)]. rewrite E1 in E3. apply INJ in E3 as [<- <-]. subst s1.
      apply product_edge in HK as [_ (la & lb & Ea & Eb & -> & _)]. cbn [letters] in Cw. assert (C1 := Forall_inv Cw). assert (C2 := Forall_inv_tail Cw).
      rewrite intersection_mem in Hc; [|destruct Ea as (ts & qs & H1 & H2 & _); eapply Ga; eassumption
        |destruct Eb as (ts & qs & H1 & H2 & _); eapply Gb; eassumption|exact C1].
      apply andb_true_iff in Hc as [Hc1 Hc2]. destruct (IH C2 _ _ _ _ eq_refl E2) as [Ra Rb].
      split; eapply nt_char; eassumption.
  - intros [(q & qf & Hq & Hqf & Ra) (r & rf & Hr & Hrf & Rb)].
    assert (K : In (f qf rf) vis /\ n_trace p (f q r) t (f qf rf)).
    { specialize (V0 q r Hq Hr). clear Hq Hr Hqf Hrf HI HF. revert r Rb V0.
      induction Ra as [q|q q1 t q' E _ IH|q la c q1 t q' E Hc _ IH]; intros r Rb V0.
      - inversion Rb; subst. split; [exact V0|constructor].
      - inversion Rb as [|? r1 ? ? E' Rb'|]; subst.
        assert (Ep : n_edge p (f q r) None (f q1 r1)).
        { apply HE. split; [exact V0|]. exists q, r, q1, r1. split; [reflexivity|]. split; [reflexivity|].
          apply (product_edge q r None). split; [reflexivity|]. split; assumption. }
        destruct (IH Ct r1 Rb' (HVe _ _ _ _ _ V0 Ep)) as [V1 R1]. split; [exact V1|]. eapply nt_epsilon; eassumption.
      - inversion Rb as [| |? lb ? r1 ? ? E' Hc' Rb']; subst. cbn [letters] in Ct.
        assert (C1 := Forall_inv Ct). assert (C2 := Forall_inv_tail Ct).
        assert (Hi : cs_mem c (charset_intersection la lb) = true).
        { rewrite intersection_mem; [now rewrite Hc, Hc'|destruct E as (ts & qs & H1 & H2 & _); eapply Ga; eassumption
          |destruct E' as (ts & qs & H1 & H2 & _); eapply Gb; eassumption|exact C1]. }
        assert (Ep : n_edge p (f q r) (Some (charset_intersection la lb)) (f q1 r1)).
        { apply HE. split; [exact V0|]. exists q, r, q1, r1. split; [reflexivity|]. split; [reflexivity|].
          apply (product_edge q r (Some (charset_intersection la lb))). split; [reflexivity|]. exists la, lb. split; [exact E|]. split; [exact E'|].
          split; [reflexivity|]. intro E0. rewrite E0 in Hi. discriminate Hi. }
        destruct (IH C2 r1 Rb' (HVe _ _ _ _ _ V0 Ep)) as [V1 R1]. split; [exact V1|]. eapply nt_char; eassumption. }
    destruct K as [V1 R1]. exists (f q r), (f qf rf). split; [apply HI; eauto|]. split; [|exact R1].
    apply HF. split; [exact V1|]. eauto.
Qed.
End Built.

Lemma product_total : exists bound, forall fuel, bound <= fuel -> exists p, nfa_product a b f fuel = Ok p.
Proof.
  pose (P := fun x : S * (Q * R) => fst x = f (fst (snd x)) (snd (snd x)) /\
    In (fst (snd x)) (all_states a) /\ In (snd (snd x)) (all_states b)).
  destruct (explore_total fst pv P (map (fun x => f (fst x) (snd x)) (list_prod (all_states a) (all_states b))))
    with (visited := @nil (S * (bool * transitions S))) (stack := rev (target_pairs f (n_initial a) (n_initial b))) as (fe & rr & Hr).
  - intros [s [q r]] (E & H1 & H2). cbn [fst snd] in *. subst s. apply in_map_iff. exists (q, r). split; [reflexivity|].
    now apply in_prod.
  - intros [s [q r]] _. eexists _, _. split; [reflexivity|]. apply Forall_forall. intros [s' [q' r']] H.
    apply in_flat_map in H as ([l tg] & H1 & H2). cbn [snd] in H2.
    assert (HK := proj1 (product_edge q r l s' q' r') (ex_intro _ tg (conj H1 H2))). destruct HK as [-> HK].
    unfold P. cbn [fst snd]. split; [reflexivity|]. destruct l as [l|].
    + destruct HK as (la & lb & Ea & Eb & _). split; eapply edge_states; eassumption.
    + destruct HK as [Ea Eb]. split; eapply edge_states; eassumption.
  - apply Forall_rev. apply Forall_forall. intros [s [q r]] H. apply target_pairs_In in H as (-> & Hq & Hr).
    unfold P. cbn [fst snd]. split; [reflexivity|]. split; apply in_or_app; now left.
  - exists fe. intros fuel L. unfold nfa_product.
    assert (Hr2 := explore_mono fst pv fe fuel _ _ _ L Hr).
    eexists. exact (f_equal (fun o : res (list (S * (bool * transitions S))) => let* visited := o in
      Ok (Nfa (bt_collect (map (fun x => (fst x, snd (snd x))) visited))
        (set_collect (map fst (target_pairs f (n_initial a) (n_initial b))))
        (set_collect (map fst (filter (fun x => fst (snd x)) visited))))) Hr2).
Qed.
End NfaProduct.

(** ** Deterministic automata *)
Lemma dfa_edge_successors {Q L} `{CmpLaws Q} (d : dfa Q L) q l q' : bt_wf (d_transitions d) ->
  (d_edge d q l q' <-> In (l, q') (dfa_successors d q)).
Proof.
  intro W. unfold d_edge, dfa_successors. rewrite (entry_None _ _ _ W). reflexivity.
Qed.

Section DfaProduct.
Context {Q R S L M N' C : Type} {CQ : Cmp Q} {CR : Cmp R} {CS : Cmp S} {CN : Cmp N'}
  {LQ : CmpLaws Q} {LR : CmpLaws R} {LS : CmpLaws S} {LN : CmpLaws N'}.
Variable a : dfa Q L.
Variable b : dfa R M.
Variable f : Q -> R -> S.
Variable g : L -> M -> option N'.
Variables (has_a : L -> C -> Prop) (has_b : M -> C -> Prop) (has_p : N' -> C -> Prop).
Hypothesis INJ : forall q r q' r', f q r = f q' r' -> q = q' /\ r = r'.
Hypothesis MEET : forall l m c, (exists n, g l m = Some n /\ has_p n c) <-> has_a l c /\ has_b m c.
Hypothesis Wa : bt_wf (d_transitions a).
Hypothesis Wb : bt_wf (d_transitions b).
Hypothesis Da : deterministic has_a a.
Hypothesis Db : deterministic has_b b.

Lemma dfa_product_edge q r n s q' r' :
  In (n, (s, (q', r'))) (dfa_product_transitions a b f g q r) <->
  s = f q' r' /\ exists l m, d_edge a q l q' /\ d_edge b r m r' /\ g l m = Some n.
Proof.
  unfold dfa_product_transitions. rewrite in_flat_map. split.
  - intros ([l q1] & Ha & H). apply in_flat_map in H as ([m r1] & Hb & H). cbn [fst snd] in H.
    destruct (g l m) as [n'|] eqn:E; [|destruct H]. destruct H as [[= <- <- <- <-]|[]]. split; [reflexivity|].
    exists l, m. rewrite (dfa_edge_successors a _ _ _ Wa), (dfa_edge_successors b _ _ _ Wb). auto.
  - intros (-> & l & m & Ha & Hb & E). rewrite (dfa_edge_successors a _ _ _ Wa) in Ha.
    rewrite (dfa_edge_successors b _ _ _ Wb) in Hb. exists (l, q'). split; [exact Ha|]. apply in_flat_map. exists (m, r').
    split; [exact Hb|]. cbn [fst snd]. rewrite E. now left.
Qed.

Definition dfold (ts : list (N' * (S * (Q * R)))) (m : list (N' * S)) : list (N' * S) :=
  fold_left (fun m (t : N' * (S * (Q * R))) => bt_insert (fst t) (fst (snd t)) m) ts m.

Lemma dfold_spec ts : forall m, bt_wf m ->
  bt_wf (dfold ts m) /\
  (forall n s, In (n, s) (dfold ts m) -> In (n, s) m \/ exists x, In (n, (s, x)) ts) /\
  (forall n, In n (keys m) \/ In n (map fst ts) -> exists s, In (n, s) (dfold ts m)).
Proof.
  induction ts as [|[n0 [s0 x0]] ts IH]; intros m W; cbn [dfold fold_left].
  - split; [exact W|]. split; [auto|]. intros n [H|[]]. apply in_map_iff in H as ([n' s] & <- & H). eauto.
  - cbn [fst snd]. destruct (IH (bt_insert n0 s0 m) (bt_insert_wf _ _ _ W)) as (W' & H1 & H2). split; [exact W'|]. split.
    + intros n s H. apply H1 in H as [H|(x & H)]; [|right; exists x; now right].
      apply (bt_insert_In m) in H; [|exact W]. destruct H as [[-> ->]|[_ H]]; [|auto]. right. exists x0. now left.
    + intros n [H|[<-|H]]; apply H2; [left|left|right; exact H].
      * destruct (eqb_spec n n0) as [->|N].
        -- apply in_map_iff. exists (n0, s0). split; [reflexivity|]. apply (bt_insert_In m); [exact W|auto].
        -- apply in_map_iff in H as ([n' s] & <- & H). apply in_map_iff. exists (n', s). split; [reflexivity|].
           apply (bt_insert_In m); [exact W|auto].
      * apply in_map_iff. exists (n0, s0). split; [reflexivity|]. apply (bt_insert_In m); [exact W|auto].
Qed.

Definition dpv (x : S * (Q * R)) : res (list (S * (Q * R)) * (bool * list (N' * S))) :=
  let '(_, (q, r)) := x in
  let ts := dfa_product_transitions a b f g q r in
  Ok (map snd ts, (mem q (d_final a) && mem r (d_final b), dfold ts [])).

Section Built.
Variable fuel : nat.
Variable p : dfa S N'.
Hypothesis HP : dfa_product a b f g fuel = Ok p.

Lemma dfa_product_states : exists vis : list S,
  d_initial p = f (d_initial a) (d_initial b) /\ In (d_initial p) vis /\
  (forall s, In s (d_final p) <-> In s vis /\ exists q r, s = f q r /\ In q (d_final a) /\ In r (d_final b)) /\
  (forall s n s', d_edge p s n s' -> In s vis /\ In s' vis /\ exists q r q' r', s = f q r /\ s' = f q' r' /\
     exists l m, d_edge a q l q' /\ d_edge b r m r' /\ g l m = Some n) /\
  (forall q r l m n q' r', In (f q r) vis -> d_edge a q l q' -> d_edge b r m r' -> g l m = Some n ->
     exists s', d_edge p (f q r) n s') /\
  dfa_wf p.
Proof.
  unfold dfa_product in HP. apply bind_Ok in HP as (new & H & [= <-]). cbn [d_initial d_final d_transitions].
  change (explore fst dpv fuel [(f (d_initial a) (d_initial b), (d_initial a, d_initial b))] [] = Ok new) in H.
  apply explore_spec in H as (new' & -> & ND & HS & HN). cbn [app] in *. specialize (ND (NoDup_nil _)).
  assert (HV : forall s bb, In (s, bb) new' -> exists q r, s = f q r /\
    bb = (mem q (d_final a) && mem r (d_final b), dfold (dfa_product_transitions a b f g q r) []) /\
    forall x, In x (map snd (dfa_product_transitions a b f g q r)) -> In (fst x) (keys new')).
  { intros s bb Hs. apply HN in Hs as ([s0 [q r]] & l & E & Hv & (x0 & [<-|[]] & RR) & HX). cbn [fst] in E. subst s0.
    cbn [dpv] in Hv. injection Hv as <- <-. exists q, r. split; [|auto].
    assert (K : (fun x : S * (Q * R) => fst x = f (fst (snd x)) (snd (snd x))) (s, (q, r))); [|exact K].
    refine (closed_reaches _ (fun x : S * (Q * R) => fst x = f (fst (snd x)) (snd (snd x))) _ _ _ RR _); [|reflexivity].
    clear -Wa Wb LQ LR. intros [s1 [q1 r1]] [s2 [q2 r2]] _ (l & b' & [= <- <-] & Hy). cbn [fst snd].
    apply in_map_iff in Hy as ([n x] & E & Hy). cbn [snd] in E. subst x. apply dfa_product_edge in Hy. apply Hy. }
  assert (NDk : NoDup (keys (map (fun x : S * (bool * list (N' * S)) => (fst x, snd (snd x))) new'))).
  { unfold keys. rewrite map_map. exact ND. }
  exists (keys new'). split; [reflexivity|]. split; [apply (HS (_, (_, _)) (or_introl eq_refl))|]. split; [|split; [|split]].
  - intro s. rewrite set_collect_In, in_map_iff. split.
    + intros ([s0 bb] & <- & H). apply filter_In in H as [H1 H2]. cbn [fst snd] in *.
      split; [apply in_map_iff; now exists (s0, bb)|]. destruct (HV _ _ H1) as (q & r & -> & -> & _). cbn [fst] in H2.
      apply andb_true_iff in H2 as [H2 H3]. exists q, r. split; [reflexivity|]. split; now apply mem_In.
    + intros [H1 (q & r & -> & Hq & Hr)]. apply in_map_iff in H1 as ([s0 bb] & E & H1). cbn [fst] in E. subst s0.
      exists (f q r, bb). split; [reflexivity|]. apply filter_In. split; [exact H1|].
      destruct (HV _ _ H1) as (q1 & r1 & E & -> & _). apply INJ in E as [<- <-]. cbn [fst snd].
      apply andb_true_iff. split; now apply mem_In.
  - intros s n s' (ts & H1 & H2). cbn [d_transitions] in H1. apply collect_elim in H1; [|exact NDk].
    apply in_map_iff in H1 as ([s0 bb] & [= <- <-] & H1). split; [apply in_map_iff; now exists (s0, bb)|].
    destruct (HV _ _ H1) as (q & r & -> & -> & HX). cbn [snd] in H2.
    apply (proj1 (proj2 (dfold_spec _ [] (SSorted_nil _)))) in H2 as [[]|([q' r'] & H2)].
    split; [apply (HX (s', (q', r'))); apply in_map_iff; now exists (n, (s', (q', r')))|].
    apply dfa_product_edge in H2 as [-> H2]. exists q, r, q', r'. auto.
  - intros q r l m n q' r' Hv Ea Eb Eg. apply in_map_iff in Hv as ([s0 bb] & E & Hv). cbn [fst] in E. subst s0.
    destruct (HV _ _ Hv) as (q1 & r1 & E & -> & HX). apply INJ in E as [<- <-].
    destruct (proj2 (proj2 (dfold_spec (dfa_product_transitions a b f g q r) [] (SSorted_nil _))) n) as (s' & Hs').
    + right. apply in_map_iff. exists (n, (f q' r', (q', r'))). split; [reflexivity|]. apply dfa_product_edge. split; [reflexivity|eauto].
    + exists s'. eexists. split; [apply bt_collect_In; [exact NDk|]; apply in_map_iff; eexists; split; [|exact Hv]; reflexivity|]. exact Hs'.
  - split; [apply bt_collect_wf|]. cbn [d_transitions]. intros s ts H. apply collect_elim in H; [|exact NDk].
    apply in_map_iff in H as ([s0 bb] & [= <- <-] & H). destruct (HV _ _ H) as (q & r & _ & -> & _). cbn [snd].
    apply (dfold_spec _ [] (SSorted_nil _)).
Qed.

Theorem dfa_product_language w : d_accepts has_p p w <-> d_accepts has_a a w /\ d_accepts has_b b w.
Proof.
  destruct dfa_product_states as (vis & HI & VI & HF & HE & HX & _). split.
  - intros (s & Hs & RR). apply HF in Hs as [_ (qf & rf & -> & Hqf & Hrf)]. rewrite HI in RR.
    enough (K : forall s w s', d_run has_p p s w s' -> forall q r qf rf, s = f q r -> s' = f qf rf ->
      d_run has_a a q w qf /\ d_run has_b b r w rf).
    { destruct (K _ _ _ RR _ _ _ _ eq_refl eq_refl) as [K1 K2]. split; [exists qf|exists rf]; auto. }
    clear -INJ HE MEET. intros s w s' RR. induction RR as [s|s n c s1 w s' E Hc _ IH]; intros q r qf rf E1 E2.
    + subst s. apply INJ in E2 as [<- <-]. split; constructor.
    + apply HE in E as (_ & _ & q0 & r0 & q1 & r1 & E3 & E4 & l & m & Ea & Eb & Eg). rewrite E1 in E3. apply INJ in E3 as [<- <-]. subst s1.
      destruct (IH _ _ _ _ eq_refl E2) as [Ra Rb]. destruct (proj1 (MEET l m c) (ex_intro _ n (conj Eg Hc))) as [H1 H2].
      split; eapply dr_char; eassumption.
  - intros [(qf & Hqf & Ra) (rf & Hrf & Rb)].
    assert (K : In (f qf rf) vis /\ d_run has_p p (d_initial p) w (f qf rf)).
    { rewrite HI in VI |- *. clear Hqf Hrf HF HI. revert Rb VI. generalize (d_initial b) as r.
      induction Ra as [q|q l c q1 w q' E Hc _ IH]; intros r Rb VI.
      - inversion Rb; subst. split; [exact VI|constructor].
      - inversion Rb as [|? m ? r1 ? ? E' Hc' Rb']; subst.
        destruct (proj2 (MEET l m c) (conj Hc Hc')) as (n & Eg & Hn).
        destruct (HX _ _ _ _ _ _ _ VI E E' Eg) as (s' & Es).
        destruct (HE _ _ _ Es) as (_ & V' & q2 & r2 & q3 & r3 & E3 & -> & l' & m' & Ea & Eb & Eg'). apply INJ in E3 as [<- <-].
        destruct (proj1 (MEET l' m' c) (ex_intro _ n (conj Eg' Hn))) as [Hl Hm].
        destruct (Da _ _ _ _ _ _ E Ea Hc Hl) as [_ <-]. destruct (Db _ _ _ _ _ _ E' Eb Hc' Hm) as [_ <-].
        destruct (IH r1 Rb' V') as [V1 R1]. split; [exact V1|]. eapply dr_char; eassumption. }
    destruct K as [V1 R1]. exists (f qf rf). split; [|exact R1]. apply HF. split; [exact V1|]. eauto.
Qed.

Theorem dfa_product_deterministic : deterministic has_p p.
Proof.
  destruct dfa_product_states as (vis & HI & VI & HF & HE & HX & [W1 W2]).
  intros s n n' s1 s2 c H1 H2 C1 C2.
  assert (n = n').
  2: { split; [assumption|]. subst n'. destruct H1 as (ts & T1 & T2), H2 as (ts' & T3 & T4).
       assert (ts' = ts) as -> by (pose proof (bt_get_wf _ _ _ W1 T1) as E; rewrite (bt_get_wf _ _ _ W1 T3) in E; congruence).
       pose proof (bt_get_wf _ _ _ (W2 _ _ T1) T2) as E. rewrite (bt_get_wf _ _ _ (W2 _ _ T1) T4) in E. congruence. }
  apply HE in H1 as (_ & _ & q & r & q1 & r1 & -> & -> & l & m & Ea & Eb & Eg).
  apply HE in H2 as (_ & _ & q' & r' & q2 & r2 & E & -> & l' & m' & Ea' & Eb' & Eg'). apply INJ in E as [<- <-].
  destruct (proj1 (MEET l m c) (ex_intro _ n (conj Eg C1))) as [K1 K2].
  destruct (proj1 (MEET l' m' c) (ex_intro _ n' (conj Eg' C2))) as [K3 K4].
  destruct (Da _ _ _ _ _ _ Ea Ea' K1 K3) as [<- _]. destruct (Db _ _ _ _ _ _ Eb Eb' K2 K4) as [<- _]. congruence.
Qed.
End Built.

Lemma dfa_product_total : exists bound, forall fuel, bound <= fuel -> exists p, dfa_product a b f g fuel = Ok p.
Proof.
  pose (Sa := d_initial a :: flat_map (fun x => map snd (snd x)) (d_transitions a)).
  pose (Sb := d_initial b :: flat_map (fun x => map snd (snd x)) (d_transitions b)).
  pose (P := fun x : S * (Q * R) => fst x = f (fst (snd x)) (snd (snd x)) /\ In (fst (snd x)) Sa /\ In (snd (snd x)) Sb).
  destruct (explore_total fst dpv P (map (fun x => f (fst x) (snd x)) (list_prod Sa Sb)))
    with (visited := @nil (S * (bool * list (N' * S)))) (stack := [(f (d_initial a) (d_initial b), (d_initial a, d_initial b))]) as (fe & rr & Hr).
  - intros [s [q r]] (E & H1 & H2). cbn [fst snd] in *. subst s. apply in_map_iff. exists (q, r). split; [reflexivity|].
    now apply in_prod.
  - intros [s [q r]] _. eexists _, _. split; [reflexivity|]. apply Forall_forall. intros [s' [q' r']] H.
    apply in_map_iff in H as ([n x] & E & H). cbn [snd] in E. subst x.
    apply dfa_product_edge in H as (-> & l & m & (ts & E1 & E2) & (ts' & E3 & E4) & _).
    unfold P. cbn [fst snd]. split; [reflexivity|]. split; right; apply in_flat_map; eexists; (split; [eassumption|]); apply in_map_iff; eexists; (split; [|eassumption]); reflexivity.
  - constructor; [|constructor]. unfold P. cbn [fst snd]. split; [reflexivity|]. split; now left.
  - exists fe. intros fuel Lf. unfold dfa_product.
    assert (Hr2 := explore_mono fst dpv fe fuel _ _ _ Lf Hr).
    eexists. exact (f_equal (fun o : res (list (S * (bool * list (N' * S)))) => let* visited := o in
      Ok (Dfa (f (d_initial a) (d_initial b))
        (set_collect (map fst (filter (fun x => fst (snd x)) visited)))
        (bt_collect (map (fun x => (fst x, snd (snd x))) visited)))) Hr2).
Qed.
End DfaProduct.
