(** * Dehydrate, then hydrate (C30) *)

From Coq Require Import String List Bool Arith NArith Lia Qcanon Permutation Sorted.
Import ListNotations.
From Verif Require Import Base BaseProofs Orders PatternModel MatchingModel MatchingSpec ValueModel ValueProofs LayoutModel
  HydrateModel HydrateSpec HydrateDet HydrateProperties TermModel
  LayoutSpec DehydrateModel DehydrateSpec DehydrateProofs DehydrateEmits DehydrateFinish DehydrateProperties
  RoundTripSpec RoundTripWrites RoundTripRun RoundTripMeans.
Open Scope list_scope.
Open Scope nat_scope.

(** ** The layouts of the class are sorted and well scoped *)
Section Scoped.
Context {X : Xsd}.
Variable reg : registry term.
Hypothesis TR : tree_registry reg.

Lemma tree_sorted : registry_sorted reg.
Proof.
  intros ref l E. destruct (TR _ _ E); simpl; try exact I. unfold fields_of. rewrite map_map. exact H.
Qed.

Lemma statements_below ps n : 0 < n -> below_vars n (statements ps).
Proof.
  intros L x (p & Hp & Hx). apply in_map_iff in Hp as (po & <- & _). unfold qvar_of, pvar_of in Hx. simpl in Hx.
  destruct Hx as [[= <-]|[[=]|[[=]|[=]]]]. exact L.
Qed.
Lemma linked_below p r n : 1 < n -> below_vars n (it_dataset (linked p r)).
Proof.
  intros L x (q & [<-|[]] & Hx). unfold qvar_of, pvar_of in Hx. simpl in Hx.
  destruct Hx as [[= <-]|[[=]|[[= <-]|[=]]]]; lia.
Qed.
Lemma own_below r n : below_vars n (it_dataset (same_node r)).
Proof. intros x (q & [] & _). Qed.
Lemma tagged_below p tag r n : 0 < n -> below_vars n (it_dataset (tagged p tag r)).
Proof.
  intros L x (q & [<-|[]] & Hx). unfold qvar_of, pvar_of in Hx. simpl in Hx.
  destruct Hx as [[= <-]|[[=]|[[=]|[=]]]]; lia.
Qed.
Lemma cell_below first rest r n : 3 < n -> below_vars n (it_dataset (cell first rest r)).
Proof.
  intros L x (q & [<-|[<-|[]]] & Hx); unfold qvar_of, pvar_of in Hx; simpl in Hx;
    destruct Hx as [[= <-]|[[=]|[[= <-]|[=]]]]; lia.
Qed.

Lemma tree_scoped : registry_scoped reg.
Proof.
  intros ref l E. destruct (TR _ _ E); cbn [patterns_scoped record_layout tuple_layout set_layout list_layout choice_layout tagged_layout data_layout
    about h_input h_intro h_dataset]; try (apply statements_below; lia); split; try (apply statements_below; lia).
  - intros v Hv. apply in_map_iff in Hv as (v' & <- & _). apply own_below.
  - intros k f Hf. apply in_map_iff in Hf as ([k' c] & [= <- <-] & _). destruct c as [r|p b r]; cbn [snd field_of f_item].
    + apply own_below.
    + apply linked_below. simpl. lia.
  - intros it Hi. apply in_map_iff in Hi as (pr & <- & _). apply linked_below. simpl. lia.
  - apply linked_below. simpl. lia.
  - apply cell_below. simpl. lia.
  - intros v Hv. apply in_map_iff in Hv as (v' & <- & _). apply tagged_below. simpl. lia.
Qed.

Lemma tree_input l : tree_layout reg l -> input_count l = Some 1.
Proof. now intros []. Qed.
End Scoped.

Section RoundTrip.
Context {Gn : Type} {X : Xsd} {IS : IriSyntax}.
Variable opts : options Gn.
Variable reg : registry term.
Variable order : list (quad res) -> list (quad res).
Hypothesis order_perm : forall l, Permutation (order l) l.

Lemma assigned_dec (st : dstate res input_interp) r : (exists t, assigned st r t) \/ (forall t, ~ assigned st r t).
Proof.
  unfold assigned. destruct (terms_of r (ii_map (ds_interp st))) as [|t l]; [right; intros t []|left; exists t; now left].
Qed.

(** What a run gives to the nodes. *)
Definition node_case (st : dstate res input_interp) (theta : res -> term) (ids : list (res * string)) (r : res) : Prop :=
  (exists i, theta r = TmIri i /\ In (r, i) ids) \/
  ((forall t, ~ assigned st r t) /\
    ((exists n, r = RInput n /\ theta r = o_input_term opts n) \/
     (exists n q k, r = RAnon n /\ In q (ds_output st) /\ quad_res q r /\ theta r = generated opts k))).

Lemma run_facts fuel v ref l st theta :
  tree_registry reg -> Proper reg ref v -> distinct_identifiers reg ref v -> not_terminators reg ref v ->
  blank_identifiers opts -> fresh_identifiers opts ->
  reg ref = Some l -> dehydrate_with input_interpretation reg fuel v None ref [RInput 0] initial = (Ok tt, st) ->
  mapping opts st 1 theta ->
  exists hi Q ids nodes, Wrote reg (assigned st) 0 hi ref (RInput 0) v Q ids nodes /\
    (forall q, In q (ds_output st) <-> In q Q) /\
    (forall r, In r nodes -> node_case st theta ids r) /\
    (forall r r', In r nodes -> In r' nodes -> theta r = theta r' -> r = r') /\
    (forall r ps first rest nil r' x, reg r = Some (list_layout ps first rest nil r') -> In x nodes -> theta x <> nil).
Proof.
  intros TR HP DI NT (B1 & B2) (F1 & F2 & F3) E R MP.
  apply (dehydrate_ran reg TR) in R; [|exact HP|apply outside_input].
  destruct R as (hi & Q & ids & nodes & HW & [_ PO PN]). simpl in HW, PO, PN.
  assert (OQ : forall q, In q (ds_output st) <-> In q Q) by (intro q; rewrite PO; simpl; tauto).
  assert (NEW : forall r t, assigned st r t -> In r nodes -> exists i, t = TmIri i /\ In (r, i) ids).
  { intros r t Hr Hn. destruct PN as [_ PN]. destruct (PN r t Hr) as [[]|[_ P]]. exact (P Hn). }
  pose proof (proj1 (Wrote_ids reg _) _ _ _ _ _ _ _ _ HW) as HI.
  assert (NDI : NoDup (map snd ids)) by (apply DI; exact HI).
  assert (UNIQ : forall r r' i, In (r, i) ids -> In (r', i) ids -> r = r').
  { clear - NDI. induction ids as [|[r0 i0] ids IH]; [intros ? ? ? []|]. simpl in NDI. inversion NDI as [|? ? NI ND]; subst.
    intros r r' i [E1|H] [E2|H']; [congruence| | |eauto].
    - exfalso. injection E1 as -> ->. apply NI. apply (in_map snd) in H'. exact H'.
    - exfalso. injection E2 as -> ->. apply NI. apply (in_map snd) in H. exact H. }
  destruct (mp_anon _ _ _ _ MP) as (f & A1 & A2).
  assert (CASE : forall r, In r nodes ->
    (exists i, theta r = TmIri i /\ In (r, i) ids) \/
    ((forall t, ~ assigned st r t) /\
      ((exists n, r = RInput n /\ theta r = o_input_term opts n) \/
       (exists n q, r = RAnon n /\ In q (ds_output st) /\ quad_res q r /\ theta r = generated opts (f n))))).
  { intros r Hr. destruct (assigned_dec st r) as [(t & Ht)|U].
    - left. destruct (NEW r t Ht Hr) as (i & -> & Hi). exists i. split; [|exact Hi]. eapply mp_assigned; eassumption.
    - right. split; [exact U|]. destruct (proj1 (Wrote_objects reg _) _ _ _ _ _ _ _ _ HW r Hr) as [->|(q & Hq & Eq)].
      + left. exists 0. split; [reflexivity|]. apply (mp_input _ _ _ _ MP); [lia|exact U].
      + destruct (proj1 (Wrote_bounds reg _) _ _ _ _ _ _ _ _ HW) as (_ & _ & HB). destruct (HB r Hr) as [->|(n & -> & _)].
        * left. exists 0. split; [reflexivity|]. apply (mp_input _ _ _ _ MP); [lia|exact U].
        * right. exists n, q. apply OQ in Hq. assert (QR : quad_res q (RAnon n)) by (right; right; left; exact Eq).
          split; [reflexivity|]. split; [exact Hq|]. split; [exact QR|]. exact (A1 n q Hq QR U). }
  assert (INJ : forall r r', In r nodes -> In r' nodes -> theta r = theta r' -> r = r').
  { intros r r' Hr Hr' ET.
    destruct (CASE r Hr) as [(i & Ei & Hi)|(U & C)], (CASE r' Hr') as [(i' & Ei' & Hi')|(U' & C')].
    - rewrite Ei, Ei' in ET. injection ET as <-. eauto.
    - exfalso. rewrite Ei in ET. destruct C' as [(n & _ & E')|(n & q & _ & _ & _ & E')]; rewrite E' in ET;
        [destruct (B1 n) as [b Eb]|destruct (B2 (f n)) as [b Eb]]; congruence.
    - exfalso. rewrite Ei' in ET. destruct C as [(n & _ & E')|(n & q & _ & _ & _ & E')]; rewrite E' in ET;
        [destruct (B1 n) as [b Eb]|destruct (B2 (f n)) as [b Eb]]; congruence.
    - destruct C as [(n & -> & Ea)|(n & q & -> & Hq & QR & Ea)], C' as [(n' & -> & Eb)|(n' & q' & -> & Hq' & QR' & Eb)];
        rewrite Ea, Eb in ET.
      + f_equal. now apply F1.
      + exfalso. eapply F3; exact ET.
      + exfalso. symmetry in ET. eapply F3; exact ET.
      + f_equal. apply F2 in ET. exact (A2 n n' q q' Hq QR U Hq' QR' U' ET). }
  assert (NIL : forall r ps first rest nil r' x,
    reg r = Some (list_layout ps first rest nil r') -> In x nodes -> theta x <> nil).
  { intros r ps first rest nil r' x EL Hx ET.
    destruct (list_conditions reg TR _ _ _ _ _ _ EL) as (_ & _ & _ & i & ->).
    destruct (CASE x Hx) as [(j & Ej & Hj)|(U & C)].
    - rewrite Ej in ET. injection ET as <-. apply (in_map snd) in Hj. exact (NT _ _ HI Hj _ _ _ _ _ EL).
    - destruct C as [(n & _ & E')|(n & q & _ & _ & _ & E')]; rewrite E' in ET;
        [destruct (B1 n) as [b Eb]|destruct (B2 (f n)) as [b Eb]]; congruence. }
  exists hi, Q, ids, nodes. split; [exact HW|]. split; [exact OQ|]. split; [|split; [exact INJ|exact NIL]].
  intros r Hr. destruct (CASE r Hr) as [C|(U & [C|(n & q & C1 & C2 & C3 & C4)])]; [now left|right; split; [exact U|now left]|].
  right. split; [exact U|]. right. exists n, q, (f n). auto.
Qed.

(** The nodes of a result: the terms returned, the blank nodes that are objects of quads, and the resources that the value
    identifies. *)
Definition own_node ref v (ds : list (quad term)) (vals : list term) (t : term) : Prop :=
  In t vals \/ (exists b q, t = TmBlank b /\ In q ds /\ q_o q = t) \/
  (exists i ids, t = TmIri i /\ Identifiers reg ref v ids /\ In i ids).

(** Other data, in the default graph, is not about the nodes of the result, except for properties of the root that the layout
    does not use. *)
Definition elsewhere ref v ds vals (other : quad term -> Prop) : Prop :=
  forall q, other q -> q_g q = None -> own_node ref v ds vals (q_s q) -> In (q_s q) vals /\ ~ Owns reg ref (q_p q).

(** C30, on the specification of hydration: what is written means what was written, among other data. *)
Theorem written_means_among fuel v ref ds vals strict others :
  tree_registry reg -> Proper reg ref v -> distinct_identifiers reg ref v -> not_terminators reg ref v ->
  blank_identifiers opts -> fresh_identifiers opts -> decimals_read_back X ->
  dehydrate order reg fuel v ref opts = Ok (ds, vals) ->
  elsewhere ref v ds vals (fun q => In q others) ->
  exists tv, Means (fun q => In q ds \/ In q others) reg strict None ref vals tv /\ Same reg ref v (into_untyped tv).
Proof.
  intros TR HP DI NT BI FI DR H EW.
  apply dehydrate_inv in H as (l & st & theta & E & R & MP & _ & HD & HV); [|exact order_perm].
  unfold root_count in *. rewrite (tree_input _ _ (TR _ _ E)) in *. cbn [seq map] in R, HV.
  destruct (run_facts _ _ _ _ _ _ TR HP DI NT BI FI E R MP) as (hi & Q & ids & nodes & HW & OQ & CASE & INJ & NIL).
  pose proof (proj1 (Wrote_ids reg _) _ _ _ _ _ _ _ _ HW) as HI.
  assert (HW' := proj1 (Wrote_mono reg (assigned st) (fun r t => theta r = t) (mp_assigned _ _ _ _ MP)) _ _ _ _ _ _ _ _ HW).
  assert (TRI : forall q, In q (ds_output st) -> In (q_s q) nodes /\ exists p, q = triple (q_s q) p (q_o q)).
  { intros q Hq. apply OQ in Hq. split; [exact (proj1 (Wrote_subjects reg _) _ _ _ _ _ _ _ _ HW q Hq)|].
    exact (proj1 (Wrote_triples reg _) _ _ _ _ _ _ _ _ HW q Hq). }
  assert (OWN : forall r, In r nodes -> own_node ref v ds vals (theta r)).
  { intros r Hr. destruct (CASE r Hr) as [(i & Ei & Hi)|(U & [(n & -> & _)|(n & q & k & -> & Hq & QR & Et)])].
    - right. right. exists i, (map snd ids). split; [exact Ei|]. split; [exact HI|]. apply (in_map snd) in Hi. exact Hi.
    - destruct (proj1 (Wrote_bounds reg _) _ _ _ _ _ _ _ _ HW) as (_ & _ & HB). destruct (HB _ Hr) as [[= ->]|(m & [=] & _)].
      left. subst vals. now left.
    - destruct (proj1 (Wrote_objects reg _) _ _ _ _ _ _ _ _ HW _ Hr) as [[=]|(q' & Hq' & Eq')].
      right. left. destruct (proj2 BI k) as [b Eb]. exists b, (quad_map theta q'). split; [congruence|].
      split; [apply HD; exists q'; split; [now apply OQ|reflexivity]|]. cbn [quad_map q_o]. now rewrite Eq'. }
  assert (ROOT : forall r, In r nodes -> In (theta r) vals -> r = RInput 0).
  { intros r Hr Hv. subst vals. destruct Hv as [Ev|[]]. apply INJ; [exact Hr| |now symmetry].
    eapply Wrote_node; [exact HW|]. intro HL. destruct (leaf_nodes reg _ _ _ _ _ _ _ _ _ HW HL) as (_ & _ & ->). destruct Hr. }
  pose (extra := map (fun q => triple (RInput 0) (q_p q) (RTerm (q_o q)))
    (filter (fun q => match q_g q with None => eqb (q_s q) (theta (RInput 0)) | _ => false end) others)).
  assert (EXT : forall q', In q' extra <-> exists q, In q others /\ q_g q = None /\ q_s q = theta (RInput 0) /\ q' = triple (RInput 0) (q_p q) (RTerm (q_o q))).
  { intro q'. unfold extra. rewrite in_map_iff. split.
    - intros (q & <- & Hq). apply filter_In in Hq as [Hq F]. exists q. destruct (q_g q); [discriminate|]. apply (proj1 (eqb_eq _ _)) in F. split; [exact Hq|]. split; [reflexivity|]. split; [exact F|reflexivity].
    - intros (q & Hq & Eg & Es & ->). exists q. split; [reflexivity|]. apply filter_In. split; [exact Hq|]. rewrite Eg, Es. apply eqb_refl. }
  assert (GI : forall s p b, In s nodes ->
    (In (Quad (theta s) p b None) ds \/ In (Quad (theta s) p b None) others <->
     exists o, In (triple s p o) (ds_output st ++ extra) /\ theta o = b)).
  { intros s p b Hs. split.
    - intros [HQ|HQ].
      + apply HD in HQ as (q & Hq & Eq). destruct (TRI q Hq) as (HS & p' & Eq'). rewrite Eq' in Eq. unfold quad_map, triple in Eq. simpl in Eq.
        injection Eq as E1 E2 E3. rewrite (mp_term _ _ _ _ MP) in E2. subst. apply INJ in E1; [|exact Hs|exact HS].
        exists (q_o q). split; [|reflexivity]. apply in_app_iff. left. rewrite E1, <- Eq'. exact Hq.
      + destruct (EW _ HQ eq_refl (OWN s Hs)) as [HV' _]. cbn [q_s] in HV'. apply (ROOT s Hs) in HV' as ->.
        exists (RTerm b). split; [|apply (mp_term _ _ _ _ MP)]. apply in_app_iff. right. apply EXT. eexists. split; [exact HQ|]. auto.
    - intros (o & Ho & <-). apply in_app_iff in Ho as [Ho|Ho].
      + left. apply HD. exists (triple s p o). split; [exact Ho|]. unfold quad_map, triple. simpl. now rewrite (mp_term _ _ _ _ MP).
      + right. apply EXT in Ho as (q & Hq & Eg & Es & Et). injection Et as -> -> ->. rewrite (mp_term _ _ _ _ MP), <- Es, <- Eg.
        now destruct q. }
  assert (LI : leaf_inj reg theta).
  { intros r0 v0 v1 t H0 H1. eapply (leaf_fun reg TR DR theta (mp_term _ _ _ _ MP) (fun q => In q ds) false); eauto. }
  destruct (proj1 (reads reg TR DR theta (mp_term _ _ _ _ MP) (ds_output st ++ extra) (fun q => In q ds \/ In q others) nodes GI INJ NIL strict LI)
    _ _ _ _ _ _ _ _ HW') as (tv & HM & HS).
  - apply outside_input.
  - intros q Hq. apply in_app_iff. left. now apply OQ.
  - intros x Hx. exact Hx.
  - intros q Hq C. apply in_app_iff in Hq as [Hq|Hq]; [now apply OQ|]. exfalso. apply EXT in Hq as (q' & Hq' & Eg & Es & ->).
    cbn [q_s q_p triple] in C. destruct C as [(_ & p & [= <-] & HO)|(n & [=] & _)].
    assert (In (q_s q') vals /\ ~ Owns reg ref (q_p q')) as [_ NO]; [|exact (NO HO)].
    apply EW; [exact Hq'|exact Eg|]. left. subst vals. now left.
  - exact HP.
  - exists tv. split; [|exact HS]. subst vals. exact HM.
Qed.

(** C30 (among other data).  What is dehydrated is read back in any dataset where the other quads of the default graph are not about the
    nodes of the result, except for properties of the root that the layout does not use. *)
Theorem C30_round_trip_elsewhere_partial fuel v ref ds vals D others :
  tree_registry reg -> Proper reg ref v -> distinct_identifiers reg ref v -> not_terminators reg ref v ->
  blank_identifiers opts -> fresh_identifiers opts -> decimals_read_back X ->
  dehydrate order reg fuel v ref opts = Ok (ds, vals) -> enumerates D (fun q => In q ds \/ In q others) ->
  elsewhere ref v ds vals (fun q => In q others) ->
  exists tv N, (forall fuel', N <= fuel' -> hydrate D reg fuel' ref vals = Ok tv) /\
    Same reg ref v (into_untyped tv).
Proof.
  intros TR HP DI NT BI FI DR H EN EW.
  destruct (written_means_among _ _ _ _ _ true others TR HP DI NT BI FI DR H EW) as (tv & HM & HS).
  destruct (C10_hydration_complete_partial D _ reg None ref vals EN (tree_sorted reg TR) (tree_scoped reg TR)) as [HC _].
  destruct (HC tv HM) as [N HN]. exists tv, N. split; [|exact HS]. exact HN.
Qed.

(** C30.  Hydrating with the same layout the dataset given by dehydration, at the values given by dehydration,
    gives the value that was dehydrated, up to the order of the items of the sets.  [D] is any
    dataset with exactly these quads.  Missing: the layouts out of the class [tree_registry], and the values excluded by the
    hypotheses; several of these are counter-examples, see [RoundTripExamples.v]. *)
Theorem C30_round_trip_partial fuel v ref ds vals D :
  tree_registry reg -> Proper reg ref v -> distinct_identifiers reg ref v -> not_terminators reg ref v ->
  blank_identifiers opts -> fresh_identifiers opts -> decimals_read_back X ->
  dehydrate order reg fuel v ref opts = Ok (ds, vals) -> enumerates D (fun q => In q ds) ->
  exists tv N, (forall fuel', N <= fuel' -> hydrate D reg fuel' ref vals = Ok tv) /\
    Same reg ref v (into_untyped tv).
Proof.
  intros TR HP DI NT BI FI DR H EN. apply (C30_round_trip_elsewhere_partial fuel v ref ds vals D []); try assumption.
  - intro p. destruct (EN p) as [ND HI]. split; [exact ND|]. intro q. rewrite HI. cbn [In]. tauto.
  - intros q [].
Qed.
End RoundTrip.

(** ** Equality *)
Scheme Same_min := Minimality for Same Sort Prop
  with SameE_min := Minimality for SameE Sort Prop
  with SameL_min := Minimality for SameL Sort Prop.
Combined Scheme Same_mutind from Same_min, SameE_min, SameL_min.

Lemma same_equal reg : no_sets reg ->
  (forall r v w, Same reg r v w -> v = w) /\
  (forall fs m m', SameE reg fs m m' -> m = m') /\
  (forall rs l l', SameL reg rs l l' -> l = l').
Proof.
  intro NS. apply Same_mutind; try congruence.
  intros r h it l l' l'' E. exfalso. exact (NS _ _ _ E).
Qed.

(** C30, without sets: the same value. *)
Theorem C30_round_trip_equal_partial {Gn} {X : Xsd} {IS : IriSyntax} (opts : options Gn) reg order
    (order_perm : forall l, Permutation (order l) l) fuel v ref ds vals D :
  tree_registry reg -> no_sets reg -> Proper reg ref v -> distinct_identifiers reg ref v -> not_terminators reg ref v ->
  blank_identifiers opts -> fresh_identifiers opts -> decimals_read_back X ->
  dehydrate order reg fuel v ref opts = Ok (ds, vals) -> enumerates D (fun q => In q ds) ->
  exists tv N, (forall fuel', N <= fuel' -> hydrate D reg fuel' ref vals = Ok tv) /\ into_untyped tv = v.
Proof.
  intros TR NS HP DI NT BI FI DR H EN.
  destruct (C30_round_trip_partial opts reg order order_perm fuel v ref ds vals D TR HP DI NT BI FI DR H EN) as (tv & N & H1 & HS).
  exists tv, N. split; [exact H1|]. symmetry. eapply same_equal; eassumption.
Qed.
