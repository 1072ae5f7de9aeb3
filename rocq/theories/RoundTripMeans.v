(** * What was written is read back *)

From Coq Require Import String List Bool Arith NArith Lia Qcanon Permutation Sorted.
Import ListNotations.
From Verif Require Import Base BaseProofs Orders PatternModel MatchingModel MatchingSpec ValueModel ValueProofs LayoutModel
  HydrateModel HydrateSpec HydrateDet TermModel
  LayoutSpec DehydrateModel DehydrateSpec DehydrateProofs DehydrateEmits DehydrateFinish RoundTripSpec RoundTripWrites.
From Verif Require JsonProperties.
Open Scope list_scope.
Open Scope nat_scope.

(** ** Solutions of the patterns of the class *)
Section Solutions.
Variable G : quad term -> Prop.

Ltac inst1 :=
  repeat match goal with
  | H : qinst _ _ _ |- _ => let a := fresh in let b := fresh in let c := fresh in let d := fresh in
      destruct H as (a & b & c & d); cbn in a, b, c, d
  | H : pinst _ (PRes _) _ |- _ => inversion H; clear H; subst
  | H : pinst _ (PVar _) _ |- _ => inversion H; clear H; subst
  | H : oinst _ None _ |- _ => inversion H; clear H; subst
  end.

Lemma quad_eta (q : quad term) : q = Quad (q_s q) (q_p q) (q_o q) (q_g q).
Proof. now destruct q. Qed.

Lemma about_sol ps a :
  (forall p o, In (p, o) ps -> G (Quad a p o None)) -> header_sol G None (about ps) [a] [Some a].
Proof.
  intro H. split.
  - split; [reflexivity|auto| |reflexivity]. intros p Hp. apply in_map_iff in Hp as (p0 & <- & Hp).
    apply in_map_iff in Hp as ([p o] & <- & Hp). exists (Quad a p o None). split; [apply H; exact Hp|].
    repeat split; simpl; constructor. reflexivity.
  - intros s'' [L E _ _]. specialize (E 0 a eq_refl). unfold binds in E. simpl in L.
    destruct s'' as [|x [|? ?]]; try discriminate. simpl in E. now injection E as ->.
Qed.

Lemma own_sol r a : item_sol G None [Some a] (same_node r) [Some a].
Proof.
  split.
  - split; [reflexivity|auto|intros ? []|reflexivity].
  - intros s'' [L E _ _]. specialize (E 0 a eq_refl). unfold binds in E. simpl in L.
    destruct s'' as [|x [|? ?]]; try discriminate. simpl in E. now injection E as ->.
Qed.

Lemma tagged_solution a p tag r s' :
  solution G (fresh [Some a] (it_intro (tagged p tag r))) (map (at_graph None) (it_dataset (tagged p tag r))) s' <->
  s' = [Some a] /\ G (Quad a p tag None).
Proof.
  split.
  - intros [L E Q _]. specialize (E 0 a eq_refl). unfold binds in E. simpl in L.
    destruct s' as [|x [|? ?]]; try discriminate. simpl in E. injection E as ->.
    destruct (Q _ (or_introl eq_refl)) as (q & Hq & I). cbn in I. inst1.
    unfold binds in *. simpl in *.
    repeat match goal with H : Some _ = Some _ |- _ => injection H as H end. subst.
    split; [reflexivity|]. rewrite (quad_eta q) in Hq.
    match goal with H : None = q_g q |- _ => rewrite <- H in Hq end. congruence.
  - intros (-> & HG). split; [reflexivity| | |].
    + intros [|x] r0 E; [exact E|]; unfold binds in E; simpl in E; now destruct x.
    + intros q [<-|[]]. exists (Quad a p tag None). split; [exact HG|]. repeat split; simpl; constructor; reflexivity.
    + intros [|x] NV; [reflexivity|]. now destruct x.
Qed.

Lemma linked_solution a p r s' :
  solution G (fresh [Some a] (it_intro (linked p r))) (map (at_graph None) (it_dataset (linked p r))) s' <->
  exists b, s' = [Some a; Some b] /\ G (Quad a p b None).
Proof.
  split.
  - intros [L E Q _]. specialize (E 0 a eq_refl). unfold binds in E. simpl in L.
    destruct s' as [|x [|y [|? ?]]]; try discriminate. simpl in E. injection E as ->.
    destruct (Q _ (or_introl eq_refl)) as (q & Hq & I). cbn in I. inst1.
    unfold binds in *. simpl in *.
    repeat match goal with H : Some _ = Some _ |- _ => injection H as H end. subst.
    exists (q_o q). split; [reflexivity|]. rewrite (quad_eta q) in Hq.
    match goal with H : None = q_g q |- _ => rewrite <- H in Hq end. congruence.
  - intros (b & -> & HG). split; [reflexivity| | |].
    + intros [|[|x]] r0 E; try exact E; try discriminate; unfold binds in E; simpl in E; now destruct x.
    + intros q [<-|[]]. exists (Quad a p b None). split; [exact HG|]. repeat split; simpl; constructor; reflexivity.
    + intros [|[|x]] NV; try reflexivity. exfalso. apply NV. eexists. split; [now left|]. right. right. now left.
Qed.

Lemma cell_solution a h first rest r s' :
  solution G (fresh ([Some a] ++ [Some h]) (1 + it_intro (cell first rest r)))
    (map (at_graph None) (it_dataset (cell first rest r))) s' <->
  exists n b, s' = [Some a; Some h; Some n; Some b] /\ G (Quad h first b None) /\ G (Quad h rest n None).
Proof.
  split.
  - intros [L E Q _]. assert (E0 := E 0 a eq_refl). assert (E1 := E 1 h eq_refl). unfold binds in E0, E1. simpl in L.
    destruct s' as [|x [|y [|z [|w [|? ?]]]]]; try discriminate. simpl in E0, E1. injection E0 as ->. injection E1 as ->.
    destruct (Q _ (or_introl eq_refl)) as (q & Hq & I).
    destruct (Q _ (or_intror (or_introl eq_refl))) as (q' & Hq' & I').
    cbn in I, I'. inst1. unfold binds in *. simpl in *.
    repeat match goal with H : Some _ = Some _ |- _ => injection H as H end. subst.
    exists (q_o q'), (q_o q). split; [reflexivity|]. rewrite (quad_eta q) in Hq. rewrite (quad_eta q') in Hq'.
    repeat match goal with H : None = q_g _ |- _ => rewrite <- H in *; clear H end. split; congruence.
  - intros (n & b & -> & HG & HG'). split; [reflexivity| | |].
    + intros [|[|[|[|x]]]] r0 E; try exact E; try discriminate; unfold binds in E; simpl in E; now destruct x.
    + intros q [<-|[<-|[]]].
      * exists (Quad h first b None). split; [exact HG|]. repeat split; simpl; constructor; reflexivity.
      * exists (Quad h rest n None). split; [exact HG'|]. repeat split; simpl; constructor; reflexivity.
    + intros [|[|[|[|x]]]] NV; try reflexivity; exfalso; apply NV.
      * eexists. split; [right; now left|]. right. right. now left.
      * eexists. split; [now left|]. right. right. now left.
Qed.
End Solutions.

(** ** The conditions on the layouts *)
Section Shapes.
Context {X : Xsd}.
Variable reg : registry term.
Hypothesis TR : tree_registry reg.

Lemma statements_inj ps ps' : statements ps = statements ps' -> ps = ps'.
Proof.
  revert ps'. induction ps as [|[p o] ps IH]; intros [|[p' o'] ps'] H; try discriminate; [reflexivity|].
  unfold statements in H. cbn [map fst snd] in H. injection H as -> -> H. f_equal. auto.
Qed.
Lemma fields_inj fs fs' : fields_of fs = fields_of fs' -> fs = fs'.
Proof.
  revert fs'. induction fs as [|[k c] fs IH]; intros [|[k' c'] fs'] H; try discriminate; [reflexivity|].
  cbn [fields_of map fst snd] in H. injection H as -> Hc H. f_equal; [|auto]. f_equal.
  destruct c, c'; cbn [field_of] in Hc; unfold same_node, linked in Hc; congruence.
Qed.
Lemma items_inj its its' :
  map (fun pr : term * term => linked (fst pr) (snd pr)) its = map (fun pr => linked (fst pr) (snd pr)) its' -> its = its'.
Proof.
  revert its'. induction its as [|[k c] fs IH]; intros [|[k' c'] fs'] H; try discriminate; [reflexivity|].
  cbn [map fst snd] in H. unfold linked in H at 1 3. injection H as -> -> H. f_equal. auto.
Qed.

Lemma record_conditions r ps fs : reg r = Some (record_layout ps fs) ->
  StronglySorted lt (map fst fs) /\
  (forall k c p, In (k, c) fs -> component_owns reg c p -> ~ In p (map fst ps)) /\
  (forall k c k' c' p, In (k, c) fs -> In (k', c') fs -> component_owns reg c p -> component_owns reg c' p -> k = k') /\
  (forall k r, In (k, Own r) fs -> describes_node reg r).
Proof.
  intro E. apply TR in E. unfold record_layout, about in E. inversion E as [| | | |ps' fs' T1 T2 T3 T4 [Es Ef]| | | |].
  apply statements_inj in Es. apply fields_inj in Ef. subst. auto.
Qed.
Lemma tuple_conditions r ps its : reg r = Some (tuple_layout ps its) ->
  NoDup (map fst its) /\ (forall p, In p (map fst its) -> ~ In p (map fst ps)).
Proof.
  intro E. apply TR in E. unfold tuple_layout, about in E. inversion E as [| | | | |ps' its' T1 T2 [Es Ef]| | |].
  apply statements_inj in Es. apply items_inj in Ef. subst. auto.
Qed.
Lemma set_conditions r ps p r' : reg r = Some (set_layout ps p r') -> ~ In p (map fst ps).
Proof.
  intro E. apply TR in E. unfold set_layout, about in E. inversion E as [| | | | | |ps' p' r0 T1 [Es Ep Er]| |].
  apply statements_inj in Es. subst. auto.
Qed.
Lemma list_conditions r ps first rest nil r' : reg r = Some (list_layout ps first rest nil r') ->
  first <> rest /\ ~ In first (map fst ps) /\ ~ In rest (map fst ps) /\ exists i, nil = TmIri i.
Proof.
  intro E. apply TR in E. unfold list_layout, about in E. inversion E as [| | | | | | |ps' f' r0' nil' r0 T1 T2 T3 [Es E1 E2 E3 E4]|].
  apply statements_inj in Es. subst. eauto.
Qed.
Lemma tagged_conditions r ps p vs : reg r = Some (tagged_layout ps p vs) -> vs <> [] ->
  NoDup (map (fun v => fst (snd v)) vs) /\ ~ In p (map fst ps) /\
  (forall n tag r q, In (n, (tag, r)) vs -> Owns reg r q -> q <> p /\ ~ In q (map fst ps)).
Proof.
  intros E NE. apply TR in E. remember (tagged_layout ps p vs) as l eqn:El.
  destruct E as [| |vs' tys HF ND| | | | | |ps' p' vs' T0 T1 T2 T3 T4]; try discriminate.
  - exfalso. unfold choice_layout, tagged_layout in El. injection El as _ El.
    destruct vs as [|[n [t r']] vs], vs' as [|[n' r''] vs']; try discriminate; congruence.
  - apply tagged_inj in El as (Es & -> & ->); [|exact T0]. apply statements_inj in Es as ->. auto.
Qed.
End Shapes.

(** ** Which quads are written about the node *)
Section Owned.
Context {X : Xsd} {IS : IriSyntax}.
Variable reg : registry term.
Variable A : res -> term -> Prop.
Notation Wrote := (Wrote reg A).
Notation WE := (WE reg A).
Notation WT := (WT reg A).
Notation WN := (WN reg A).

Lemma Wrote_triples :
  (forall n n' ref s v Q ids nodes, Wrote n n' ref s v Q ids nodes ->
     forall q, In q Q -> exists p, q = triple (q_s q) p (q_o q)) /\
  (forall n n' s fs m Q ids nodes kids, WE n n' s fs m Q ids nodes kids ->
     forall q, In q Q -> exists p, q = triple (q_s q) p (q_o q)) /\
  (forall n n' s its l Q ids nodes cs, WT n n' s its l Q ids nodes cs ->
     forall q, In q Q -> exists p, q = triple (q_s q) p (q_o q)) /\
  (forall n n' first rest nil r head l Q ids nodes, WN n n' first rest nil r head l Q ids nodes ->
     forall q, In q Q -> exists p, q = triple (q_s q) p (q_o q)).
Proof.
  assert (SD : forall s ps q, In q (said s ps) -> exists p, q = triple (q_s q) p (q_o q)).
  { intros s ps q H. apply said_In in H as (_ & p & o & _ & ->). exists p. reflexivity. }
  apply Wrote_mutind; intros; repeat match goal with
    | H : In _ (_ ++ _) |- _ => apply in_app_iff in H as [H|H]
    | H : In _ (_ :: _) |- _ => destruct H as [H|H]; [subst; eexists; reflexivity|]
    | H : In _ [] |- _ => destruct H
    end; eauto.
Qed.

Lemma link_other s n n1 q : outside n s -> q_s q = s -> q_s q = RAnon n \/ in_range (S n) n1 (q_s q) -> False.
Proof.
  intros OS <- [E|H].
  - apply (OS (S n)). exists n. split; [exact E|lia].
  - apply (OS n1). eapply in_range_weak; [exact H|lia|lia].
Qed.

Lemma Wrote_owned :
  (forall n n' ref s v Q ids nodes, Wrote n n' ref s v Q ids nodes -> outside n s ->
     forall q, In q Q -> q_s q = s -> exists p, q_p q = RTerm p /\ Owns reg ref p) /\
  (forall n n' s fs m Q ids nodes kids, WE n n' s fs m Q ids nodes kids -> outside n s ->
     forall q, In q Q -> q_s q = s ->
     exists p k c, q_p q = RTerm p /\ In k (map fst m) /\ In (k, c) fs /\ component_owns reg c p) /\
  (forall n n' s its l Q ids nodes cs, WT n n' s its l Q ids nodes cs -> outside n s ->
     (forall q, In q Q -> q_s q = s -> exists p o, q = triple s p o /\ In (p, o) (combine (map fst its) cs)) /\
     (forall p o, In (p, o) (combine (map fst its) cs) -> In (triple s p o) Q)) /\
  (forall n n' first rest nil r head l Q ids nodes, WN n n' first rest nil r head l Q ids nodes -> outside n head ->
     forall q, In q Q -> q_s q = head -> q_p q = RTerm first \/ q_p q = RTerm rest).
Proof.
  assert (SD : forall s ps q, In q (said s ps) -> exists p, q_p q = RTerm p /\ In p (map fst ps)).
  { intros s ps q H. apply said_In in H as (_ & p & o & H & ->). exists p. split; [reflexivity|]. now apply (in_map fst) in H. }
  apply Wrote_mutind.
  - intros ? ? ? ? ? _ _ _ q [].
  - intros n ref s ps c E _ q Hq _. apply SD in Hq as (p & E1 & Hp). exists p. split; [exact E1|]. eapply ow_unit; eassumption.
  - intros n n' ref s ps fs m Q ids nodes kids E _ IH _ _ OS q Hq Es. apply in_app_iff in Hq as [Hq|Hq].
    + apply SD in Hq as (p & E1 & Hp). exists p. split; [exact E1|]. eapply ow_record; eassumption.
    + destruct (IH OS q Hq Es) as (p & k & c & E1 & _ & Hc & HO). exists p. split; [exact E1|].
      destruct c as [r|p' b r]; cbn [component_owns] in HO; [eapply ow_own; eassumption|subst; eapply ow_link; eassumption].
  - intros n n' ref s ps its l Q ids nodes cs E _ IH OS q Hq Es. apply in_app_iff in Hq as [Hq|Hq].
    + apply SD in Hq as (p & E1 & Hp). exists p. split; [exact E1|]. eapply ow_tuple; [eassumption|now left].
    + destruct (proj1 (IH OS) q Hq Es) as (p & o & -> & Hc). exists p. split; [reflexivity|]. eapply ow_tuple; [eassumption|right].
      eapply in_combine_l, Hc.
  - intros n n' ref s ps p r l Q ids nodes cs E _ IH OS q Hq Es. apply in_app_iff in Hq as [Hq|Hq].
    + apply SD in Hq as (p' & E1 & Hp). exists p'. split; [exact E1|]. eapply ow_set; [eassumption|now left].
    + destruct (proj1 (IH OS) q Hq Es) as (p' & o & -> & Hc). exists p'. split; [reflexivity|]. eapply ow_set; [eassumption|right].
      apply in_combine_l in Hc. apply in_map_iff in Hc as ([p1 r1] & <- & Hc). now apply repeat_spec in Hc as [= -> ->].
  - intros n n' ref s ps first rest nil r l Q ids nodes E _ IH OS q Hq Es. apply in_app_iff in Hq as [Hq|Hq].
    + apply SD in Hq as (p' & E1 & Hp). exists p'. split; [exact E1|]. eapply ow_list; [eassumption|now left].
    + destruct (IH OS q Hq Es) as [E1|E1]; eexists; (split; [exact E1|]); eapply ow_list; eauto.
  - intros n n' ref s ps p vs name tag r v Q ids nodes E Hn _ _ _ IH OS q Hq Es. apply in_app_iff in Hq as [Hq|Hq].
    + apply SD in Hq as (p' & E1 & Hp). exists p'. split; [exact E1|]. eapply ow_tag; [eassumption|]. cbn [map fst] in Hp.
      destruct Hp as [<-|Hp]; auto.
    + destruct (IH OS q Hq Es) as (p' & E1 & HO). exists p'. split; [exact E1|]. eapply ow_variant; eassumption.
  - intros n s fs _ q [].
  - intros n n' s fs k r pat i m Q ids nodes kids Hc E _ _ IH OS q Hq Es.
    destruct (IH OS q Hq Es) as (p & k' & c & E1 & Hk & H). exists p, k', c. split; [exact E1|]. split; [now right|exact H].
  - intros n n1 n' s fs k r v m Q1 ids1 nodes1 Q2 ids2 nodes2 kids Hc _ W1 IH1 _ IH2 OS q Hq Es.
    destruct (proj1 (Wrote_bounds reg A) _ _ _ _ _ _ _ _ W1) as (L1 & _).
    apply in_app_iff in Hq as [Hq|Hq].
    + destruct (IH1 OS q Hq Es) as (p & E1 & HO). exists p, k, (Own r). split; [exact E1|]. split; [now left|]. auto.
    + destruct (IH2 (outside_weak _ _ _ OS L1) q Hq Es) as (p & k' & c & E1 & Hk & H). exists p, k', c. split; [exact E1|]. split; [now right|exact H].
  - intros n n1 n' s fs k p b r v m Q1 ids1 nodes1 Q2 ids2 nodes2 kids Hc W1 _ _ IH2 OS q Hq Es.
    destruct (proj1 (Wrote_bounds reg A) _ _ _ _ _ _ _ _ W1) as (L1 & HQ & _).
    destruct Hq as [<-|Hq].
    + exists p, k, (Link p b r). split; [reflexivity|]. split; [now left|]. split; [exact Hc|reflexivity].
    + apply in_app_iff in Hq as [Hq|Hq].
      * exfalso. apply HQ in Hq. eapply link_other; eassumption.
      * destruct (IH2 (outside_weak _ n1 _ OS ltac:(lia)) q Hq Es) as (p' & k' & c & E1 & Hk & H). exists p', k', c. split; [exact E1|]. split; [now right|exact H].
  - intros n s _. split; [intros q []|intros p o []].
  - intros n n1 n' s p r its v l Q1 ids1 nodes1 Q2 ids2 nodes2 cs W1 _ _ IH2 OS.
    destruct (proj1 (Wrote_bounds reg A) _ _ _ _ _ _ _ _ W1) as (L1 & HQ & _).
    destruct (IH2 (outside_weak _ n1 _ OS ltac:(lia))) as [I1 I2]. split.
    + intros q [<-|Hq] Es; [exists p, (RAnon n); split; [reflexivity|now left]|]. apply in_app_iff in Hq as [Hq|Hq].
      * exfalso. apply HQ in Hq. eapply link_other; eassumption.
      * destruct (I1 q Hq Es) as (p' & o & -> & Hc). exists p', o. split; [reflexivity|now right].
    + intros p' o [[= <- <-]|H]; [now left|]. right. apply in_app_iff. right. auto.
  - intros n n' first rest nil r head v Q ids nodes W1 _ OS q Hq Es.
    destruct (proj1 (Wrote_bounds reg A) _ _ _ _ _ _ _ _ W1) as (L1 & HQ & _).
    destruct Hq as [<-|[<-|Hq]]; auto. exfalso. apply HQ in Hq. eapply link_other; eassumption.
  - intros n n1 n' first rest nil r head v l Q1 ids1 nodes1 Q2 ids2 nodes2 _ W1 _ W2 _ OS q Hq Es.
    destruct (proj1 (Wrote_bounds reg A) _ _ _ _ _ _ _ _ W1) as (L1 & HQ & _).
    destruct (proj2 (proj2 (proj2 (Wrote_bounds reg A))) _ _ _ _ _ _ _ _ _ _ _ W2) as (L2 & HQ2 & _).
    destruct Hq as [<-|[<-|Hq]]; auto. exfalso. apply in_app_iff in Hq as [Hq|Hq].
    + apply HQ in Hq. eapply (link_other head (S n)); [eapply outside_weak; [exact OS|lia]|exact Es|exact Hq].
    + apply HQ2 in Hq. eapply (link_other head n n'); [exact OS|exact Es|]. destruct Hq as [Hq|Hq]; [now left|right].
      eapply in_range_weak; [exact Hq|lia|lia].
Qed.

Lemma leaf_dec r : leaf reg r \/ ~ leaf reg r.
Proof. unfold leaf. destruct (reg r) as [[]|]; auto. destruct (untagged variants); auto. Qed.

Lemma Wrote_leaf n n' r s v Q ids nodes : Wrote n n' r s v Q ids nodes -> leaf reg r ->
  exists t, leaf_term reg A r v t /\ A s t.
Proof.
  intros W Lf. inversion W; subst; [eauto|..]; exfalso; unfold leaf in Lf;
  match goal with H : reg r = _ |- _ => rewrite H in Lf end; try exact Lf.
  match goal with H : In _ ?l |- _ => destruct l as [|[? [? ?]] ?]; [destruct H|discriminate Lf] end.
Qed.

Lemma leaf_nodes n n' r s v Q ids nodes : Wrote n n' r s v Q ids nodes -> leaf reg r -> Q = [] /\ ids = [] /\ nodes = [].
Proof.
  intros W Lf. inversion W; subst; [auto|..]; exfalso; unfold leaf in Lf;
  match goal with H : reg r = _ |- _ => rewrite H in Lf end; try exact Lf.
  match goal with H : In _ ?l |- _ => destruct l as [|[? [? ?]] ?]; [destruct H|discriminate Lf] end.
Qed.

Lemma WT_children r n n' s its l Q ids nodes cs : WT n n' s its l Q ids nodes cs ->
  (forall p, In p its -> snd p = r) ->
  NoDup cs /\ (~ leaf reg r -> incl cs nodes) /\
  (leaf reg r -> Forall2 (fun v c => exists t, leaf_term reg A r v t /\ A c t) l cs).
Proof.
  induction 1 as [|n n1 n' s p r0 its v l Q1 ids1 nodes1 Q2 ids2 nodes2 cs W1 W2 IH]; intro HR.
  - split; [constructor|]. split; [intros _ ? []|constructor].
  - assert (r0 = r) as -> by (apply (HR (p, r0)); now left).
    destruct IH as (I1 & I2 & I3); [intros; apply HR; now right|].
    destruct (proj1 (Wrote_bounds reg A) _ _ _ _ _ _ _ _ W1) as (L1 & _).
    destruct (proj1 (proj2 (proj2 (Wrote_bounds reg A))) _ _ _ _ _ _ _ _ _ W2) as (_ & HC).
    split; [|split].
    + constructor; [|exact I1]. intro H. apply HC in H as (i & [= <-] & H). lia.
    + intros NL c [<-|Hc]; apply in_app_iff; [left; eapply Wrote_node; eassumption|right; now apply I2].
    + intro Lf. constructor; [eapply Wrote_leaf; eassumption|auto].
Qed.
End Owned.

Section Read.
Context {X : Xsd} {IS : IriSyntax}.
Variable reg : registry term.
Hypothesis TR : tree_registry reg.
Hypothesis DR : decimals_read_back X.
Variable theta : res -> term.
Hypothesis theta_term : forall t, theta (RTerm t) = t.
Variable O : list (quad res).
Variable G : quad term -> Prop.
(** The nodes. *)
Variable N : list res.
(** What the dataset says of the nodes. *)
Hypothesis G_In : forall s p b, In s N -> (G (Quad (theta s) p b None) <-> exists o, In (triple s p o) O /\ theta o = b).
Hypothesis theta_inj : forall r r', In r N -> In r' N -> theta r = theta r' -> r = r'.
Hypothesis theta_nil : forall r ps first rest nil r' x,
  reg r = Some (list_layout ps first rest nil r') -> In x N -> theta x <> nil.
Variable strict : bool.

Notation A := (fun r t => theta r = t).
Notation Wrote := (Wrote reg A).
Notation WE := (WE reg A).
Notation WT := (WT reg A).
Notation WN := (WN reg A).
Notation Means := (Means G reg strict None).
Notation lform ty := (literal_form (type_iri RTerm A (TmIri ty))).

(** ** Leaves *)
Lemma form_type ty k v l : lform ty k v l -> rl_type l = TypeAny ty.
Proof.
  assert (T : forall ty', type_iri RTerm A (TmIri ty) ty' -> ty' = ty).
  { intros ty' [E|E]; [congruence|]. rewrite theta_term in E. congruence. }
  intros []; simpl; now rewrite (T _ H).
Qed.

Lemma data_means r k ty v l : reg r = Some (data_layout k ty) -> lform ty k v l ->
  exists tv, Means r [TmLit l] tv /\ into_untyped tv = VLit v.
Proof.
  intros E F. assert (T := form_type _ _ _ _ F).
  assert (D : exists t, denotes r k ty (rl_value l) t /\ literal_into_untyped t = VLit v).
  { destruct F; simpl in T; injection T as <-.
    - eexists. split; [apply den_boolean; constructor|reflexivity].
    - eexists. split; [apply den_boolean; constructor|reflexivity].
    - eexists. split; [apply den_number; [assumption|apply DR; eassumption]|reflexivity].
    - eexists. split; [apply den_text|reflexivity]. }
  destruct D as (t & D & ET). exists (TLit t). split; [|exact ET].
  eapply (M_data _ _ _ _ _ _ _ _ _ _ _ (TmLit l) [] l []).
  - split; [exact E|]. intros n [= <-]. reflexivity.
  - apply about_sol. intros ? ? [].
  - constructor. reflexivity.
  - reflexivity.
  - split; [exact T|]. left. reflexivity.
  - constructor.
  - constructor.
  - exact D.
Qed.

Lemma data_rejects r k ty ty' l : reg r = Some (data_layout k ty) -> rl_type l = TypeAny ty' -> ty' <> ty ->
  Rejects G reg strict None r [TmLit l].
Proof.
  intros E T NE. eapply R_no_literal.
  - split; [exact E|]. intros n [= <-]. reflexivity.
  - apply about_sol. intros ? ? [].
  - constructor. reflexivity.
  - repeat constructor. exists ty'. split; [exact T|]. intros [F|[]]. congruence.
Qed.

Lemma own_means r a tv : Means r [a] tv -> VMeans G reg strict None [Some a] (it_value (same_node r)) tv.
Proof.
  intro H. eapply VM; [|exact H]. split; [|reflexivity]. repeat constructor.
Qed.
Lemma own_rejects r a : Rejects G reg strict None r [a] -> VRejects G reg strict None [Some a] (it_value (same_node r)).
Proof.
  intro H. eapply VR; [|exact H]. split; [|reflexivity]. repeat constructor.
Qed.

Lemma choice_none l ty' : rl_type l = TypeAny ty' -> forall vs tys,
  Forall2 (fun v ty => exists k, reg (snd v) = Some (data_layout k ty) /\ data_type k ty) vs tys ->
  ~ In ty' tys ->
  NoVariant G reg strict None [Some (TmLit l)] (map (fun v : string * term => Variant (fst v) (same_node (snd v))) vs).
Proof.
  intros T vs tys HF. induction HF as [|[n r] ty vs tys (k & E & _) HF IH]; intro NI; simpl; constructor.
  - eapply E_value; [apply own_sol|]. apply own_rejects. eapply data_rejects; [exact E|exact T|]. intros ->. apply NI. now left.
  - apply IH. intro H. apply NI. now right.
Qed.

Lemma choice_one v l ty k0 r0 : reg r0 = Some (data_layout k0 ty) -> lform ty k0 v l -> forall vs tys i,
  Forall2 (fun v ty => exists k, reg (snd v) = Some (data_layout k ty) /\ data_type k ty) vs tys ->
  NoDup tys -> (exists n, In (n, r0) vs) ->
  exists j tv, One G reg strict None [Some (TmLit l)] i (map (fun v : string * term => Variant (fst v) (same_node (snd v))) vs) j tv /\
    into_untyped tv = VLit v.
Proof.
  intros E0 F vs tys i HF. revert i. assert (T := form_type _ _ _ _ F).
  assert (IN : forall (vs : list (string * term)) tys, Forall2 (fun v ty => exists k, reg (snd v) = Some (data_layout k ty) /\ data_type k ty) vs tys ->
    forall n, In (n, r0) vs -> In ty tys).
  { induction 1 as [|[n1 r1] ty1 vs' tys' (k1 & E1 & _) HF' IH]; intros n; [intros []|].
    intros [[= -> ->]|H]; [|right; eauto]. left. cbn in E1. rewrite E0 in E1. unfold data_layout in E1. congruence. }
  induction HF as [|[n r] ty1 vs tys (k & E & D) HF IH]; intros i ND [n0 H0]; [destruct H0|].
  inversion ND as [|? ? NI ND']; subst. cbn [snd] in E. destruct (string_dec ty1 ty) as [-> |NE].
  - destruct H0 as [[= -> ->]|H0].
    + destruct (data_means _ _ _ _ _ E0 F) as (tv & HM & EU). exists i, tv. split; [|exact EU].
      eapply O_here; [apply own_sol|apply own_means; exact HM|]. eapply choice_none; eassumption.
    + exfalso. apply NI. eapply IN; eassumption.
  - assert (exists n, In (n, r0) vs) as H1.
    { destruct H0 as [[= -> ->]|H0]; [|eauto]. exfalso. apply NE. rewrite E0 in E. unfold data_layout in E. congruence. }
    destruct (IH (S i) ND' H1) as (j & tv & HO & EU). exists j, tv. split; [|exact EU]. simpl. apply O_later; [|exact HO].
    eapply E_value; [apply own_sol|]. apply own_rejects. eapply data_rejects; [exact E|exact T|congruence].
Qed.

Lemma leaf_means r v t : leaf_term reg A r v t -> exists tv, Means r [t] tv /\ into_untyped tv = v.
Proof.
  intro H. destruct H as [ref k ty v l E F|ref pat s E|ref vs n r v t E Hn H].
  - eapply data_means; eassumption.
  - exists (TLit (TId s ref)). split; [|reflexivity]. eapply M_id.
    + split; [exact E|]. intros ? [= <-]. reflexivity.
    + apply about_sol. intros ? ? [].
    + constructor. reflexivity.
    + reflexivity.
  - assert (T := TR _ _ E). inversion T as [| |vs' tys HF ND EV| | | | | |ps' p' vs' T0 _ _ _ _ EV]; subst.
    2: { exfalso. destruct vs as [|[n' r'] vs], vs' as [|[n'' [? ?]] vs']; try discriminate; congruence. }
    assert (vs' = vs) as ->.
    { clear - EV. revert vs EV. induction vs' as [|[n r] vs' IH]; intros [|[n' r'] vs] EV; try discriminate; [reflexivity|].
      simpl in EV. injection EV as -> -> EV. f_equal. auto. }
    assert (exists k ty, reg r = Some (data_layout k ty)) as (k & ty & Er).
    { clear - HF Hn. induction HF as [|[n1 r1] ty1 vs tys (k1 & E1 & _) HF IH]; [destruct Hn|].
      destruct Hn as [[= -> ->]|Hn]; [eauto|auto]. }
    destruct H as [ref' k' ty' v l E' F|ref' pat s E'|ref' vs' n' r' v t E' _ _];
      try (rewrite Er in E'; discriminate).
    destruct (choice_one v l ty' k' ref' E' F vs tys 0 HF ND (ex_intro _ n Hn)) as (j & tv & HO & EU).
    exists (TVariant tv ref j). split; [|exact EU]. eapply M_sum.
    + split; [exact E|]. intros ? [= <-]. reflexivity.
    + apply about_sol. intros ? ? [].
    + exact HO.
Qed.

(** ** Nodes *)
Definition local lo hi (s : res) (P : term -> Prop) (Q : list (quad res)) : Prop :=
  forall q, In q O ->
    (q_s q = s /\ exists p, q_p q = RTerm p /\ P p) \/ in_range lo hi (q_s q) -> In q Q.

Definition present s (c : component) (tv : typed_value term) : Prop :=
  exists s', item_sol G None [Some (theta s)] (f_item (field_of c)) s' /\
    VMeans G reg strict None s' (it_value (f_item (field_of c))) tv.
Definition target (c : component) : term := match c with Own r => r | Link _ _ r => r end.

Definition entry s (fs : list (value * component)) (kv : value * value) (kw : value * typed_value term) : Prop :=
  fst kw = fst kv /\ exists c, In (fst kv, c) fs /\ present s c (snd kw) /\
    Same reg (target c) (snd kv) (into_untyped (snd kw)).

Inductive kids_read : list (term * term) -> list value -> list res -> list (typed_value term) -> Prop :=
| kr_nil : kids_read [] [] [] []
| kr_cons p r its v l c cs tv tvs :
    Means r [theta c] tv -> Same reg r v (into_untyped tv) -> kids_read its l cs tvs ->
    kids_read ((p, r) :: its) (v :: l) (c :: cs) (tv :: tvs).

Lemma linked_means s p r b tv : Means r [b] tv ->
  VMeans G reg strict None [Some (theta s); Some b] (it_value (linked p r)) tv.
Proof. intro H. eapply VM; [|exact H]. split; [|reflexivity]. repeat constructor. Qed.

Lemma linked_sol s p r c : In s N ->
  (forall o, In (triple s p o) O <-> o = c) ->
  item_sol G None [Some (theta s)] (linked p r) [Some (theta s); Some (theta c)].
Proof.
  intros HN H. split.
  - apply linked_solution. exists (theta c). split; [reflexivity|]. apply G_In; [exact HN|]. exists c. split; [now apply H|reflexivity].
  - intros s'' HS. apply linked_solution in HS as (b & -> & HG). apply G_In in HG as (o & Ho & <-); [|exact HN].
    apply H in Ho as ->. reflexivity.
Qed.

Lemma said_sol s ps : In s N -> incl (said s ps) O ->
  header_sol G None (about ps) [theta s] [Some (theta s)].
Proof.
  intros HN HI. apply about_sol. intros p o Hp. apply G_In; [exact HN|]. exists (RTerm o). split; [|apply theta_term].
  apply HI. apply in_map_iff. exists (p, o). auto.
Qed.

Lemma layout_for_1 ref l : reg ref = Some l -> (arity l = None \/ arity l = Some 1) ->
  forall a, layout_for reg ref [a] l.
Proof. intros E H a. split; [exact E|]. intros n En. destruct H; simpl; congruence. Qed.

(** The fields of a record, from its entries. *)
Lemma fields_read s : forall fs m m',
  StronglySorted lt (map fst fs) -> StronglySorted lt (map fst m) ->
  Forall2 (entry s fs) m m' ->
  (forall k c, In (k, c) fs -> ~ In k (map fst m) ->
     f_required (field_of c) = false /\ item_none G None [Some (theta s)] (f_item (field_of c))) ->
  Fields G reg strict None [Some (theta s)] (fields_of fs) m'.
Proof.
  induction fs as [|[k c] fs IH]; intros m m' SF SM HF HA.
  - destruct HF as [|kv kw m m' (_ & c & [] & _) _]. constructor.
  - cbn [map fst] in SF. inversion SF as [|? ? SF' HB]; subst. rewrite Forall_forall in HB.
    assert (TL : forall m m', ~ In k (map fst m) -> Forall2 (entry s ((k, c) :: fs)) m m' -> Forall2 (entry s fs) m m').
    { clear. intros m m' NI H. induction H as [|kv kw m m' (E & c' & Hc & H1) _ IH]; [constructor|].
      constructor; [|apply IH; intro; apply NI; now right]. split; [exact E|]. exists c'. split; [|exact H1].
      destruct Hc as [[= E1 E2]|Hc]; [exfalso; apply NI; left; now symmetry|exact Hc]. }
    assert (HA' : forall k' c', In (k', c') fs -> k' <> k).
    { intros k' c' H ->. apply (in_map fst) in H. apply HB in H. exact (lt_irrefl _ H). }
    destruct (in_dec cmp_eq_dec k (map fst m)) as [HI|NI].
    + destruct HF as [|[k1 v] [k2 tv] m m' (E & c1 & Hc1 & HP1 & HS1) HF]; [destruct HI|].
      cbn [fst snd] in *. subst k2. inversion SM as [|? ? SM' HM]; subst. rewrite Forall_forall in HM.
      assert (k1 = k) as ->.
      { destruct HI as [<-|HI]; [reflexivity|]. exfalso. apply HM in HI.
        destruct Hc1 as [[= <- <-]|Hc1]; [exact (lt_irrefl _ HI)|].
        apply (in_map fst) in Hc1. apply HB in Hc1. exact (lt_irrefl _ (lt_trans _ _ _ HI Hc1)). }
      assert (c1 = c) as ->.
      { destruct Hc1 as [[= <-]|Hc1]; [reflexivity|]. exfalso. exact (HA' _ _ Hc1 eq_refl). }
      assert (NK : ~ In k (map fst m)) by (intro H; apply HM in H; exact (lt_irrefl _ H)).
      destruct HP1 as (s' & H1 & H2). cbn [fields_of map fst snd]. eapply F_present; [exact H1|exact H2|].
      eapply IH; [exact SF'|exact SM'|apply TL; assumption|].
      intros k' c' Hk' NI'. apply (HA k' c'); [now right|]. intros [<-|F]; [exact (HA' _ _ Hk' eq_refl)|contradiction].
    + destruct (HA k c ltac:(now left) NI) as [HR HN]. cbn [fields_of map fst snd].
      apply F_absent; [exact HN|exact HR|]. eapply IH; [exact SF'|exact SM|apply TL; assumption|].
      intros k' c' Hk' NI'. apply (HA k' c'); [now right|exact NI'].
Qed.

Lemma tuple_read s its l cs tvs : In s N -> kids_read its l cs tvs -> NoDup (map fst its) ->
  (forall p o, In p (map fst its) -> (In (triple s p o) O <-> In (p, o) (combine (map fst its) cs))) ->
  Tuple G reg strict None [Some (theta s)] (map (fun pr : term * term => linked (fst pr) (snd pr)) its) tvs.
Proof.
  intros HN. induction 1 as [|p r its v l c cs tv tvs HM HS _ IH]; intros ND H; [constructor|].
  cbn [map fst snd] in *. inversion ND as [|? ? NI ND']; subst. eapply T_cons.
  - apply linked_sol; [exact HN|]. intro o. rewrite H by now left. simpl. split.
    + intros [[= <-]|F]; [reflexivity|]. apply in_combine_l in F. contradiction.
    + intros ->. now left.
  - apply linked_means. exact HM.
  - apply IH; [exact ND'|]. intros p' o Hp. rewrite H by now right. simpl. split; [|auto].
    intros [[= -> _]|F]; [contradiction|exact F].
Qed.

Lemma kids_same its l cs tvs : kids_read its l cs tvs -> SameL reg (map snd its) l (map into_untyped tvs).
Proof. induction 1; simpl; constructor; assumption. Qed.

Lemma kids_items s p r its l cs tvs : (forall x, In x its -> x = (p, r)) -> kids_read its l cs tvs ->
  Items G reg strict None (it_value (linked p r)) (map (fun c => [Some (theta s); Some (theta c)]) cs) tvs.
Proof.
  intros HA H. induction H as [|p' r' its v l c cs tv tvs HM HS _ IH]; simpl; constructor.
  - injection (HA (p', r') ltac:(now left)) as -> ->. apply (linked_means s p). exact HM.
  - apply IH. intros; apply HA; now right.
Qed.

Lemma Forall2_NoDup {T U} (P : T -> U -> Prop) l l' :
  (forall a a' b, P a b -> P a' b -> a = a') -> Forall2 P l l' -> NoDup l -> NoDup l'.
Proof.
  intros HP H. induction H as [|a b l l' Hab H IH]; intro ND; constructor.
  - inversion ND as [|? ? NI _]; subst. intro Hb. apply NI. clear - HP H Hab Hb.
    induction H as [|a' b' l l' Hab' H IH]; [destruct Hb|]. destruct Hb as [-> |Hb]; [left; eauto|right; auto].
  - apply IH. now inversion ND.
Qed.

Lemma leaf_fun r v v' t : leaf_term reg A r v t -> leaf_term reg A r v' t -> strict = false -> v = v'.
Proof.
  intros H H' E. apply leaf_means in H as (tv & HM & <-). apply leaf_means in H' as (tv' & HM' & <-).
  rewrite E in *. destruct (semantics_det G reg) as [DT _]. destruct (DT _ _ _ _ HM) as [D1 _].
  now rewrite (D1 _ HM').
Qed.

Definition leaf_inj : Prop := forall r v v' t, leaf_term reg A r v t -> leaf_term reg A r v' t -> v = v'.

Lemma fields_target (c : component) : vf_layout (it_value (f_item (field_of c))) = target c.
Proof. now destruct c. Qed.

Theorem reads : leaf_inj ->
  (forall n n' ref s v Q ids nodes, Wrote n n' ref s v Q ids nodes ->
     outside n s -> incl Q O -> incl nodes N -> local n n' s (Owns reg ref) Q -> Proper reg ref v ->
     exists tv, Means ref [theta s] tv /\ Same reg ref v (into_untyped tv)) /\
  (forall n n' s fs m Q ids nodes kids, WE n n' s fs m Q ids nodes kids ->
     outside n s -> In s N -> incl Q O -> incl nodes N ->
     (forall k c k' c' p, In (k, c) fs -> In (k', c') fs -> component_owns reg c p -> component_owns reg c' p -> k = k') ->
     NoDup (map fst m) ->
     (forall k v c, In (k, v) m -> In (k, c) fs -> Proper reg (target c) v) ->
     local n n' s (fun p => exists k c, In k (map fst m) /\ In (k, c) fs /\ component_owns reg c p) Q ->
     exists m', Forall2 (entry s fs) m m') /\
  (forall n n' s its l Q ids nodes cs, WT n n' s its l Q ids nodes cs ->
     outside n s -> incl Q O -> incl nodes N ->
     local n n' s (fun _ => False) Q ->
     (forall i r v, nth_error (map snd its) i = Some r -> nth_error l i = Some v -> Proper reg r v) ->
     exists tvs, kids_read its l cs tvs) /\
  (forall n n' first rest nil r head l Q ids nodes, WN n n' first rest nil r head l Q ids nodes ->
     outside n head -> incl Q O -> incl nodes N ->
     first <> rest -> (forall x, In x N -> theta x <> nil) ->
     local n n' head (fun p => p = first \/ p = rest) Q -> (forall v, In v l -> Proper reg r v) ->
     forall a, exists tvs,
       Nodes G reg strict None [Some a] (cell first rest r) (theta head) nil tvs /\
       SameL reg (repeat r (length l)) l (map into_untyped tvs)).
Proof.
  intro LI. apply Wrote_mutind.
  - (* leaf *)
    intros n ref s v t HL E _ _ _ _ _. apply leaf_means in HL as (tv & HM & <-). exists tv. rewrite E. split; [exact HM|constructor].
  - (* unit *)
    intros n ref s ps c E _ HQ HN _ _. exists (TLit (TUnit c ref)). split; [|constructor].
    eapply M_unit; [apply (layout_for_1 _ _ E); now right|]. apply said_sol; [apply HN; now left|exact HQ].
  - (* record *)
    intros n n' ref s ps fs m Q ids nodes kids E W IH HO HL OS HQ HN LO HP.
    destruct (record_conditions reg TR _ _ _ E) as (SF & T2 & T3 & T4).
    assert (OW := proj1 (proj2 (Wrote_owned reg A)) _ _ _ _ _ _ _ _ _ W OS).
    assert (HPm : StronglySorted lt (map fst m) /\ forall k v c, In (k, v) m -> In (k, c) fs -> Proper reg (target c) v).
    { unfold record_layout in E. inversion HP as [? ? HLf|? ? ? E1|? ? ? ? E1 S1 H1| | | |? ? ? ? ? ? ? ? E1]; subst; try (unfold tagged_layout in *; congruence).
      - unfold leaf in HLf. rewrite E in HLf. contradiction.
      - rewrite E in E1. injection E1 as <- <-. split; [exact S1|]. intros k v c Hm Hc. rewrite <- fields_target.
        eapply H1; [exact Hm|]. apply field_In. exact Hc. }
    destruct HPm as [SM HPm].
    assert (LQ : forall q, In q O -> q_s q = s -> (exists p k c, q_p q = RTerm p /\ In (k, c) fs /\ component_owns reg c p) -> In q Q).
    { intros q Hq Es (p & k & c & Ep & Hc & Ho). assert (HI : In q (said s ps ++ Q)).
      { apply LO; [exact Hq|]. left. split; [exact Es|]. exists p. split; [exact Ep|].
        destruct c as [r|p' b r]; cbn [component_owns] in Ho; [eapply ow_own; eassumption|subst; eapply ow_link; eassumption]. }
      apply in_app_iff in HI as [HI|HI]; [|exact HI]. exfalso. apply said_In in HI as (_ & p' & o & Hp' & ->).
      injection Ep as <-. eapply T2; [exact Hc|exact Ho|]. apply (in_map fst) in Hp'. exact Hp'. }
    destruct IH as (m' & HF).
    { exact OS. }
    { apply HN. now left. }
    { intros q Hq. apply HQ, in_app_iff. now right. }
    { intros r Hr. apply HN. now right. }
    { exact T3. }
    { apply sorted_lt_NoDup. exact SM. }
    { exact HPm. }
    { intros q Hq [(Es & p & Ep & k & c & _ & Hc & Ho)|HR]; [apply LQ; [exact Hq|exact Es|eauto 6]|].
      assert (HI : In q (said s ps ++ Q)) by (apply LO; auto).
      apply in_app_iff in HI as [HI|HI]; [|exact HI]. exfalso. apply said_In in HI as (Es & _). rewrite Es in HR. exact (OS _ HR). }
    assert (HS : In s N) by (apply HN; now left).
    assert (FL : Fields G reg strict None [Some (theta s)] (fields_of fs) m').
    { eapply fields_read; [exact SF|exact SM|exact HF|]. intros k c Hc NI. destruct c as [r|p [|] r].
      - exfalso. apply NI. eapply HO; exact Hc.
      - exfalso. apply NI. eapply HL; exact Hc.
      - split; [reflexivity|]. intros s' Hs. cbn [field_of f_item] in Hs. apply linked_solution in Hs as (b & -> & HG).
        apply G_In in HG as (o & Ho & _); [|exact HS].
        assert (HI : In (triple s p o) Q).
        { apply LQ; [exact Ho|reflexivity|]. exists p, k, (Link p false r). split; [reflexivity|]. split; [exact Hc|reflexivity]. }
        destruct (OW _ HI eq_refl) as (p' & k' & c' & [= <-] & Hk' & Hc' & Ho'). apply NI.
        rewrite (T3 k (Link p false r) k' c' p Hc Hc' eq_refl Ho'). exact Hk'. }
    exists (TMap m' ref). split.
    + eapply M_product; [apply (layout_for_1 _ _ E); now right| |exact FL]. apply said_sol; [exact HS|].
      intros q Hq. apply HQ, in_app_iff. now left.
    + cbn [into_untyped].
      assert (EK : map fst (map (fun kv : value * typed_value term => (fst kv, into_untyped (snd kv))) m') = map fst m).
      { rewrite map_map. cbn [fst]. clear - HF. induction HF as [|kv kw m m' (Ek & _) _ IH]; simpl; [reflexivity|]. congruence. }
      rewrite JsonProperties.bt_collect_sorted by (rewrite EK; exact SM).
      eapply sm_record; [exact E|]. clear - HF. induction HF as [|[k v] [k' tv] m m' (Ek & c & Hc & _ & HS) _ IH]; cbn [map fst snd] in *; [constructor|].
      subst k'. econstructor; [apply field_In; exact Hc| |exact IH]. rewrite fields_target. exact HS.
  - (* tuple *)
    intros n n' ref s ps its l Q ids nodes cs E W IH OS HQ HN LO HP.
    destruct (tuple_conditions reg TR _ _ _ E) as (ND & T2).
    destruct (proj1 (proj2 (proj2 (Wrote_owned reg A))) _ _ _ _ _ _ _ _ _ W OS) as (OW1 & OW2).
    assert (HS : In s N) by (apply HN; now left).
    assert (LQ : forall q, In q O -> in_range n n' (q_s q) -> In q Q).
    { intros q Hq HR. assert (HI : In q (said s ps ++ Q)) by (apply LO; auto).
      apply in_app_iff in HI as [HI|HI]; [|exact HI]. exfalso. apply said_In in HI as (Es & _). rewrite Es in HR. exact (OS _ HR). }
    destruct IH as (tvs & HK).
    { exact OS. }
    { intros q Hq. apply HQ, in_app_iff. now right. }
    { intros r Hr. apply HN. now right. }
    { intros q Hq [(_ & _ & _ & [])|HR]. auto. }
    { unfold tuple_layout in E. inversion HP as [? ? HLf|? ? ? E1| |? ? ? ? E1 Hc| | |? ? ? ? ? ? ? ? E1]; subst; try (unfold tagged_layout in *; congruence).
      { unfold leaf in HLf. rewrite E in HLf. contradiction. }
      rewrite E in E1. injection E1 as <- <-. intros i r0 v0 Hi Hv.
      rewrite nth_error_map in Hi. destruct (nth_error its i) as [[p r1]|] eqn:EI1; [|discriminate]. injection Hi as <-.
      apply (Hc i (linked p r1)); [|exact Hv]. rewrite nth_error_map, EI1. reflexivity. }
    exists (TList tvs ref). split.
    + eapply M_sized; [apply (layout_for_1 _ _ E); now right| |].
      * apply said_sol; [exact HS|]. intros q Hq. apply HQ, in_app_iff. now left.
      * eapply tuple_read; [exact HS|exact HK|exact ND|]. intros p o Hp. split.
        -- intro Ho. assert (HI : In (triple s p o) (said s ps ++ Q)).
           { apply LO; [exact Ho|]. left. split; [reflexivity|]. exists p. split; [reflexivity|]. eapply ow_tuple; [exact E|now right]. }
           apply in_app_iff in HI as [HI|HI].
           ++ exfalso. apply said_In in HI as (_ & p' & o' & Hp' & [= <- _]). apply (T2 p Hp). apply (in_map fst) in Hp'. exact Hp'.
           ++ destruct (OW1 _ HI eq_refl) as (p' & o' & [= <- <-] & H). exact H.
        -- intro H. apply HQ, in_app_iff. right. auto.
    + eapply sm_tuple; [exact E|]. rewrite map_map. apply kids_same in HK. exact HK.
  - (* set *)
    intros n n' ref s ps p r l Q ids nodes cs E W IH OS HQ HN LO HP.
    assert (T2 := set_conditions reg TR _ _ _ _ E).
    destruct (proj1 (proj2 (proj2 (Wrote_owned reg A))) _ _ _ _ _ _ _ _ _ W OS) as (OW1 & OW2).
    assert (HS : In s N) by (apply HN; now left).
    assert (LQ : forall q, In q O -> in_range n n' (q_s q) -> In q Q).
    { intros q Hq HR. assert (HI : In q (said s ps ++ Q)) by (apply LO; auto).
      apply in_app_iff in HI as [HI|HI]; [|exact HI]. exfalso. apply said_In in HI as (Es & _). rewrite Es in HR. exact (OS _ HR). }
    assert (HP' : (forall v, In v l -> Proper reg r v) /\ (leaf reg r -> NoDup l)).
    { unfold set_layout in E. inversion HP as [? ? HLf|? ? ? E1| | |? ? ? ? E1 Hc Hl| |? ? ? ? ? ? ? ? E1]; subst; try (unfold tagged_layout in *; congruence).
      { unfold leaf in HLf. rewrite E in HLf. contradiction. }
      rewrite E in E1. injection E1 as <- <-. split; [exact Hc|exact Hl]. }
    destruct HP' as [HP1 HP2].
    assert (RP : forall x, In x (repeat (p, r) (length l)) -> x = (p, r)) by (intros x; apply repeat_spec).
    destruct IH as (tvs & HK).
    { exact OS. }
    { intros q Hq. apply HQ, in_app_iff. now right. }
    { intros r0 Hr. apply HN. now right. }
    { intros q Hq [(_ & _ & _ & [])|HR]. auto. }
    { intros i r0 v0 Hi Hv. apply nth_error_In in Hi, Hv. apply in_map_iff in Hi as (x & <- & Hi). rewrite (RP _ Hi). auto. }
    destruct (WT_children reg A r _ _ _ _ _ _ _ _ _ W) as (NC & CI & CL); [intros x Hx; now rewrite (RP _ Hx)|].
    assert (NDT : NoDup (map theta cs)).
    { destruct (leaf_dec reg r) as [Lf|NL].
      - eapply (Forall2_NoDup (fun v t => leaf_term reg A r v t)); [intros; eapply LI; eassumption| |exact (HP2 Lf)].
        specialize (CL Lf). clear - CL. induction CL as [|v c l cs (t & H & <-) _ IH]; simpl; constructor; auto.
      - specialize (CI NL). assert (CN : incl cs N) by (intros c Hc; apply HN; right; auto).
        clear - NC CN theta_inj. induction NC as [|c cs NI _ IH]; simpl; constructor.
        + intro H. apply in_map_iff in H as (c' & Ec & Hc). apply theta_inj in Ec; [subst; contradiction| |]; apply CN; auto using in_eq, in_cons.
        + apply IH. intros x Hx. apply CN. now right. }
    assert (CB : forall o, In (triple s p o) O <-> In o cs).
    { assert (LC : length cs = length l) by (clear - HK; remember (repeat (p, r) (length l)) as its; clear Heqits; induction HK; simpl; congruence).
      assert (CC : forall o, In (p, o) (combine (map fst (repeat (p, r) (length l))) cs) <-> In o cs).
      { rewrite <- LC. clear. induction cs as [|c cs IH]; intro o; simpl; [tauto|]. rewrite IH. intuition congruence. }
      intro o. rewrite <- CC. split.
      - intro Ho. assert (HI : In (triple s p o) (said s ps ++ Q)).
        { apply LO; [exact Ho|]. left. split; [reflexivity|]. exists p. split; [reflexivity|]. eapply ow_set; [exact E|now right]. }
        apply in_app_iff in HI as [HI|HI].
        + exfalso. apply said_In in HI as (_ & p' & o' & Hp' & [= <- _]). apply T2. apply (in_map fst) in Hp'. exact Hp'.
        + destruct (OW1 _ HI eq_refl) as (p' & o' & [= <- <-] & H). exact H.
      - intro H. apply HQ, in_app_iff. right. auto. }
    exists (TList (sort tvs) ref). split.
    + eapply (M_unordered _ _ _ _ _ _ _ _ _ (map (fun c => [Some (theta s); Some (theta c)]) cs) tvs);
        [apply (layout_for_1 _ _ E); now right| | | | | |].
      * apply said_sol; [exact HS|]. intros q Hq. apply HQ, in_app_iff. now left.
      * clear - NDT. induction cs as [|c cs IH]; simpl in *; [constructor|]. inversion NDT as [|? ? NI ND]; subst. constructor; [|auto].
        intro H. apply NI. apply in_map_iff in H as (c' & [= Ec] & Hc). rewrite <- Ec. now apply in_map.
      * intro s'. rewrite linked_solution. split.
        -- intro H. apply in_map_iff in H as (c & <- & Hc). exists (theta c). split; [reflexivity|].
           apply G_In; [exact HS|]. exists c. split; [now apply CB|reflexivity].
        -- intros (b & -> & HG). apply G_In in HG as (o & Ho & <-); [|exact HS]. apply CB in Ho.
           apply in_map_iff. exists o. auto.
      * eapply kids_items; [exact RP|exact HK].
      * apply Permutation_sym, sort_perm.
      * apply sort_sorted.
    + cbn [into_untyped]. eapply (sm_set _ _ _ _ _ (map into_untyped tvs)); [exact E| |].
      * apply kids_same in HK. cbn [it_value linked vf_layout].
        replace (repeat r (length l)) with (map snd (repeat (p, r) (length l))); [exact HK|].
        clear. induction (length l); simpl; congruence.
      * apply Permutation_map, Permutation_sym, sort_perm.
  - (* list *)
    intros n n' ref s ps first rest nil r l Q ids nodes E W IH OS HQ HN LO HP.
    destruct (list_conditions reg TR _ _ _ _ _ _ E) as (T1 & T2 & T3 & _).
    assert (HS : In s N) by (apply HN; eapply WN_head; exact W).
    destruct (IH OS) with (a := theta s) as (tvs & HK & HSame).
    { intros q Hq. apply HQ, in_app_iff. now right. }
    { exact HN. }
    { exact T1. }
    { intros x Hx. eapply theta_nil; eassumption. }
    { intros q Hq HR. assert (HI : In q (said s ps ++ Q)).
      { apply LO; [exact Hq|]. destruct HR as [(Es & p & Ep & Hp)|HR]; [left|now right]. split; [exact Es|]. exists p. split; [exact Ep|].
        eapply ow_list; [exact E|now right]. }
      apply in_app_iff in HI as [HI|HI]; [|exact HI]. exfalso. apply said_In in HI as (Es & p & o & Hp & Eq).
      destruct HR as [(_ & p' & Ep & Hp')|HR]; [|rewrite Es in HR; exact (OS _ HR)].
      rewrite Eq in Ep. injection Ep as <-. apply (in_map fst) in Hp. cbn [fst] in Hp. destruct Hp' as [-> | ->]; contradiction. }
    { unfold list_layout in E. inversion HP as [? ? HLf|? ? ? E1| | | |? ? ? ? ? ? E1 Hc NE|? ? ? ? ? ? ? ? E1]; subst; try (unfold tagged_layout in *; congruence).
      { unfold leaf in HLf. rewrite E in HLf. contradiction. }
      rewrite E in E1. injection E1 as <- <- <- <-. exact Hc. }
    exists (TList tvs ref). split.
    + eapply M_ordered; [apply (layout_for_1 _ _ E); now right| | | |exact HK].
      * apply said_sol; [exact HS|]. intros q Hq. apply HQ, in_app_iff. now left.
      * constructor. reflexivity.
      * constructor.
    + eapply sm_list; [exact E|]. exact HSame.
  - (* choice *)
    intros n n' ref s ps p vs name tag r v Q ids nodes E Hn NL HP1 W IH OS HQ HN LO _.
    assert (NE : vs <> []) by (intros ->; destruct Hn).
    destruct (tagged_conditions reg TR _ _ _ _ E NE) as (ND & T2 & T3).
    assert (HS : In s N) by (apply HN; eapply Wrote_node; eassumption).
    assert (OW := proj1 (Wrote_owned reg A) _ _ _ _ _ _ _ _ W OS).
    destruct IH as (tv & HM & HSame).
    { exact OS. }
    { intros q Hq. apply HQ, in_app_iff. now right. }
    { exact HN. }
    { intros q Hq HR. assert (HI : In q (said s ((p, tag) :: ps) ++ Q)).
      { apply LO; [exact Hq|]. destruct HR as [(Es & p' & Ep & Ho)|HR]; [left|now right]. split; [exact Es|]. exists p'. split; [exact Ep|].
        eapply ow_variant; eassumption. }
      apply in_app_iff in HI as [HI|HI]; [|exact HI]. exfalso. apply said_In in HI as (Es & p' & o & Hp & Eq).
      destruct HR as [(_ & p2 & Ep & Ho)|HR]; [|rewrite Es in HR; exact (OS _ HR)].
      rewrite Eq in Ep. injection Ep as <-. destruct (T3 _ _ _ _ Hn Ho) as [N1 N2]. destruct Hp as [[= <- <-]|Hp]; [congruence|].
      apply N2. apply (in_map fst) in Hp. exact Hp. }
    { exact HP1. }
    assert (TAG : forall t, G (Quad (theta s) p t None) <-> t = tag).
    { intro t. rewrite (G_In _ _ _ HS). split.
      - intros (o & Ho & <-). assert (HI : In (triple s p o) (said s ((p, tag) :: ps) ++ Q)).
        { apply LO; [exact Ho|]. left. split; [reflexivity|]. exists p. split; [reflexivity|]. eapply ow_tag; [exact E|now right]. }
        apply in_app_iff in HI as [HI|HI].
        + apply said_In in HI as (_ & p' & o' & Hp & [= <- ->]). destruct Hp as [[= <-]|Hp]; [apply theta_term|].
          exfalso. apply T2. apply (in_map fst) in Hp. exact Hp.
        + exfalso. destruct (OW _ HI eq_refl) as (p' & [= <-] & Ho'). destruct (T3 _ _ _ _ Hn Ho') as [F _]. congruence.
      - intros ->. exists (RTerm tag). split; [|apply theta_term]. apply HQ, in_app_iff. left. now left. }
    assert (OTHER : forall vs, (forall n' tag' r', In (n', (tag', r')) vs -> tag' <> tag) ->
      NoVariant G reg strict None [Some (theta s)] (map (fun v => Variant (fst v) (tagged p (fst (snd v)) (snd (snd v)))) vs)).
    { clear - TAG. induction vs as [|[n' [tag' r']] vs IH]; intro H; cbn [map fst snd]; constructor.
      - apply E_none. intros s' Hs. apply tagged_solution in Hs as (_ & HG). apply TAG in HG. exact (H n' tag' r' (or_introl eq_refl) HG).
      - apply IH. intros. eapply H. right. eassumption. }
    assert (ONE : forall vs i, NoDup (map (fun v : string * (term * term) => fst (snd v)) vs) -> In (name, (tag, r)) vs ->
      exists j, One G reg strict None [Some (theta s)] i (map (fun v => Variant (fst v) (tagged p (fst (snd v)) (snd (snd v)))) vs) j tv).
    { clear - TAG OTHER HM. induction vs as [|[n' [tag' r']] vs IH]; intros i ND Hn; [destruct Hn|].
      cbn [map fst snd] in ND |- *. inversion ND as [|? ? NI ND']; subst. destruct Hn as [[= -> -> ->]|Hn].
      - exists i. eapply (O_here _ _ _ _ _ _ _ _ [Some (theta s)]).
        + split; [apply tagged_solution; split; [reflexivity|now apply TAG]|]. intros s'' Hs. now apply tagged_solution in Hs as (-> & _).
        + eapply VM; [|exact HM]. split; [|reflexivity]. repeat constructor.
        + apply OTHER. intros n2 tag2 r2 H2 ->. apply NI. apply in_map_iff. eexists. split; [|exact H2]. reflexivity.
      - destruct (IH (S i) ND' Hn) as (j & HO). exists j. apply O_later; [|exact HO].
        apply E_none. intros s' Hs. apply tagged_solution in Hs as (_ & HG). apply TAG in HG. subst.
        apply NI. apply in_map_iff. eexists. split; [|exact Hn]. reflexivity. }
    destruct (ONE vs 0 ND Hn) as (j & HO). exists (TVariant tv ref j). split.
    + eapply M_sum; [apply (layout_for_1 _ _ E); now right| |exact HO].
      apply said_sol; [exact HS|]. intros q Hq. apply HQ, in_app_iff. left. now right.
    + cbn [into_untyped]. eapply sm_tagged; eassumption.
  - (* no entry *)
    intros. exists []. constructor.
  - (* own identifier *)
    intros n n' s fs k r pat i m Q ids nodes kids Hc E Es W IH OS HS HQ HN T3 ND HP LO.
    inversion ND as [|? ? NI ND']; subst.
    destruct IH as (m' & HF); try assumption.
    { intros k' v' c' Hm Hc'. eapply HP; [right; exact Hm|exact Hc']. }
    { intros q Hq HR. apply LO; [exact Hq|]. destruct HR as [(E1 & p & Ep & k' & c & Hk & H)|HR]; [left|now right].
      split; [exact E1|]. exists p. split; [exact Ep|]. exists k', c. split; [now right|exact H]. }
    exists ((k, TLit (TId i r)) :: m'). constructor; [|exact HF]. split; [reflexivity|]. exists (Own r). split; [exact Hc|].
    split; [|apply sm_eq]. exists [Some (theta s)]. split; [apply own_sol|]. apply own_means. rewrite Es. eapply M_id.
    + apply (layout_for_1 _ _ E). now right.
    + apply about_sol. intros ? ? [].
    + constructor. reflexivity.
    + reflexivity.
  - (* own component *)
    intros n n1 n' s fs k r v m Q1 ids1 nodes1 Q2 ids2 nodes2 kids Hc NL W1 IH1 W2 IH2 OS HS HQ HN T3 ND HP LO.
    cbn [map fst] in ND. inversion ND as [|? ? NI ND']; subst.
    destruct (proj1 (Wrote_bounds reg A) _ _ _ _ _ _ _ _ W1) as (L1 & HQ1 & _).
    destruct (proj1 (proj2 (Wrote_bounds reg A)) _ _ _ _ _ _ _ _ _ W2) as ((L2 & HQ2 & _) & _).
    assert (OS1 : outside n1 s) by (eapply outside_weak; eassumption).
    assert (OW2 := proj1 (proj2 (Wrote_owned reg A)) _ _ _ _ _ _ _ _ _ W2 OS1).
    assert (OW1 := proj1 (Wrote_owned reg A) _ _ _ _ _ _ _ _ W1 OS).
    destruct IH1 as (tv & HM & HSame).
    { exact OS. }
    { intros q Hq. apply HQ, in_app_iff. now left. }
    { intros x Hx. apply HN, in_app_iff. now left. }
    { intros q Hq HR. assert (HI : In q (Q1 ++ Q2)).
      { apply LO; [exact Hq|]. destruct HR as [(Es & p & Ep & Ho)|HR]; [left|right].
        - split; [exact Es|]. exists p. split; [exact Ep|]. exists k, (Own r). split; [now left|]. auto.
        - eapply in_range_weak; [exact HR|lia|lia]. }
      apply in_app_iff in HI as [HI|HI]; [exact HI|]. exfalso. destruct HR as [(Es & p & Ep & Ho)|HR].
      - destruct (OW2 q HI Es) as (p' & k' & c' & Ep' & Hk' & Hc' & Ho'). rewrite Ep in Ep'. injection Ep' as <-.
        apply NI. rewrite (T3 k (Own r) k' c' p Hc Hc' Ho Ho'). exact Hk'.
      - apply HQ2 in HI as [Es|HR']; [rewrite Es in HR; exact (OS _ HR)|]. eapply (in_range_disjoint n n1 n1 n'); [exact HR|exact HR'|lia]. }
    { apply (HP k v (Own r)); [now left|exact Hc]. }
    destruct IH2 as (m' & HF); try assumption.
    { intros q Hq. apply HQ, in_app_iff. now right. }
    { intros x Hx. apply HN, in_app_iff. now right. }
    { intros k' v' c' Hm Hc'. eapply HP; [right; exact Hm|exact Hc']. }
    { intros q Hq HR. assert (HI : In q (Q1 ++ Q2)).
      { apply LO; [exact Hq|]. destruct HR as [(Es & p & Ep & k' & c & Hk & H)|HR]; [left|right].
        - split; [exact Es|]. exists p. split; [exact Ep|]. exists k', c. split; [now right|exact H].
        - eapply in_range_weak; [exact HR|lia|lia]. }
      apply in_app_iff in HI as [HI|HI]; [|exact HI]. exfalso. destruct HR as [(Es & p & Ep & k' & c & Hk & Hc' & Ho')|HR].
      - destruct (OW1 q HI Es) as (p' & Ep' & Ho). rewrite Ep in Ep'. injection Ep' as <-.
        apply NI. rewrite (T3 k (Own r) k' c p Hc Hc' Ho Ho'). exact Hk.
      - apply HQ1 in HI as [Es|HR']; [rewrite Es in HR; exact (OS1 _ HR)|]. eapply (in_range_disjoint n n1 n1 n'); [exact HR'|exact HR|lia]. }
    exists ((k, tv) :: m'). constructor; [|exact HF]. split; [reflexivity|]. exists (Own r). split; [exact Hc|].
    split; [|exact HSame]. exists [Some (theta s)]. split; [apply own_sol|]. apply own_means. exact HM.
  - (* link *)
    intros n n1 n' s fs k p b r v m Q1 ids1 nodes1 Q2 ids2 nodes2 kids Hc W1 IH1 W2 IH2 OS HS HQ HN T3 ND HP LO.
    cbn [map fst] in ND. inversion ND as [|? ? NI ND']; subst.
    destruct (proj1 (Wrote_bounds reg A) _ _ _ _ _ _ _ _ W1) as (L1 & HQ1 & _).
    destruct (proj1 (proj2 (Wrote_bounds reg A)) _ _ _ _ _ _ _ _ _ W2) as ((L2 & HQ2 & _) & _).
    assert (OS1 : outside n1 s) by (eapply outside_weak; [exact OS|lia]).
    assert (OW2 := proj1 (proj2 (Wrote_owned reg A)) _ _ _ _ _ _ _ _ _ W2 OS1).
    destruct IH1 as (tv & HM & HSame).
    { apply outside_anon. lia. }
    { intros q Hq. apply HQ. right. apply in_app_iff. now left. }
    { intros x Hx. apply HN, in_app_iff. now left. }
    { intros q Hq HR. assert (HR1 : in_range n n1 (q_s q)).
      { destruct HR as [(Es & _)|HR]; [rewrite Es; apply in_range_here; lia|eapply in_range_weak; [exact HR|lia|lia]]. }
      destruct (LO q Hq) as [<-|HI].
      - right. eapply in_range_weak; [exact HR1|lia|lia].
      - exfalso. exact (OS _ HR1).
      - apply in_app_iff in HI as [HI|HI]; [exact HI|]. exfalso.
        apply HQ2 in HI as [Es|HR']; [rewrite Es in HR1; exact (OS _ HR1)|]. eapply (in_range_disjoint n n1 n1 n'); [exact HR1|exact HR'|lia]. }
    { apply (HP k v (Link p b r)); [now left|exact Hc]. }
    destruct IH2 as (m' & HF); try assumption.
    { intros q Hq. apply HQ. right. apply in_app_iff. now right. }
    { intros x Hx. apply HN, in_app_iff. now right. }
    { intros k' v' c' Hm Hc'. eapply HP; [right; exact Hm|exact Hc']. }
    { intros q Hq HR. destruct (LO q Hq) as [<-|HI].
      - destruct HR as [(Es & p' & Ep & k' & c & Hk & H)|HR]; [left|right].
        + split; [exact Es|]. exists p'. split; [exact Ep|]. exists k', c. split; [now right|exact H].
        + eapply in_range_weak; [exact HR|lia|lia].
      - exfalso. destruct HR as [(_ & p' & [= <-] & k' & c & Hk & Hc' & Ho')|HR]; [|exact (OS1 _ HR)].
        apply NI. rewrite (T3 k (Link p b r) k' c p Hc Hc' eq_refl Ho'). exact Hk.
      - apply in_app_iff in HI as [HI|HI]; [|exact HI]. exfalso. apply HQ1 in HI.
        destruct HR as [(Es & _)|HR]; [eapply (link_other s n n1); [exact OS|exact Es|exact HI]|].
        destruct HI as [Es|HR']; [rewrite Es in HR; destruct HR as (i & [= <-] & HR); lia|].
        eapply (in_range_disjoint (S n) n1 n1 n'); [exact HR'|exact HR|lia]. }
    exists ((k, tv) :: m'). constructor; [|exact HF]. split; [reflexivity|]. exists (Link p b r). split; [exact Hc|].
    split; [|exact HSame]. exists [Some (theta s); Some (theta (RAnon n))]. split.
    + cbn [field_of f_item]. apply linked_sol; [exact HS|]. intro o. split; [|intros ->; apply HQ; now left].
      intro Ho. destruct (LO _ Ho) as [[= <-]|HI]; [|reflexivity|].
      * left. split; [reflexivity|]. exists p. split; [reflexivity|]. exists k, (Link p b r). split; [now left|]. split; [exact Hc|reflexivity].
      * exfalso. apply in_app_iff in HI as [HI|HI].
        -- apply HQ1 in HI. eapply link_other; [exact OS| |exact HI]. reflexivity.
        -- destruct (OW2 _ HI eq_refl) as (p' & k' & c' & [= <-] & Hk' & Hc' & Ho').
           apply NI. rewrite (T3 k (Link p b r) k' c' p Hc Hc' eq_refl Ho'). exact Hk'.
    + cbn [field_of f_item]. apply linked_means. exact HM.
  - (* no item *)
    intros. exists []. constructor.
  - (* item *)
    intros n n1 n' s p r its v l Q1 ids1 nodes1 Q2 ids2 nodes2 cs W1 IH1 W2 IH2 OS HQ HN LO HP.
    destruct (proj1 (Wrote_bounds reg A) _ _ _ _ _ _ _ _ W1) as (L1 & HQ1 & _).
    destruct (proj1 (proj2 (proj2 (Wrote_bounds reg A))) _ _ _ _ _ _ _ _ _ W2) as ((L2 & HQ2 & _) & _).
    assert (OS1 : outside n1 s) by (eapply outside_weak; [exact OS|lia]).
    destruct IH1 as (tv & HM & HSame).
    { apply outside_anon. lia. }
    { intros q Hq. apply HQ. right. apply in_app_iff. now left. }
    { intros x Hx. apply HN, in_app_iff. now left. }
    { intros q Hq HR. assert (HR1 : in_range n n1 (q_s q)).
      { destruct HR as [(Es & _)|HR]; [rewrite Es; apply in_range_here; lia|eapply in_range_weak; [exact HR|lia|lia]]. }
      destruct (LO q Hq) as [<-|HI].
      - right. eapply in_range_weak; [exact HR1|lia|lia].
      - exfalso. exact (OS _ HR1).
      - apply in_app_iff in HI as [HI|HI]; [exact HI|]. exfalso.
        apply HQ2 in HI as [Es|HR']; [rewrite Es in HR1; exact (OS _ HR1)|]. eapply (in_range_disjoint n n1 n1 n'); [exact HR1|exact HR'|lia]. }
    { apply (HP 0); reflexivity. }
    destruct IH2 as (tvs & HK); try assumption.
    { intros q Hq. apply HQ. right. apply in_app_iff. now right. }
    { intros x Hx. apply HN, in_app_iff. now right. }
    { intros q Hq [(_ & _ & _ & [])|HR]. destruct (LO q Hq) as [<-|HI].
      - right. eapply in_range_weak; [exact HR|lia|lia].
      - exfalso. exact (OS1 _ HR).
      - apply in_app_iff in HI as [HI|HI]; [|exact HI]. exfalso. apply HQ1 in HI.
        destruct HI as [Es|HR']; [rewrite Es in HR; destruct HR as (i & [= <-] & HR); lia|].
        eapply (in_range_disjoint (S n) n1 n1 n'); [exact HR'|exact HR|lia]. }
    { intros i. apply (HP (S i)). }
    exists (tv :: tvs). constructor; assumption.
  - (* last cell *)
    intros n n' first rest nil r head v Q ids nodes W1 IH1 OS HQ HN FR NT LO HP a.
    destruct (proj1 (Wrote_bounds reg A) _ _ _ _ _ _ _ _ W1) as (L1 & HQ1 & _).
    assert (HS : In head N) by (apply HN; now left).
    destruct IH1 as (tv & HM & HSame).
    { apply outside_anon. lia. }
    { intros q Hq. apply HQ. right. now right. }
    { intros x Hx. apply HN. now right. }
    { intros q Hq HR. assert (HR1 : in_range n n' (q_s q)).
      { destruct HR as [(Es & _)|HR]; [rewrite Es; apply in_range_here; lia|eapply in_range_weak; [exact HR|lia|lia]]. }
      destruct (LO q Hq) as [<-|[<-|HI]]; [now right| | |exact HI]; exfalso; exact (OS _ HR1). }
    { apply HP. now left. }
    assert (C1 : forall o, In (triple head first o) O <-> o = RAnon n).
    { intro o. split; [|intros ->; apply HQ; now left]. intro Ho.
      destruct (LO _ Ho) as [[= <-]|[[= F]|HI]]; [left; split; [reflexivity|]; exists first; auto|reflexivity|congruence|].
      exfalso. apply HQ1 in HI. eapply link_other; [exact OS| |exact HI]; reflexivity. }
    assert (C2 : forall o, In (triple head rest o) O <-> o = RTerm nil).
    { intro o. split; [|intros ->; apply HQ; right; now left]. intro Ho.
      destruct (LO _ Ho) as [[= F]|[[= <-]|HI]]; [left; split; [reflexivity|]; exists rest; auto|congruence|reflexivity|].
      exfalso. apply HQ1 in HI. eapply link_other; [exact OS| |exact HI]; reflexivity. }
    exists [tv]. split; [|repeat constructor; exact HSame].
    eapply (N_cons _ _ _ _ _ _ _ _ [Some a; Some (theta head); Some nil; Some (theta (RAnon n))]).
    + apply NT. exact HS.
    + split.
      * apply cell_solution. exists nil, (theta (RAnon n)). split; [reflexivity|].
        split; (apply G_In; [exact HS|]); eexists; (split; [first [now apply C1|now apply C2]|]); [reflexivity|apply theta_term].
      * intros s'' Hs. apply cell_solution in Hs as (nx & b & -> & HG1 & HG2).
        apply G_In in HG1 as (o1 & Ho1 & <-); [|exact HS]. apply G_In in HG2 as (o2 & Ho2 & <-); [|exact HS].
        apply C1 in Ho1 as ->. apply C2 in Ho2 as ->. now rewrite theta_term.
    + eapply VM; [|exact HM]. split; [|reflexivity]. repeat constructor.
    + reflexivity.
    + constructor.
  - (* cell *)
    intros n n1 n' first rest nil r head v l Q1 ids1 nodes1 Q2 ids2 nodes2 NE W1 IH1 W2 IH2 OS HQ HN FR NT LO HP a.
    destruct (proj1 (Wrote_bounds reg A) _ _ _ _ _ _ _ _ W1) as (L1 & HQ1 & _).
    destruct (proj2 (proj2 (proj2 (Wrote_bounds reg A))) _ _ _ _ _ _ _ _ _ _ _ W2) as (L2 & HQ2 & _).
    assert (HS : In head N) by (apply HN; now left).
    assert (OS1 : outside (S n) head) by (eapply outside_weak; [exact OS|lia]).
    assert (NQ2 : forall q, In q Q2 -> q_s q <> head).
    { intros q Hq Es. apply HQ2 in Hq. eapply (link_other head n n'); [exact OS|exact Es|]. destruct Hq as [Hq|Hq]; [now left|right].
      eapply in_range_weak; [exact Hq|lia|lia]. }
    destruct IH1 as (tv & HM & HSame).
    { apply outside_anon. lia. }
    { intros q Hq. apply HQ. right. right. apply in_app_iff. now left. }
    { intros x Hx. apply HN. right. apply in_app_iff. now left. }
    { intros q Hq HR. assert (HR1 : in_range (S n) n1 (q_s q)).
      { destruct HR as [(Es & _)|HR]; [rewrite Es; apply in_range_here; lia|eapply in_range_weak; [exact HR|lia|lia]]. }
      destruct (LO q Hq) as [<-|[<-|HI]].
      - right. eapply in_range_weak; [exact HR1|lia|lia].
      - exfalso. exact (OS1 _ HR1).
      - exfalso. exact (OS1 _ HR1).
      - apply in_app_iff in HI as [HI|HI]; [exact HI|]. exfalso. apply HQ2 in HI as [Es|HR'].
        + rewrite Es in HR1. destruct HR1 as (i & [= <-] & HR1). lia.
        + eapply (in_range_disjoint (S n) n1 n1 n'); [exact HR1|exact HR'|lia]. }
    { apply HP. now left. }
    destruct IH2 with (a := a) as (tvs & HK & HSames); try assumption.
    { apply outside_anon. lia. }
    { intros q Hq. apply HQ. right. right. apply in_app_iff. now right. }
    { intros x Hx. apply HN. right. apply in_app_iff. now right. }
    { intros q Hq HR.
      assert (HR1 : q_s q = RAnon n \/ in_range n1 n' (q_s q)) by (destruct HR as [(Es & _)|HR]; auto).
      assert (HR2 : in_range n n' (q_s q)).
      { destruct HR1 as [Es|HR1]; [rewrite Es; apply in_range_here; lia|eapply in_range_weak; [exact HR1|lia|lia]]. }
      destruct (LO q Hq) as [<-|[<-|HI]].
      - now right.
      - exfalso. exact (OS _ HR2).
      - exfalso. exact (OS _ HR2).
      - apply in_app_iff in HI as [HI|HI]; [|exact HI]. exfalso. apply HQ1 in HI.
        assert (HI' : in_range (S n) n1 (q_s q)).
        { destruct HI as [Es|HI]; [rewrite Es; apply in_range_here; lia|eapply in_range_weak; [exact HI|lia|lia]]. }
        destruct HR1 as [Es|HR1].
        + rewrite Es in HI'. destruct HI' as (i & [= <-] & HI'). lia.
        + eapply (in_range_disjoint (S n) n1 n1 n'); [exact HI'|exact HR1|lia]. }
    { intros; apply HP; now right. }
    assert (C1 : forall o, In (triple head first o) O <-> o = RAnon (S n)).
    { intro o. split; [|intros ->; apply HQ; now left]. intro Ho.
      destruct (LO _ Ho) as [[= <-]|[[= F]|HI]]; [left; split; [reflexivity|]; exists first; auto|reflexivity|congruence|].
      exfalso. apply in_app_iff in HI as [HI|HI].
      - apply HQ1 in HI. eapply (link_other head (S n)); [exact OS1| |exact HI]; reflexivity.
      - exact (NQ2 _ HI eq_refl). }
    assert (C2 : forall o, In (triple head rest o) O <-> o = RAnon n).
    { intro o. split; [|intros ->; apply HQ; right; now left]. intro Ho.
      destruct (LO _ Ho) as [[= F]|[[= <-]|HI]]; [left; split; [reflexivity|]; exists rest; auto|congruence|reflexivity|].
      exfalso. apply in_app_iff in HI as [HI|HI].
      - apply HQ1 in HI. eapply (link_other head (S n)); [exact OS1| |exact HI]; reflexivity.
      - exact (NQ2 _ HI eq_refl). }
    exists (tv :: tvs). split; [|simpl; constructor; assumption].
    eapply (N_cons _ _ _ _ _ _ _ _ [Some a; Some (theta head); Some (theta (RAnon n)); Some (theta (RAnon (S n)))]).
    + apply NT. exact HS.
    + split.
      * apply cell_solution. exists (theta (RAnon n)), (theta (RAnon (S n))). split; [reflexivity|].
        split; (apply G_In; [exact HS|]); eexists; (split; [first [now apply C1|now apply C2]|]); reflexivity.
      * intros s'' Hs. apply cell_solution in Hs as (nx & b & -> & HG1 & HG2).
        apply G_In in HG1 as (o1 & Ho1 & <-); [|exact HS]. apply G_In in HG2 as (o2 & Ho2 & <-); [|exact HS].
        apply C1 in Ho1 as ->. apply C2 in Ho2 as ->. reflexivity.
    + eapply VM; [|exact HM]. split; [|reflexivity]. repeat constructor.
    + reflexivity.
    + exact HK.
Qed.
End Read.
