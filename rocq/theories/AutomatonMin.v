(** * Minimization (Hopcroft): lemmas *)

From Coq Require Import String List Bool Arith NArith Lia Sorted Relations.
Import ListNotations.
From Verif Require Import Base BaseProofs Orders CharModel AutomatonModel AutomatonSpec AutomatonProofs AutomatonDet
  AutomatonTerm AutomatonProduct AutomatonMap.
Open Scope list_scope.

(** ** Sets as sorted lists *)
Section Sets.
Context {A : Type} {CA : Cmp A} {LA : CmpLaws A}.

Lemma sorted_NoDup (l : list A) : StronglySorted lt l -> NoDup l.
Proof.
  induction 1 as [|x l _ IH F]; [constructor|]. constructor; [|exact IH]. intro HI. rewrite Forall_forall in F.
  eapply lt_irrefl. exact (F x HI).
Qed.

Lemma set_remove_In (x y : A) l : In y (set_remove x l) <-> In y l /\ y <> x.
Proof.
  unfold set_remove. rewrite filter_In. split; intros [H1 H2]; (split; [exact H1|]).
  - intros ->. rewrite eqb_refl in H2. discriminate.
  - destruct (eqb_spec x y) as [->|N]; [contradiction|reflexivity].
Qed.

Lemma filter_sorted (p : A -> bool) l : StronglySorted lt l -> StronglySorted lt (filter p l).
Proof.
  induction 1 as [|x l _ IH F]; [constructor|]. cbn [filter]. destruct (p x); [|exact IH]. constructor; [exact IH|].
  rewrite Forall_forall in *. intros y Hy. apply filter_In in Hy as [Hy _]. auto.
Qed.

Lemma set_insert_length (x : A) l : length (set_insert x l) <= Datatypes.S (length l).
Proof.
  induction l as [|y l IH]; [apply Nat.le_refl|]. cbn [set_insert]. destruct (cmp x y); cbn [length]; lia.
Qed.

Lemma set_insert_fresh (x : A) l : ~ In x l -> length (set_insert x l) = Datatypes.S (length l).
Proof.
  induction l as [|y l IH]; intro N; [reflexivity|]. cbn [set_insert]. destruct (cmp x y) eqn:E; cbn [length].
  - apply cmp_eq in E. subst y. exfalso. apply N. now left.
  - reflexivity.
  - rewrite IH; [reflexivity|]. intro H. apply N. now right.
Qed.

Lemma set_remove_length (x : A) l : NoDup l -> In x l -> Datatypes.S (length (set_remove x l)) = length l.
Proof.
  induction 1 as [|y l N _ IH]; intro H; [destruct H|]. unfold set_remove in *. cbn [filter length].
  destruct H as [->|H].
  - rewrite eqb_refl. cbn [negb]. f_equal. clear IH.
    induction l as [|z l IH]; [reflexivity|]. cbn [filter]. destruct (eqb_spec x z) as [->|Nz]; [exfalso; apply N; now left|].
    cbn [negb length]. f_equal. apply IH. intro K. apply N. now right.
  - destruct (eqb_spec x y) as [->|Ny]; [contradiction|]. cbn [negb length]. f_equal. auto.
Qed.
End Sets.

Section Min.
Context {Q L : Type} {CQ : Cmp Q} {CL : Cmp L} {LQ : CmpLaws Q} {LL : CmpLaws L}.
Variable d : dfa Q L.
Hypothesis Wd : dfa_wf d.

Lemma edge_fun q l r r' : d_edge d q l r -> d_edge d q l r' -> r = r'.
Proof.
  intros (ts & H1 & H2) (ts' & H3 & H4). destruct Wd as [W1 W2].
  assert (ts' = ts) as -> by (pose proof (bt_get_wf _ _ _ W1 H1) as E; rewrite (bt_get_wf _ _ _ W1 H3) in E; congruence).
  pose proof (bt_get_wf _ _ _ (W2 _ _ H1) H2) as E. rewrite (bt_get_wf _ _ _ (W2 _ _ H1) H4) in E. congruence.
Qed.

(** The transition of [q] labelled by [l] goes to the set [s]. *)
Definition goes (l : L) (s : list Q) (q : Q) : Prop := exists r, d_edge d q l r /\ In r s.

Definition same (p : list (list Q)) (x y : Q) : Prop := exists b, In b p /\ In x b /\ In y b.

(** [p] is a partition of [u]. *)
Record part (u : Q -> Prop) (p : list (list Q)) : Prop := {
  pt_sorted : StronglySorted lt p;
  pt_blocks : forall b, In b p -> StronglySorted lt b;
  pt_ne : forall b, In b p -> b <> [];
  pt_disj : forall b b' x, In b p -> In b' p -> In x b -> In x b' -> b = b';
  pt_cover : forall x, u x <-> exists b, In b p /\ In x b
}.

(** *** [sources_by_label] *)
Lemma sources_inner a (q : Q) ts : forall m, bt_wf m ->
  let m' := fold_left (fun m (t : L * Q) =>
    if mem (snd t) a then bt_insert (fst t) (set_insert q (entry (fst t) [] m)) m else m) ts m in
  bt_wf m' /\ forall l x, (exists src, In (l, src) m' /\ In x src) <->
    (exists src, In (l, src) m /\ In x src) \/ (x = q /\ exists t, In (l, t) ts /\ In t a).
Proof.
  induction ts as [|[l0 t0] ts IH]; intros m W m'; cbn [fold_left] in m'.
  - split; [exact W|]. intros l x. split; [auto|]. intros [H|(_ & t & [] & _)]. exact H.
  - subst m'. cbn [fst snd]. destruct (mem t0 a) eqn:Em.
    + assert (W1 : bt_wf (bt_insert l0 (set_insert q (entry l0 [] m)) m)) by now apply bt_insert_wf.
      destruct (IH _ W1) as [W2 H]. split; [exact W2|]. intros l x. rewrite H. clear H.
      assert (K : (exists src, In (l, src) (bt_insert l0 (set_insert q (entry l0 [] m)) m) /\ In x src) <->
        (exists src, In (l, src) m /\ In x src) \/ (l = l0 /\ x = q)).
      { split.
        - intros (src & H1 & H2). apply (proj1 (bt_insert_In _ _ _ _ _ W)) in H1 as [[-> ->]|[_ H1]]; [|eauto].
          apply set_insert_In in H2 as [->|H2]; [auto|]. left. now apply entry_None in H2.
        - intros [(src & H1 & H2)|[-> ->]].
          + destruct (eqb_spec l l0) as [->|N].
            * eexists. split; [apply bt_insert_In; [exact W|left; split; reflexivity]|]. apply set_insert_In. right.
              apply entry_None; [exact W|eauto].
            * exists src. split; [|exact H2]. apply bt_insert_In; [exact W|auto].
          + eexists. split; [apply bt_insert_In; [exact W|left; split; reflexivity]|]. apply set_insert_In. now left. }
      rewrite K. apply mem_In in Em. split.
      * intros [[H|[-> ->]]|(-> & t & H1 & H2)]; [auto| |].
        -- right. split; [reflexivity|]. exists t0. split; [now left|exact Em].
        -- right. split; [reflexivity|]. exists t. split; [now right|exact H2].
      * intros [H|(-> & t & [[= -> ->]|H1] & H2)]; [auto|auto|]. right. split; [reflexivity|]. eauto.
    + destruct (IH _ W) as [W2 H]. split; [exact W2|]. intros l x. rewrite H. split.
      * intros [H0|(-> & t & H1 & H2)]; [auto|]. right. split; [reflexivity|]. exists t. split; [now right|exact H2].
      * intros [H0|(-> & t & [[= -> ->]|H1] & H2)]; [auto| |].
        -- apply mem_In in H2. congruence.
        -- right. split; [reflexivity|]. eauto.
Qed.

Lemma sources_spec a : bt_wf (sources_by_label d a) /\
  forall l x, (exists src, In (l, src) (sources_by_label d a) /\ In x src) <-> goes l a x.
Proof.
  unfold sources_by_label, goes, d_edge.
  assert (K : forall tr m, bt_wf m ->
    let m' := fold_left (fun m (st : Q * list (L * Q)) => fold_left (fun m (t : L * Q) =>
      if mem (snd t) a then bt_insert (fst t) (set_insert (fst st) (entry (fst t) [] m)) m else m) (snd st) m) tr m in
    bt_wf m' /\ forall l x, (exists src, In (l, src) m' /\ In x src) <->
      (exists src, In (l, src) m /\ In x src) \/ exists r, (exists ts, In (x, ts) tr /\ In (l, r) ts) /\ In r a).
  { induction tr as [|[q ts] tr IH]; intros m W m'; cbn [fold_left] in m'.
    - split; [exact W|]. intros l x. split; [auto|]. intros [H|(r & (ts & [] & _) & _)]. exact H.
    - subst m'. cbn [fst snd]. destruct (sources_inner a q ts m W) as [W1 H1]. destruct (IH _ W1) as [W2 H2].
      split; [exact W2|]. intros l x. rewrite H2, H1. split.
      + intros [[H|(-> & t & Ht & Ha)]|(r & (ts' & Hr & Hl) & Ha)]; [auto| |].
        * right. exists t. split; [|exact Ha]. exists ts. split; [now left|exact Ht].
        * right. exists r. split; [|exact Ha]. exists ts'. split; [now right|exact Hl].
      + intros [H|(r & (ts' & [[= <- <-]|Hr] & Hl) & Ha)]; [auto| |].
        * left. right. split; [reflexivity|eauto].
        * right. eauto. }
  destruct (K (d_transitions d) [] (SSorted_nil _)) as [K1 K2]. split; [exact K1|]. intros l x. rewrite K2. split.
  - intros [(src & [] & _)|H]. exact H.
  - auto.
Qed.

(** *** Splitting *)
Section Invariant.
(** The universe *)
Variable u : Q -> Prop.
(** An equivalence that must not be split (for minimality). *)
Variable R : Q -> Q -> Prop.

Definition closed (s : list Q) : Prop := forall x y, In x s -> R x y -> In y s.

(** Two states of a block that agree on all the sets of the working list agree on all the blocks. *)
Definition agree (p w : list (list Q)) : Prop := forall x y l, same p x y ->
  (forall s, In s w -> (goes l s x <-> goes l s y)) -> forall b, In b p -> (goes l b x <-> goes l b y).

Record inv (a : list Q) (p w : list (list Q)) : Prop := {
  in_part : part u p;
  in_agree : agree p (a :: w);
  in_wsorted : StronglySorted lt w;
  in_closed : (forall b, In b p -> closed b) /\ (forall s, In s w -> closed s)
}.

Lemma in_inter (q : Q) y src : In q (set_inter y src) <-> In q y /\ In q src.
Proof. unfold set_inter. rewrite filter_In, mem_In. reflexivity. Qed.
Lemma in_diff (q : Q) y src : In q (set_diff y src) <-> In q y /\ ~ In q src.
Proof.
  unfold set_diff. rewrite filter_In, negb_true_iff. split; intros [H1 H2]; (split; [exact H1|]).
  - intro K. apply mem_In in K. congruence.
  - destruct (mem q src) eqn:E; [|reflexivity]. apply mem_In in E. contradiction.
Qed.

(** The list of sets to process after the split of [y] in [i] and [di]. *)
Definition split_working (w : list (list Q)) (y i di : list Q) : list (list Q) :=
  if mem y w then set_insert di (set_insert i (set_remove y w))
  else if Nat.leb (length i) (length di) then set_insert i w else set_insert di w.

Lemma split_cases (src : list Q) p w y :
  ((set_inter y src = [] \/ set_diff y src = []) /\ split_block src (p, w) y = (p, w)) \/
  (set_inter y src <> [] /\ set_diff y src <> [] /\ split_block src (p, w) y =
    (set_insert (set_diff y src) (set_insert (set_inter y src) (set_remove y p)),
     split_working w y (set_inter y src) (set_diff y src))).
Proof.
  unfold split_block, split_working. destruct (set_inter y src); [left; auto|]. destruct (set_diff y src); [left; auto|].
  right. split; [discriminate|]. split; [discriminate|]. reflexivity.
Qed.

(** One block. *)
Lemma split_spec a src p w y p' w' : inv a p w -> In y p -> (forall x x', R x x' -> In x src -> In x' src) ->
  (forall x x', R x x' -> R x' x) ->
  split_block src (p, w) y = (p', w') ->
  inv a p' w' /\
  (forall b, In b p -> b <> y -> In b p') /\
  (forall b, In b p' -> (In b p /\ b <> y) \/ forall x x', In x b -> In x' b -> (In x src <-> In x' src)) /\
  (forall x x', same p' x x' -> same p x x') /\
  length w' + length p <= length w + length p'.
Proof.
  intros [P A SW [C1 C2]] Hy CS SYM H. destruct (split_cases src p w y) as [[E0 E]|(Ni & Nd & E)]; rewrite E in H; injection H as <- <-; clear E.
  - split; [constructor; auto|]. split; [auto|]. split; [|split; [auto|lia]].
    intros b Hb. destruct (eqb_spec b y) as [->|N]; [right|auto]. intros x x' Hx Hx'. destruct E0 as [E0|E0].
    + split; intro K; exfalso; [apply (in_nil (a := x))|apply (in_nil (a := x'))]; rewrite <- E0; apply (proj2 (in_inter _ _ _)); auto.
    + assert (K : forall z, In z y -> In z src).
      { intros z Hz. destruct (mem z src) eqn:Em; [now apply mem_In|]. exfalso. apply (in_nil (a := z)). rewrite <- E0. apply (proj2 (in_diff _ _ _)).
        split; [exact Hz|]. intro K. apply mem_In in K. congruence. }
      split; auto.
  - set (i := set_inter y src) in *. set (di := set_diff y src) in *.
    assert (Hi : forall q, In q i <-> In q y /\ In q src) by (intro; apply in_inter).
    assert (Hd : forall q, In q di <-> In q y /\ ~ In q src) by (intro; apply in_diff).
    assert (Hsplit : forall q, In q y -> In q i \/ In q di).
    { intros q Hq. rewrite Hi, Hd. destruct (mem q src) eqn:E; [left; split; [exact Hq|now apply mem_In]|right]. split; [exact Hq|].
      intro K. apply mem_In in K. congruence. }
    assert (Si : StronglySorted lt i) by (apply filter_sorted; now apply (pt_blocks _ _ P)).
    assert (Sd : StronglySorted lt di) by (apply filter_sorted; now apply (pt_blocks _ _ P)).
    clearbody i di. destruct P as [P1 P2 P3 P4 P5].
    assert (HP' : forall b, In b (set_insert di (set_insert i (set_remove y p))) <-> b = di \/ b = i \/ (In b p /\ b <> y)).
    { intro b. rewrite !set_insert_In, set_remove_In. reflexivity. }
    assert (Hxi : exists x, In x i) by (destruct i as [|x ?]; [contradiction|exists x; now left]).
    assert (Hxd : exists x, In x di) by (destruct di as [|x ?]; [contradiction|exists x; now left]).
    assert (NI : ~ In i (set_remove y p)).
    { rewrite set_remove_In. intros [K1 K2]. destruct Hxi as (x & Hx). apply K2. apply (P4 _ _ x K1 Hy Hx). apply Hi. exact Hx. }
    assert (NDi : ~ In di (set_insert i (set_remove y p))).
    { rewrite set_insert_In, set_remove_In. intros [K|[K1 K2]]; destruct Hxd as (x & Hx).
      - assert (Hx' := Hx). rewrite K in Hx'. apply Hi in Hx' as [_ K1]. apply Hd in Hx as [_ K2]. contradiction.
      - apply K2. apply (P4 _ _ x K1 Hy Hx). apply Hd. exact Hx. }
    assert (LP : length (set_insert di (set_insert i (set_remove y p))) = Datatypes.S (length p)).
    { rewrite (set_insert_fresh di _ NDi), (set_insert_fresh i _ NI). f_equal.
      apply set_remove_length; [now apply sorted_NoDup|exact Hy]. }
    assert (LW : length (split_working w y i di) <= Datatypes.S (length w)).
    { unfold split_working. destruct (mem y w) eqn:Em.
      - apply mem_In in Em. assert (K := set_remove_length y w (sorted_NoDup _ SW) Em).
        assert (K1 := set_insert_length di (set_insert i (set_remove y w))). assert (K2 := set_insert_length i (set_remove y w)). lia.
      - destruct (Nat.leb _ _); apply set_insert_length. }
    assert (HW1 : forall s, In s w -> s <> y -> In s (split_working w y i di)).
    { intros s Hs N. unfold split_working. destruct (mem y w).
      - rewrite !set_insert_In, set_remove_In. auto.
      - destruct (Nat.leb _ _); rewrite set_insert_In; auto. }
    assert (HW2 : In y w -> In i (split_working w y i di) /\ In di (split_working w y i di)).
    { intro K. unfold split_working. apply mem_In in K. rewrite K, !set_insert_In. auto. }
    assert (HW3 : In i (split_working w y i di) \/ In di (split_working w y i di)).
    { unfold split_working. destruct (mem y w); [left; rewrite !set_insert_In; auto|]. destruct (Nat.leb _ _); rewrite !set_insert_In; auto. }
    assert (HW4 : forall s, In s (split_working w y i di) -> In s w \/ s = i \/ s = di).
    { intros s. unfold split_working. destruct (mem y w); [rewrite !set_insert_In, set_remove_In; tauto|].
      destruct (Nat.leb _ _); rewrite !set_insert_In; tauto. }
    assert (SAME : forall x x', same (set_insert di (set_insert i (set_remove y p))) x x' -> same p x x').
    { intros x x' (b & Hb & Hx & Hx'). apply HP' in Hb as [->|[->|[Hb _]]].
      - exists y. apply Hd in Hx as [Hx _], Hx' as [Hx' _]. auto.
      - exists y. apply Hi in Hx as [Hx _], Hx' as [Hx' _]. auto.
      - exists b. auto. }
    assert (Ci : closed i).
    { intros x x' Hx HR. apply Hi in Hx as [Hx1 Hx2]. apply Hi. split; [eapply C1; eassumption|eauto]. }
    assert (Cd : closed di).
    { intros x x' Hx HR. apply Hd in Hx as [Hx1 Hx2]. apply Hd. split; [eapply C1; eassumption|]. intro K. apply Hx2. eauto. }
    split; [constructor|split; [|split; [|split; [exact SAME|lia]]]].
    + constructor.
      * apply set_insert_sorted, set_insert_sorted. now apply filter_sorted.
      * intros b Hb. apply HP' in Hb as [->|[->|[Hb _]]]; auto.
      * intros b Hb. apply HP' in Hb as [->|[->|[Hb _]]]; auto.
      * intros b b' x Hb Hb' Hx Hx'. apply HP' in Hb as [->|[->|[Hb Nb]]], Hb' as [->|[->|[Hb' Nb']]]; try reflexivity.
        -- apply Hd in Hx as [_ Hx]. apply Hi in Hx' as [_ Hx']. contradiction.
        -- apply Hd in Hx as [Hx _]. exfalso. apply Nb'. eapply P4; eassumption.
        -- apply Hd in Hx' as [_ Hx']. apply Hi in Hx as [_ Hx]. contradiction.
        -- apply Hi in Hx as [Hx _]. exfalso. apply Nb'. eapply P4; eassumption.
        -- apply Hd in Hx' as [Hx' _]. exfalso. apply Nb. eapply P4; eassumption.
        -- apply Hi in Hx' as [Hx' _]. exfalso. apply Nb. eapply P4; eassumption.
        -- eapply P4; eassumption.
      * intro x. rewrite P5. split.
        -- intros (b & Hb & Hx). destruct (eqb_spec b y) as [->|N].
           ++ destruct (Hsplit _ Hx); [exists i|exists di]; (split; [apply HP'|]; auto).
           ++ exists b. split; [apply HP'; auto|exact Hx].
        -- intros (b & Hb & Hx). apply HP' in Hb as [->|[->|[Hb _]]].
           ++ exists y. apply Hd in Hx as [Hx _]. auto.
           ++ exists y. apply Hi in Hx as [Hx _]. auto.
           ++ eauto.
    + intros x x' l HS HA.
      assert (OLD : forall b, In b p -> (goes l b x <-> goes l b x')).
      { apply A; [now apply SAME|]. intros s [<-|Hs]; [apply HA; now left|].
        destruct (eqb_spec s y) as [->|N]; [|apply HA; right; auto].
        destruct (HW2 Hs) as [K1 K2]. assert (G1 := HA i (or_intror K1)). assert (G2 := HA di (or_intror K2)).
        assert (U : forall z, goes l y z <-> goes l i z \/ goes l di z).
        { intro z. split.
          - intros (r & He & Hr). destruct (Hsplit _ Hr); [left|right]; exists r; auto.
          - intros [(r & He & Hr)|(r & He & Hr)]; exists r; (split; [exact He|]); [apply Hi in Hr|apply Hd in Hr]; apply Hr. }
        rewrite !U. tauto. }
      assert (OTHER : forall s s' z z', (forall q, In q y -> In q s \/ In q s') -> (forall q, In q s' -> In q y) ->
        (forall q, In q s -> In q s' -> False) ->
        (goes l s z <-> goes l s z') -> (goes l y z -> goes l y z') -> goes l s' z -> goes l s' z').
      { intros s s' z z' K1 K2 K3 K4 K5 (r & He & Hr). destruct K5 as (r' & He' & Hr'); [exists r; auto|].
        destruct (K1 _ Hr') as [K|K]; [|exists r'; auto]. exfalso.
        destruct (proj2 K4) as (r2 & He2 & Hr2); [exists r'; auto|]. assert (r2 = r) as -> by (eapply edge_fun; eassumption). eauto. }
      assert (BOTH : (goes l i x <-> goes l i x') /\ (goes l di x <-> goes l di x')).
      { assert (Oy := OLD y Hy).
        assert (D : forall q, In q i -> In q di -> False) by (intros q K1 K2; apply Hi in K1 as [_ K1]; apply Hd in K2 as [_ K2]; contradiction).
        destruct HW3 as [K|K].
        - assert (G := HA i (or_intror K)). split; [exact G|]. split; intro KK.
          + apply (OTHER i di x x'); auto; [intros q K1; apply Hd in K1; apply K1|apply Oy].
          + apply (OTHER i di x' x); auto; [intros q K1; apply Hd in K1; apply K1|tauto|apply Oy].
        - assert (G := HA di (or_intror K)). split; [|exact G]. split; intro KK.
          + apply (OTHER di i x x'); auto; [intros q K1; destruct (Hsplit q K1); auto|intros q K1; apply Hi in K1; apply K1|eauto|apply Oy].
          + apply (OTHER di i x' x); auto; [intros q K1; destruct (Hsplit q K1); auto|intros q K1; apply Hi in K1; apply K1|eauto|tauto|apply Oy]. }
      intros b Hb. apply HP' in Hb as [->|[->|[Hb _]]]; [apply BOTH|apply BOTH|auto].
    + unfold split_working. destruct (mem y w); [apply set_insert_sorted, set_insert_sorted; now apply filter_sorted|].
      destruct (Nat.leb _ _); now apply set_insert_sorted.
    + split; [intros b Hb; apply HP' in Hb as [->|[->|[Hb _]]]; auto|]. intros s Hs. apply HW4 in Hs as [Hs|[->| ->]]; auto.
    + intros b Hb N. apply HP'. auto.
    + intros b Hb. apply HP' in Hb as [->|[->|[Hb N]]]; [right|right|auto]; intros x x' Hx Hx'.
      * apply Hd in Hx as [_ Hx], Hx' as [_ Hx']. tauto.
      * apply Hi in Hx as [_ Hx], Hx' as [_ Hx']. tauto.
Qed.

(** All the blocks, for one label. *)
Lemma split_blocks a src rest : (forall x x', R x x' -> In x src -> In x' src) -> (forall x x', R x x' -> R x' x) ->
  forall p w p' w', inv a p w -> NoDup rest -> (forall b, In b rest -> In b p) ->
  (forall b, In b p -> In b rest \/ forall x x', In x b -> In x' b -> (In x src <-> In x' src)) ->
  fold_left (split_block src) rest (p, w) = (p', w') ->
  inv a p' w' /\ (forall x x', same p' x x' -> (In x src <-> In x' src)) /\
  (forall x x', same p' x x' -> same p x x') /\ length w' + length p <= length w + length p'.
Proof.
  intros CS SYM. induction rest as [|y rest IH]; intros p w p' w' I ND HR HU H; cbn [fold_left] in H.
  - injection H as <- <-. split; [exact I|]. split; [|split; [auto|lia]]. intros x x' (b & Hb & Hx & Hx').
    destruct (HU b Hb) as [[]|K]. auto.
  - destruct (split_block src (p, w) y) as [p1 w1] eqn:E.
    destruct (split_spec a src p w y p1 w1 I (HR y (or_introl eq_refl)) CS SYM E) as (I1 & K1 & K2 & K3 & K4).
    inversion ND as [|? ? N1 N2]; subst.
    destruct (IH p1 w1 p' w' I1 N2) as (I2 & K5 & K6 & K7); [| |exact H|].
    + intros b Hb. apply K1; [apply HR; now right|]. intros ->. contradiction.
    + intros b Hb. destruct (K2 b Hb) as [[K N]|K]; [|auto]. destruct (HU b K) as [[->|K']|K']; [contradiction|auto|auto].
    + split; [exact I2|]. split; [exact K5|]. split; [auto|lia].
Qed.

(** All the labels. *)
Lemma split_labels a ls : (forall l src x x', In (l, src) ls -> R x x' -> In x src -> In x' src) -> (forall x x', R x x' -> R x' x) ->
  forall p w p' w', inv a p w ->
  fold_left (fun pw (ls : L * list Q) => fold_left (split_block (snd ls)) (fst pw) pw) ls (p, w) = (p', w') ->
  inv a p' w' /\ (forall l src x x', In (l, src) ls -> same p' x x' -> (In x src <-> In x' src)) /\
  (forall x x', same p' x x' -> same p x x') /\ length w' + length p <= length w + length p'.
Proof.
  intros CS SYM. induction ls as [|[l src] ls IH]; intros p w p' w' I H; cbn [fold_left] in H.
  - injection H as <- <-. split; [exact I|]. split; [intros ? ? ? ? []|]. split; [auto|lia].
  - cbn [fst snd] in H. destruct (fold_left (split_block src) p (p, w)) as [p1 w1] eqn:E.
    destruct (split_blocks a src p (fun x x' => CS l src x x' (or_introl eq_refl)) SYM p w p1 w1 I) as (I1 & K1 & K2 & K3).
    + apply sorted_NoDup. apply (pt_sorted _ _ (in_part _ _ _ I)).
    + auto.
    + auto.
    + exact E.
    + destruct (IH (fun l src x x' H => CS l src x x' (or_intror H)) p1 w1 p' w' I1 H) as (I2 & K4 & K5 & K6).
      split; [exact I2|]. split; [|split; [auto|lia]]. intros l0 src0 x x' [[= <- <-]|Hl] HS; [|eapply K4; eassumption].
      apply K1. apply K5. exact HS.
Qed.

(** *** The loop *)
Hypothesis SYM : forall x x', R x x' -> R x' x.
Hypothesis BIS : forall x x' l r, R x x' -> d_edge d x l r -> exists r', d_edge d x' l r' /\ R r r'.

Record linv (p w : list (list Q)) : Prop := {
  li_part : part u p;
  li_agree : agree p w;
  li_sorted : StronglySorted lt w;
  li_closed : (forall b, In b p -> closed b) /\ (forall s, In s w -> closed s)
}.

Lemma turn_spec a p w p' w' : linv p (a :: w) -> minimize_turn d a p w = (p', w') ->
  linv p' w' /\ (forall x x', same p' x x' -> same p x x') /\ length w' + length p <= length w + length p'.
Proof.
  intros [P A SW [C1 C2]] H. unfold minimize_turn in H. destruct (sources_spec a) as [Ws HS].
  assert (SRC : forall l src, In (l, src) (sources_by_label d a) -> forall x, In x src <-> goes l a x).
  { intros l src Hl x. rewrite <- HS. split; [eauto|]. intros (src' & H1 & H2).
    assert (src' = src) as ->; [|exact H2]. pose proof (bt_get_wf _ _ _ Ws Hl) as E. rewrite (bt_get_wf _ _ _ Ws H1) in E. congruence. }
  destruct (split_labels a (sources_by_label d a)) with (p := p) (w := w) (p' := p') (w' := w') as ([P' A' SW' C'] & K1 & K2 & K3).
  - intros l src x x' Hl HR Hx. apply (SRC _ _ Hl) in Hx as (r & He & Hr). apply (SRC _ _ Hl).
    destruct (BIS _ _ _ _ HR He) as (r' & He' & HR'). exists r'. split; [exact He'|]. eapply C2; [now left|exact Hr|exact HR'].
  - exact SYM.
  - constructor; [exact P|exact A|now inversion SW|]. split; [exact C1|]. intros; apply C2; now right.
  - exact H.
  - split; [|split; [exact K2|exact K3]]. constructor; [exact P'| |exact SW'|exact C'].
    intros x x' l HSm HA. apply A'; [exact HSm|]. intros s [<-|Hs]; [|auto].
    assert (G : forall x x', same p' x x' -> goes l a x -> goes l a x').
    { intros z z' HZ Hz. apply HS in Hz as (src & H1 & H2). apply (SRC _ _ H1). apply (K1 _ _ _ _ H1 HZ). exact H2. }
    split; apply G; [exact HSm|]. destruct HSm as (b & Hb & Hx & Hx'). exists b. auto.
Qed.

Lemma loop_spec fuel : forall p w p', linv p w -> minimize_loop fuel d p w = Ok p' ->
  part u p' /\ agree p' [] /\ (forall b, In b p' -> closed b) /\ forall x x', same p' x x' -> same p x x'.
Proof.
  induction fuel as [|fuel IH]; intros p w p' I H; [discriminate|]. cbn [minimize_loop] in H. destruct w as [|a w].
  - injection H as <-. destruct I as [P A SW [C1 C2]]. split; [exact P|]. split; [exact A|]. split; [exact C1|auto].
  - destruct (minimize_turn d a p w) as [p1 w1] eqn:E. destruct (turn_spec _ _ _ _ _ I E) as (I1 & K1 & _).
    destruct (IH _ _ _ I1 H) as (K2 & K3 & K4 & K5). split; [exact K2|]. split; [exact K3|]. split; [exact K4|auto].
Qed.

Definition block_heads (p : list (list Q)) : list Q := flat_map (fun b => match b with x :: _ => [x] | [] => [] end) p.

Lemma part_length U p : (forall x, u x -> In x U) -> part u p -> length p <= length U.
Proof.
  intros HU [P1 P2 P3 P4 P5]. assert (E : length (block_heads p) = length p).
  { clear -P3. induction p as [|b p IH]; [reflexivity|]. unfold block_heads in *. cbn [flat_map]. rewrite app_length, IH; [|intros; apply P3; now right].
    specialize (P3 b (or_introl eq_refl)). destruct b; [contradiction|reflexivity]. }
  rewrite <- E. apply NoDup_incl_length.
  - apply sorted_NoDup in P1. clear -P1 P4. unfold block_heads. induction P1 as [|b p N _ IH]; [constructor|]. cbn [flat_map].
    assert (ND : NoDup (flat_map (fun b : list Q => match b with [] => [] | x :: _ => [x] end) p)).
    { apply IH. intros; eapply P4; try eassumption; now right. }
    destruct b as [|x b]; [exact ND|]. cbn [app]. constructor; [|exact ND]. intro HI. apply in_flat_map in HI as ([|y b'] & Hb' & Hx); [destruct Hx|].
    destruct Hx as [->|[]]. apply N. assert (E : x :: b = x :: b'); [|rewrite E; exact Hb'].
    apply (P4 _ _ x); [now left|now right|now left|now left].
  - intros x Hx. apply in_flat_map in Hx as ([|y b] & Hb & Hx); [destruct Hx|]. destruct Hx as [->|[]]. apply HU, P5.
    exists (x :: b). split; [exact Hb|now left].
Qed.

Lemma loop_total U : (forall x, u x -> In x U) -> forall fuel p w, linv p w ->
  length w + length U < fuel + length p -> exists p', minimize_loop fuel d p w = Ok p'.
Proof.
  intros HU. induction fuel as [|fuel IH]; intros p w I Lf.
  - assert (K := part_length U p HU (li_part _ _ I)). lia.
  - cbn [minimize_loop]. destruct w as [|a w]; [eauto|]. destruct (minimize_turn d a p w) as [p1 w1] eqn:E.
    destruct (turn_spec _ _ _ _ _ I E) as (I1 & K1 & K2). apply IH; [exact I1|]. cbn [length] in Lf. lia.
Qed.

(** At the start, the working list is the partition. *)
Lemma agree_start p : agree p p.
Proof. intros x y l _ HA b Hb. auto. Qed.
End Invariant.

(** *** The result *)
Section Result.
Variable u : Q -> Prop.
Variable p : list (list Q).
Hypothesis P : part u p.
Hypothesis ST : forall x y l b, same p x y -> In b p -> goes l b x -> goes l b y.

Lemma block_map_spec q b : bt_get q (block_map p) = Some b <-> In b p /\ In q b.
Proof.
  destruct P as [P1 P2 P3 P4 P5]. unfold block_map.
  assert (K : forall l m, (forall b, In b l -> In b p) ->
    bt_get q (fold_left (fun m b => fold_left (fun m q => bt_insert q b m) b m) l m) = Some b <->
    (In b l /\ In q b) \/ ((forall b', In b' l -> ~ In q b') /\ bt_get q m = Some b)).
  { clear ST. induction l as [|b0 l IH]; intros m Hl; cbn [fold_left].
    - split; [intro H; right; split; [intros ? []|exact H]|]. intros [[[] _]|[_ H]]. exact H.
    - rewrite IH; [|intros; apply Hl; now right].
      assert (KI : forall c m, bt_get q (fold_left (fun m q => bt_insert q b0 m) c m) = if mem q c then Some b0 else bt_get q m).
      { clear -LQ. induction c as [|x c IHc]; intro m; [reflexivity|]. cbn [fold_left mem]. rewrite IHc, bt_insert_get.
        destruct (eqb q x); cbn [orb]; destruct (mem q c); reflexivity. }
      rewrite KI. destruct (mem q b0) eqn:Em.
      + apply mem_In in Em. split.
        * intros [[H1 H2]|[H1 [= <-]]]; left; (split; [|assumption]); [now right|now left].
        * intros [[[->|H1] H2]|[H1 _]]; [|left; auto|exfalso; apply (H1 b0); [now left|exact Em]].
          destruct (in_dec (fun x y => match eqb_spec x y with ReflectT _ e => left e | ReflectF _ n => right n end) b l) as [K|K]; [left; auto|].
          right. split; [|reflexivity]. intros b' Hb' Hq. apply K. assert (b' = b) as <-; [|exact Hb'].
          apply (P4 _ _ q); [apply Hl; now right|apply Hl; now left|exact Hq|exact H2].
      + assert (Nq : ~ In q b0) by (intro K; apply mem_In in K; congruence). split.
        * intros [[H1 H2]|[H1 H2]]; [left; split; [now right|exact H2]|]. right. split; [|exact H2]. intros b' [<-|Hb']; auto.
        * intros [[[->|H1] H2]|[H1 H2]]; [contradiction|left; auto|]. right. split; [|exact H2]. intros; apply H1; now right. }
  rewrite K by auto. split; [intros [H|[_ H]]; [exact H|discriminate]|auto].
Qed.

Lemma block_exists q : u q -> exists b, block_of (block_map p) q = Ok b /\ In b p /\ In q b.
Proof.
  intro Hq. apply (pt_cover _ _ P) in Hq as (b & Hb & Hq). exists b. split; [|auto]. unfold block_of.
  rewrite (proj2 (block_map_spec q b) (conj Hb Hq)). reflexivity.
Qed.

Lemma block_Ok q b : block_of (block_map p) q = Ok b -> In b p /\ In q b.
Proof.
  unfold block_of. destruct (bt_get q (block_map p)) as [b'|] eqn:E; [|discriminate]. intros [= ->]. now apply block_map_spec.
Qed.

Lemma minimize_transitions_spec l : forall done res,
  (forall q lb r, In (q, (lb, r)) l -> d_edge d q lb r /\ u q /\ u r) ->
  (forall q lb r, In (q, (lb, r)) done -> d_edge d q lb r) ->
  dfa_wf res ->
  (forall s lb t, d_edge res s lb t <-> exists q r, In (q, (lb, r)) done /\ In s p /\ In q s /\ In t p /\ In r t) ->
  exists res', minimize_transitions (block_map p) l res = Ok res' /\ dfa_wf res' /\ d_initial res' = d_initial res /\ d_final res' = d_final res /\
    forall s lb t, d_edge res' s lb t <-> exists q r, In (q, (lb, r)) (done ++ l) /\ In s p /\ In q s /\ In t p /\ In r t.
Proof.
  induction l as [|[q [lb r]] l IH]; intros done res HE HD W HR; cbn [minimize_transitions].
  - exists res. split; [reflexivity|]. split; [exact W|]. split; [reflexivity|]. split; [reflexivity|]. now rewrite app_nil_r.
  - destruct (HE q lb r (or_introl eq_refl)) as (He & Uq & Ur).
    destruct (block_exists q Uq) as (s & -> & Hs & Hqs). destruct (block_exists r Ur) as (t & -> & Ht & Hrt). cbn [bind].
    change (Dfa (d_initial res) (d_final res) (bt_insert s (bt_insert lb t (entry s [] (d_transitions res))) (d_transitions res)))
      with (dfa_add s lb t res).
    destruct (IH (done ++ [(q, (lb, r))]) (dfa_add s lb t res)) as (res' & -> & W' & Ei & Ef & HR').
    + intros; apply HE; now right.
    + intros q0 lb0 r0 H0. apply in_app_or in H0 as [H0|[[= <- <- <-]|[]]]; auto.
    + now apply dfa_add_wf.
    + intros s0 lb0 t0. rewrite (dfa_add_edge res s lb t s0 lb0 t0 W), HR. split.
      * intros [(-> & -> & ->)|[_ (q0 & r0 & H0 & K)]].
        -- exists q, r. split; [apply in_or_app; right; now left|auto].
        -- exists q0, r0. split; [apply in_or_app; now left|exact K].
      * intros (q0 & r0 & H0 & K1 & K2 & K3 & K4). apply in_app_or in H0 as [H0|[[= -> -> ->]|[]]].
        -- destruct (eqb_spec s0 s) as [->|Ns].
           ++ destruct (eqb_spec lb0 lb) as [->|Nl]; [|right; split; [tauto|eauto 10]].
              left. split; [reflexivity|]. split; [reflexivity|].
              destruct (ST q0 q lb t0) as (r1 & He1 & Hr1).
              { exists s. auto. } { exact K3. } { exists r0. split; [now apply HD|exact K4]. }
              assert (r1 = r) as -> by (eapply edge_fun; eassumption). eapply (pt_disj _ _ P); eassumption.
           ++ right. split; [tauto|eauto 10].
        -- left. split; [eapply (pt_disj _ _ P); eassumption|]. split; [reflexivity|]. eapply (pt_disj _ _ P); eassumption.
    + exists res'. split; [reflexivity|]. split; [exact W'|]. split; [exact Ei|]. split; [exact Ef|]. intros s0 lb0 t0. rewrite HR'.
      rewrite <- app_assoc. reflexivity.
Qed.
End Result.

(** *** [minimize] *)
Section Minimize.
Variable u : Q -> Prop.
Variable p0 : list (list Q).
Hypothesis P0 : partition_of u p0.
Hypothesis UI : u (d_initial d).
Hypothesis UE : forall q l r, d_edge d q l r -> u q /\ u r.

Lemma part_start : part u (set_collect p0).
Proof.
  destruct P0 as [H1 H2 H3 H4]. constructor.
  - apply set_collect_sorted.
  - intros b Hb. apply H1. now apply set_collect_In.
  - intros b Hb. apply H2. now apply set_collect_In.
  - intros b b' x Hb Hb'. apply H3; now apply set_collect_In.
  - intro x. rewrite H4. split; intros (b & Hb & Hx); exists b; (split; [|exact Hx]); now apply set_collect_In.
Qed.

Lemma label_run_u q w r : label_run d q w r -> u q -> u r.
Proof. induction 1 as [|q l c q' w r He -> _ IH]; [auto|]. intros _. apply IH. now apply UE in He as [_ He]. Qed.

Lemma label_run_fun q w r : label_run d q w r -> forall r', label_run d q w r' -> r = r'.
Proof.
  induction 1 as [|q l c q' w r He -> HR IH]; intros r' H'; inversion H' as [|? l' ? q'' ? ? He' EQ HR' EE]; subst; [reflexivity|].
  apply IH. assert (q' = q'') as -> by (eapply edge_fun; eassumption). exact HR'.
Qed.

Definition nerode x y := u x /\ u y /\ indistinguishable d p0 x y.

Lemma nerode_sym x y : nerode x y -> nerode y x.
Proof. intros (H1 & H2 & H3). split; [exact H2|]. split; [exact H1|]. intros w b Hb. symmetry. auto. Qed.

Lemma nerode_bis x x' l r : nerode x x' -> d_edge d x l r -> exists r', d_edge d x' l r' /\ nerode r r'.
Proof.
  intros (H1 & H2 & H3) He. destruct (UE _ _ _ He) as [_ Ur]. destruct (proj1 (po_cover _ _ P0 r) Ur) as (b & Hb & Hr).
  destruct (proj1 (H3 [l] b Hb)) as (r' & HR' & _).
  { exists r. split; [|exact Hr]. econstructor; [exact He|reflexivity|constructor]. }
  inversion HR' as [|? l' ? q'' ? ? He' EQ HR'' EE]; subst. exists q''. split; [exact He'|]. split; [exact Ur|].
  split; [now apply UE in He' as [_ He']|].
  intros w b' Hb'. specialize (H3 (l :: w) b' Hb'). split; intros (z & HZ & Hz).
  - destruct (proj1 H3) as (z' & HZ' & Hz'); [exists z; split; [econstructor; [exact He|reflexivity|exact HZ]|exact Hz]|].
    inversion HZ' as [|? l' ? q1 ? ? He1 EQ HR1 EE]; subst. exists z'. split; [|exact Hz'].
    assert (q1 = q'') as <- by (eapply edge_fun; eassumption). exact HR1.
  - destruct (proj2 H3) as (z' & HZ' & Hz'); [exists z; split; [econstructor; [exact He'|reflexivity|exact HZ]|exact Hz]|].
    inversion HZ' as [|? l' ? q1 ? ? He1 EQ HR1 EE]; subst. exists z'. split; [|exact Hz'].
    assert (q1 = r) as <- by (eapply edge_fun; eassumption). exact HR1.
Qed.

Lemma nerode_start : linv u nerode (set_collect p0) (set_collect p0).
Proof.
  assert (C : forall b, In b (set_collect p0) -> closed nerode b).
  { intros b Hb x y Hx (_ & _ & HR). apply (proj1 (set_collect_In _ _)) in Hb. destruct (proj1 (HR [] b Hb)) as (r & H & Hr).
    - exists x. split; [constructor|exact Hx].
    - inversion H; subst. exact Hr. }
  constructor; [apply part_start|apply agree_start|apply set_collect_sorted|auto].
Qed.

Lemma minimize_Ok fuel m : minimize fuel d p0 = Ok m -> exists p,
  minimize_loop fuel d (set_collect p0) (set_collect p0) = Ok p.
Proof. unfold minimize. destruct (minimize_loop _ _ _ _) as [p| | |]; try discriminate. eauto. Qed.

Lemma minimize_result fuel p : minimize_loop fuel d (set_collect p0) (set_collect p0) = Ok p ->
  part u p /\ (forall x y, u x -> u y -> (same p x y <-> indistinguishable d p0 x y)) /\
  (forall b, In b p -> exists b0, In b0 p0 /\ forall x, In x b -> In x b0) /\
  exists m, minimize fuel d p0 = Ok m /\ In (d_initial m) p /\ In (d_initial d) (d_initial m) /\ d_final m = [] /\ dfa_wf m /\
    (forall x y l b, same p x y -> In b p -> goes l b x -> goes l b y) /\
    forall s lb t, d_edge m s lb t <-> exists q r, d_edge d q lb r /\ In s p /\ In q s /\ In t p /\ In r t.
Proof.
  intro E. destruct (loop_spec u nerode nerode_sym nerode_bis fuel _ _ _ nerode_start E) as (P & A & C & RF).
  assert (ST : forall x y l b, same p x y -> In b p -> goes l b x -> goes l b y).
  { intros x y l b HS Hb. apply (A x y l HS (fun s H => match H with end) b Hb). }
  assert (RUN : forall w x y r, same p x y -> label_run d x w r -> exists r', label_run d y w r' /\ same p r r').
  { induction w as [|l w IH]; intros x y r HS HR.
    - inversion HR; subst. exists y. split; [constructor|exact HS].
    - inversion HR as [|? l' ? q'' ? ? He' EQ HR'' EE]; subst. destruct (UE _ _ _ He') as [_ Ur].
      destruct (proj1 (pt_cover _ _ P q'') Ur) as (b & Hb & Hr). destruct (ST x y l b HS Hb) as (r1 & He1 & Hr1); [exists q''; auto|].
      destruct (IH q'' r1 r) as (r' & H1 & H2); [exists b; auto|exact HR''|]. exists r'. split; [|exact H2].
      econstructor; [exact He1|reflexivity|exact H1]. }
  split; [exact P|]. split; [|split].
  - intros x y Ux Uy. split.
    + assert (K : forall x y, same p x y -> forall w b, In b p0 ->
        (exists r, label_run d x w r /\ In r b) -> exists r, label_run d y w r /\ In r b).
      { intros x1 y1 HS w b Hb (r & HR & Hr). destruct (RUN w x1 y1 r HS HR) as (r' & H1 & H2). exists r'. split; [exact H1|].
        destruct (RF _ _ H2) as (b' & Hb' & K1 & K2). apply (proj1 (set_collect_In _ _)) in Hb'.
        rewrite (po_disjoint _ _ P0 b b' r Hb Hb' Hr K1). exact K2. }
      intros HS w b Hb. split; apply K; auto. destruct HS as (c & K1 & K2 & K3). exists c. auto.
    + intro HI. destruct (proj1 (pt_cover _ _ P x) Ux) as (b & Hb & Hx). exists b. split; [exact Hb|]. split; [exact Hx|].
      eapply C; [exact Hb|exact Hx|]. split; [exact Ux|]. split; [exact Uy|exact HI].
  - intros b Hb. destruct b as [|x b]; [exfalso; eapply (pt_ne _ _ P); [exact Hb|reflexivity]|].
    assert (HS : same p x x) by (exists (x :: b); split; [exact Hb|split; now left]).
    destruct (RF _ _ HS) as (b0 & H1 & H2 & _). pose proof (proj1 (set_collect_In _ _) H1) as H1'. exists b0. split; [exact H1'|].
    intros y Hy. destruct (RF x y) as (b1 & K1 & K2 & K3); [exists (x :: b); split; [exact Hb|split; [now left|exact Hy]]|].
    apply (proj1 (set_collect_In _ _)) in K1. rewrite (po_disjoint _ _ P0 b0 b1 x H1' K1 H2 K2). exact K3.
  - unfold minimize. rewrite E. cbn [bind]. destruct (block_exists u p P (d_initial d) UI) as (i & -> & Hi & Hii). cbn [bind].
    destruct (minimize_transitions_spec u p P ST (triples d) [] (Dfa i [] [])) as (m & -> & W & Ei & Ef & HE).
    + intros q lb r H. assert (He : d_edge d q lb r) by (now apply triples_In). split; [exact He|]. exact (UE _ _ _ He).
    + intros ? ? ? [].
    + split; [constructor|]. intros ? ? [].
    + intros s lb t. split; [intros (ts & [] & _)|intros (q & r & [] & _)].
    + exists m. split; [reflexivity|]. rewrite Ei. split; [exact Hi|]. split; [exact Hii|]. split; [exact Ef|]. split; [exact W|]. split; [exact ST|].
      intros s lb t. rewrite HE. cbn [app]. split; intros (q & r & H1 & H2); exists q, r; (split; [|exact H2]); now apply triples_In.
Qed.

(** The runs of the result are those of the automaton, seen through the blocks. *)
Lemma minimize_run {C} (has : L -> C -> Prop) fuel m : minimize fuel d p0 = Ok m -> forall w,
  (forall q, d_run has d (d_initial d) w q -> exists b, In q b /\ d_run has m (d_initial m) w b) /\
  (forall b, d_run has m (d_initial m) w b -> exists q, In q b /\ d_run has d (d_initial d) w q).
Proof.
  intros H w. destruct (minimize_Ok _ _ H) as (p & E). destruct (minimize_result _ _ E) as (P & _ & _ & m' & H' & Hi & Hii & _ & _ & ST & HE).
  assert (m' = m) as -> by congruence. split.
  - revert Hi Hii. generalize (d_initial d) as q, (d_initial m) as b. induction w as [|c w IH]; intros q b Hb Hq r HR.
    + inversion HR; subst. exists b. split; [exact Hq|constructor].
    + inversion HR as [|? l ? q' ? ? He Hl HR' EE]; subst. destruct (UE _ _ _ He) as [_ Ur].
      destruct (proj1 (pt_cover _ _ P q') Ur) as (b' & Hb' & Hq'). destruct (IH q' b' Hb' Hq' r HR') as (t & Ht & HT).
      exists t. split; [exact Ht|]. econstructor; [|exact Hl|exact HT]. apply HE. exists q, q'. auto.
  - revert Hi Hii. generalize (d_initial d) as q, (d_initial m) as b. induction w as [|c w IH]; intros q b Hb Hq r HR.
    + inversion HR; subst. exists q. split; [exact Hq|constructor].
    + inversion HR as [|? l ? b' ? ? He Hl HR' EE]; subst. apply HE in He as (q1 & r1 & He1 & _ & Hq1 & Hb' & Hr1).
      destruct (ST q1 q l b') as (q' & He' & Hq'); [exists b; auto|exact Hb'|exists r1; auto|].
      destruct (IH q' b' Hb' Hq' r HR') as (t & Ht & HT). exists t. split; [exact Ht|]. econstructor; [exact He'|exact Hl|exact HT].
Qed.

Lemma minimize_deterministic {C} (has : L -> C -> Prop) fuel m : deterministic has d -> minimize fuel d p0 = Ok m -> deterministic has m.
Proof.
  intros D H. destruct (minimize_Ok _ _ H) as (p & E). destruct (minimize_result _ _ E) as (P & _ & _ & m' & H' & Hi & Hii & _ & _ & ST & HE).
  assert (m' = m) as -> by congruence. intros s l l' t t' c H1 H2 K1 K2.
  apply HE in H1 as (q & r & He & Hs & Hq & Ht & Hr). apply HE in H2 as (q1 & r1 & He1 & _ & Hq1 & Ht' & Hr1).
  destruct (ST q1 q l' t') as (r2 & He2 & Hr2); [exists s; auto|exact Ht'|exists r1; auto|].
  destruct (D _ _ _ _ _ _ He He2 K1 K2) as [-> ->]. split; [reflexivity|]. eapply (pt_disj _ _ P); eassumption.
Qed.

Lemma minimize_total : exists bound, forall fuel, bound <= fuel -> exists m, minimize fuel d p0 = Ok m.
Proof.
  exists (Datatypes.S (length (set_collect p0) + length (concat p0))). intros fuel Hf.
  destruct (loop_total u nerode nerode_sym nerode_bis (concat p0)) with (fuel := fuel) (p := set_collect p0) (w := set_collect p0) as (p & E).
  - intros x Hx. apply (po_cover _ _ P0) in Hx as (b & Hb & Hx). apply in_concat. eauto.
  - exact nerode_start.
  - lia.
  - destruct (minimize_result _ _ E) as (_ & _ & _ & m & H & _). eauto.
Qed.
End Minimize.
End Min.
