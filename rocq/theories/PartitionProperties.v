(** * Partitions of the states of an automaton (C113) *)

From Coq Require Import String List Bool Arith NArith Lia Sorted Relations.
Import ListNotations.
From Verif Require Import Base BaseProofs Orders CharModel AutomatonModel AutomatonSpec AutomatonProofs AutomatonDet
  AutomatonTerm AutomatonProduct AutomatonMap AutomatonEdges AutomatonReach AutomatonMin AutomatonProperties PartitionModel.
Open Scope list_scope.

Section Partition.
Context {Q L P E : Type} {CQ : Cmp Q} {CL : Cmp L} {CP : Cmp P} {LQ : CmpLaws Q} {LL : CmpLaws L} {LP : CmpLaws P}.
Variable d : dfa Q L.
Hypothesis Wd : bt_wf (d_transitions d).
Variable f : Q -> E + P.

Definition part_succ (fuel : nat) : list (L * Q) -> list Q * list (P * list Q) -> outcome E (list Q * list (P * list Q)) :=
  fix go (ts : list (L * Q)) (st : list Q * list (P * list Q)) : outcome E (list Q * list (P * list Q)) :=
    match ts with
    | [] => Ok st
    | (_, r) :: ts' => let* st := try_partition_from fuel d f r st in go ts' st
    end.
Lemma part_step fuel q visited m : try_partition_from (Datatypes.S fuel) d f q (visited, m) =
  if mem q visited then Ok (visited, m)
  else match f q with inl e => Err e | inr p => part_succ fuel (dfa_successors d q) (q :: visited, partition_insert p q m) end.
Proof. reflexivity. Qed.

(** Each set computed during the traversal is the one of [select_states] for the same states. *)
Lemma part_select (g : Q -> bool) (proj : list (P * list Q) -> list Q) :
  (forall q p m, f q = inr p -> proj (partition_insert p q m) = if g q then set_insert q (proj m) else proj m) ->
  forall fuel q st st', try_partition_from fuel d f q st = Ok st' ->
  select_states_from fuel d g q (fst st, proj (snd st)) = Ok (fst st', proj (snd st')).
Proof.
  intros PR. induction fuel as [|fuel IH]; intros q [vis m] st' H; [discriminate|]. rewrite part_step in H. cbn [fst snd]. rewrite select_step.
  destruct (mem q vis); [injection H as <-; reflexivity|]. destruct (f q) as [e|p] eqn:F; [discriminate|]. rewrite <- (PR q p m F).
  change (q :: vis, proj (partition_insert p q m)) with (fst (q :: vis, partition_insert p q m), proj (snd (q :: vis, partition_insert p q m))).
  revert H. generalize (q :: vis, partition_insert p q m). induction (dfa_successors d q) as [|[l r] ts IHt]; intros st H; [injection H as <-; reflexivity|].
  change (part_succ fuel ((l, r) :: ts) st) with (let* st := try_partition_from fuel d f r st in part_succ fuel ts st) in H. apply bind_Ok in H as (st1 & H1 & H2).
  change (select_succ d g fuel ((l, r) :: ts) (fst st, proj (snd st))) with
    (let* s := select_states_from fuel d g r (fst st, proj (snd st)) in select_succ d g fuel ts s). rewrite (IH _ _ _ H1). cbn [bind]. now apply IHt.
Qed.

(** The entries of the map. *)
Definition entries_ok (m : list (P * list Q)) : Prop := bt_wf m /\ forall p b, In (p, b) m -> b <> [].
Lemma part_entries : forall fuel q st st', try_partition_from fuel d f q st = Ok st' -> entries_ok (snd st) -> entries_ok (snd st').
Proof.
  induction fuel as [|fuel IH]; intros q [vis m] st' H W; [discriminate|]. rewrite part_step in H. destruct (mem q vis); [injection H as <-; exact W|].
  destruct (f q) as [e|p] eqn:F; [discriminate|]. assert (W' : entries_ok (snd (q :: vis, partition_insert p q m))).
  { destruct W as [W NE]. cbn [snd] in *. split; [now apply bt_insert_wf|]. intros p' b I. unfold partition_insert in I. apply bt_insert_In in I; [|exact W]. destruct I as [[-> ->]|[_ I]]; [|eauto].
    intro K. assert (X : In q (set_insert q (entry p [] m))) by (apply set_insert_In; now left). rewrite K in X. destruct X. }
  revert H W'. generalize (q :: vis, partition_insert p q m). induction (dfa_successors d q) as [|[l r] ts IHt]; intros st H W'; [injection H as <-; exact W'|].
  change (part_succ fuel ((l, r) :: ts) st) with (let* st := try_partition_from fuel d f r st in part_succ fuel ts st) in H. apply bind_Ok in H as (st1 & H1 & H2). eauto.
Qed.

(** Failures are those of the function, on a state that can be reached. *)
Lemma part_fails : forall fuel q st o, try_partition_from fuel d f q st = o -> match o with
  | Err e => exists r, d_reaches d q r /\ f r = inl e
  | Panic _ => False
  | _ => True
  end.
Proof.
  induction fuel as [|fuel IH]; intros q [vis m] o <-; [exact I|]. rewrite part_step. destruct (mem q vis); [exact I|].
  destruct (f q) as [e|p] eqn:F; [exists q; split; [apply rt_refl|exact F]|].
  assert (K : forall ts st, (forall r, In r (map snd ts) -> d_step d q r) -> match part_succ fuel ts st with
    | Err e => exists r, d_reaches d q r /\ f r = inl e | Panic _ => False | _ => True end).
  { induction ts as [|[l r] ts IHt]; intros st S; [exact I|].
    change (part_succ fuel ((l, r) :: ts) st) with (let* st := try_partition_from fuel d f r st in part_succ fuel ts st).
    specialize (IH r st _ eq_refl). destruct (try_partition_from fuel d f r st) as [st1|e|w|]; cbn [bind]; [|destruct IH as (x & R & X)|exact IH|exact I].
    - apply IHt. intros x X. apply S. now right.
    - exists x. split; [|exact X]. eapply rt_trans; [apply rt_step; apply S; now left|exact R]. }
  apply K. intros r R. now apply step_successors.
Qed.

(** The traversal ends like that of [select_states]. *)
Lemma part_total (g : Q -> bool) : forall fuel q vis set m st', select_states_from fuel d g q (vis, set) = Ok st' ->
  match try_partition_from fuel d f q (vis, m) with Ok st => fst st = fst st' | OutOfFuel => False | _ => True end.
Proof.
  induction fuel as [|fuel IH]; intros q vis set m st' H; [discriminate|]. rewrite select_step in H. rewrite part_step.
  destruct (mem q vis); [injection H as <-; reflexivity|]. destruct (f q) as [e|p]; [exact I|].
  revert H. generalize (if g q then set_insert q set else set), (partition_insert p q m). generalize (q :: vis). clear set m.
  induction (dfa_successors d q) as [|[l r] ts IHt]; intros v set m H; [injection H as <-; reflexivity|].
  change (select_succ d g fuel ((l, r) :: ts) (v, set)) with (let* s := select_states_from fuel d g r (v, set) in select_succ d g fuel ts s) in H.
  change (part_succ fuel ((l, r) :: ts) (v, m)) with (let* st := try_partition_from fuel d f r (v, m) in part_succ fuel ts st).
  apply bind_Ok in H as ([v1 s1] & H1 & H2). specialize (IH _ _ _ m _ H1). destruct (try_partition_from fuel d f r (v, m)) as [[v2 m2]|e|w|]; cbn [bind]; try exact I; [|exact IH].
  cbn [fst] in IH. subst v2. exact (IHt _ _ _ H2).
Qed.

Notation reachable q := (d_reaches d (d_initial d) q).

(** The classes are the sets of reachable states with the same image. *)
Theorem C113_classes fuel m : try_partition fuel d f = Ok m ->
  NoDup (map fst m) /\
  (forall p b, In (p, b) m -> StronglySorted lt b /\ b <> [] /\ forall q, In q b <-> reachable q /\ f q = inr p) /\
  (forall q, reachable q -> exists p b, f q = inr p /\ In (p, b) m /\ In q b).
Proof.
  unfold try_partition. intro H. apply bind_Ok in H as ([vis m1] & H & [= <-]). cbn [snd].
  destruct (part_entries _ _ _ _ H) as [W NE]; [split; [constructor|intros ? ? []]|]. cbn [snd] in W, NE.
  assert (SEL : forall p, StronglySorted lt (entry p [] m1) /\ forall q, In q (entry p [] m1) <-> reachable q /\ f q = inr p).
  { intro p. pose (g := fun q => match f q with inr p' => eqb p p' | inl _ => false end).
    assert (S : select_states fuel d g = Ok (entry p [] m1)).
    { unfold select_states. pose proof (part_select g (fun m => entry p [] m)) as K. cbn beta in K. specialize (fun PR => K PR _ _ ([], []) _ H). change (entry p [] (snd ([], []))) with (@nil Q) in K. cbn [fst snd] in K. rewrite K; [reflexivity|]. intros q p' m F.
      unfold partition_insert. rewrite entry_insert. unfold g. rewrite F. destruct (eqb_spec p p') as [->|N]; reflexivity. }
    apply (select_states_spec d Wd) in S as [S1 S2]. split; [exact S1|]. intro q. rewrite S2. unfold g.
    split; intros [R F]; (split; [exact R|]); destruct (f q) as [e|p']; try discriminate; [|injection F as ->; apply eqb_refl].
    destruct (eqb_spec p p') as [->|]; [reflexivity|discriminate]. }
  assert (OK : forall q, reachable q -> exists p, f q = inr p).
  { intros q R. pose (g := fun q => match f q with inr _ => false | inl _ => true end).
    assert (S : select_states fuel d g = Ok []).
    { unfold select_states. pose proof (part_select g (fun _ => [])) as K. cbn beta in K.
      specialize (fun PR => K PR _ _ ([], []) _ H). cbn [fst snd] in K. rewrite K; [reflexivity|]. intros q' p' m F. unfold g. rewrite F. reflexivity. }
    apply (select_states_spec d Wd) in S as [_ S]. specialize (S q). unfold g in S. destruct (f q) as [e|p]; [|eauto]. now elim (proj2 S (conj R eq_refl)). }
  split; [|split].
  - apply bt_wf_NoDup. exact W.
  - intros p b I. destruct (SEL p) as [S1 S2]. assert (EN : entry p [] m1 = b) by (unfold entry; apply (bt_get_wf _ _ _ W) in I; now rewrite I).
    rewrite EN in *. split; [exact S1|]. split; [eauto|exact S2].
  - intros q R. destruct (OK q R) as [p F]. destruct (SEL p) as [_ S]. assert (I := proj2 (S q) (conj R F)).
    exists p, (entry p [] m1). split; [exact F|]. split; [|exact I]. destruct (entry_cases p [] m1) as [K|K]; [rewrite K in I; destruct I|exact K].
Qed.

(** If it fails, it is with the error of the function for a reachable state; there is no panic. *)
Theorem C113_fails fuel o : try_partition fuel d f = o -> match o with
  | Err e => exists q, reachable q /\ f q = inl e
  | Panic _ => False
  | _ => True
  end.
Proof.
  intros <-. unfold try_partition. pose proof (part_fails fuel (d_initial d) ([], []) _ eq_refl) as K.
  destruct (try_partition_from fuel d f (d_initial d) ([], [])); cbn [bind]; auto.
Qed.

(** It ends, whatever the cycles of the automaton. *)
Theorem C113_total : exists bound, forall fuel, bound <= fuel -> try_partition fuel d f <> OutOfFuel.
Proof.
  destruct (select_states_total d Wd (fun _ => true)) as [bound T]. exists bound. intros fuel LE. destruct (T fuel LE) as [l S]. unfold select_states in S.
  apply bind_Ok in S as (st & S & _). pose proof (part_total _ _ _ _ _ [] _ S) as K. unfold try_partition.
  destruct (try_partition_from fuel d f (d_initial d) ([], [])); cbn [bind]; [discriminate..|contradiction].
Qed.
End Partition.

(** ** [partition], then [minimize] *)
Section Minimize.
Context {Q L P : Type} {CQ : Cmp Q} {CL : Cmp L} {CP : Cmp P} {LQ : CmpLaws Q} {LL : CmpLaws L} {LP : CmpLaws P}.
Variable d : dfa Q L.
Hypothesis Wd : dfa_wf d.
Variable f : Q -> P.
Notation reachable q := (d_reaches d (d_initial d) q).

(** The blocks are a partition of the reachable states; two of them are in the same block if they have the same image. *)
Theorem C113_partition fuel m : partition fuel d f = Ok m -> partition_of (fun q => reachable q) (blocks m) /\
  forall q r, reachable q -> reachable r -> ((exists b, In b (blocks m) /\ In q b /\ In r b) <-> f q = f r).
Proof.
  unfold partition. intro H. destruct (try_partition fuel d (fun q => inr (f q))) as [m1|e| |] eqn:T; try discriminate. injection H as ->.
  destruct (C113_classes d (proj1 Wd) _ fuel m T) as (ND & B & C).
  assert (B1 : forall b, In b (blocks m) -> exists p, In (p, b) m) by (intros b I; apply in_map_iff in I as ([p b'] & E & I); cbn in E; subst; eauto).
  assert (FUN : forall p b b', In (p, b) m -> In (p, b') m -> b = b').
  { clear - ND. induction m as [|[p0 b0] m IH]; intros p b b' I I'; [destruct I|]. inversion ND as [|? ? N1 N2]; subst. cbn [fst] in N1.
    destruct I as [E|I], I' as [E'|I']; [congruence| | |eauto]; exfalso; apply N1, in_map_iff; [injection E as -> ->; exists (p, b')|injection E' as -> ->; exists (p, b)]; auto. }
  split; [constructor|].
  - intros b I. apply B1 in I as [p I]. now apply B in I.
  - intros b I. apply B1 in I as [p I]. now apply B in I.
  - intros b b' x I I' X X'. apply B1 in I as [p I]. apply B1 in I' as [p' I']. apply (B _ _ I) in X as [_ X]. apply (B _ _ I') in X' as [_ X']. rewrite X in X'. injection X' as <-. eauto.
  - intro x. split.
    + intro R. destruct (C x R) as (p & b & _ & I & X). exists b. split; [apply in_map_iff; now exists (p, b)|exact X].
    + intros (b & I & X). apply B1 in I as [p I]. now apply (B _ _ I) in X.
  - intros q r Rq Rr. split.
    + intros (b & I & X & Y). apply B1 in I as [p I]. apply (B _ _ I) in X as [_ X]. apply (B _ _ I) in Y as [_ Y]. congruence.
    + intro E. destruct (C q Rq) as (p & b & F & I & X). exists b. split; [apply in_map_iff; now exists (p, b)|]. split; [exact X|].
      apply (B _ _ I). split; [exact Rr|]. now rewrite <- E.
Qed.

Theorem C113_partition_total : exists bound, forall fuel, bound <= fuel -> exists m, partition fuel d f = Ok m.
Proof.
  destruct (C113_total (E := Empty_set) d (proj1 Wd) (fun q => inr (f q))) as [bound T]. exists bound. intros fuel LE. specialize (T fuel LE).
  pose proof (C113_fails (E := Empty_set) d (proj1 Wd) (fun q => inr (f q)) fuel _ eq_refl) as K. unfold partition.
  destruct (try_partition fuel d (fun q => inr (f q))) as [m|[]| |]; [eauto|contradiction|congruence].
Qed.

(** The blocks of [minimize] only have states of the initial ones. *)
Definition within (p p0 : list (list Q)) : Prop := forall b x, In b p -> In x b -> exists b0, In b0 p0 /\ In x b0.
Lemma fold_within src ys p0 : within ys p0 -> forall pw, within (fst pw) p0 -> within (fst (fold_left (split_block src) ys pw)) p0.
Proof.
  induction ys as [|y ys IH]; intros W [p w] P0; [exact P0|]. cbn [fold_left]. apply IH; [intros b x I; apply W; now right|].
  intros b x I X. destruct (set_inter y src) as [|i1 i] eqn:E1; unfold split_block in I; rewrite E1 in I; [cbn [fst] in I; eauto|].
  destruct (set_diff y src) as [|j1 j] eqn:E2; [cbn [fst] in I; eauto|]. cbn [fst] in I. rewrite <- E1, <- E2 in I.
  apply set_insert_In in I as [->|I]; [apply in_diff in X as [X _]; apply (W y); [now left|exact X]|].
  apply set_insert_In in I as [->|I]; [apply in_inter in X as [X _]; apply (W y); [now left|exact X]|].
  apply set_remove_In in I as [I _]. eauto.
Qed.
Lemma turn_within p0 (ls : list (L * list Q)) : forall pw, within (fst pw) p0 ->
  within (fst (fold_left (fun pw (ls : L * list Q) => fold_left (split_block (snd ls)) (fst pw) pw) ls pw)) p0.
Proof. induction ls as [|l ls IH]; intros pw W; [exact W|]. cbn [fold_left]. apply IH. now apply fold_within. Qed.
Lemma loop_within p0 fuel : forall p w p', within p p0 -> minimize_loop fuel d p w = Ok p' -> within p' p0.
Proof.
  induction fuel as [|fuel IH]; intros p w p' W H; [discriminate|]. cbn [minimize_loop] in H. destruct w as [|a w]; [injection H as <-; exact W|].
  destruct (minimize_turn d a p w) as [p1 w1] eqn:T. eapply IH; [|exact H]. unfold minimize_turn in T.
  change p1 with (fst (p1, w1)). rewrite <- T. now apply turn_within.
Qed.
Lemma block_map_within (p : list (list Q)) : forall q b, bt_get q (block_map p) = Some b -> exists b', In b' p /\ In q b'.
Proof.
  unfold block_map. intros q b. enough (K : forall m, bt_get q (fold_left (fun m b => fold_left (fun m q => bt_insert q b m) b m) p m) = Some b ->
    bt_get q m <> None \/ exists b', In b' p /\ In q b') by (intro H; destruct (K _ H) as [X|X]; [now elim X|exact X]).
  induction p as [|b0 p IH]; intros m H; [left; cbn in H; congruence|]. cbn [fold_left] in H. apply IH in H as [H|(b' & I & X)]; [|right; exists b'; split; [now right|exact X]].
  assert (J : forall l m, bt_get q (fold_left (fun m q => bt_insert q b0 m) l m) <> None -> bt_get q m <> None \/ In q l).
  { clear -LQ. induction l as [|x l IH]; intros m H; [now left|]. cbn [fold_left] in H. apply IH in H as [H|H]; [|right; now right].
    rewrite bt_insert_get in H. destruct (eqb_spec q x) as [->|]; [right; now left|now left]. }
  apply J in H as [H|H]; [now left|]. right. exists b0. split; [now left|exact H].
Qed.

(** With these blocks, [minimize] succeeds exactly if all the sources of the transitions are reachable: otherwise [map[source]] panics. *)
Theorem C113_minimize_succeeds fuel m : partition fuel d f = Ok m ->
  (exists fuel' mini, minimize fuel' d (blocks m) = Ok mini) <-> forall q l r, d_edge d q l r -> reachable q.
Proof.
  intro H. destruct (C113_partition fuel m H) as [PO _]. split.
  - intros (fuel' & mini & M) q l r ED. unfold minimize in M. apply bind_Ok in M as (p & LO & M). apply bind_Ok in M as (i & _ & M).
    assert (I : In (q, (l, r)) (triples d)).
    { destruct ED as (ts & I1 & I2). apply in_flat_map. exists (q, ts). split; [exact I1|]. apply in_map_iff. exists (l, r). auto. }
    assert (B : forall ls res mini, minimize_transitions (block_map p) ls res = Ok mini -> In (q, (l, r)) ls -> exists b, bt_get q (block_map p) = Some b).
    { clear. induction ls as [|[s [lb t]] ls IH]; intros res mini M I; [destruct I|]. cbn [minimize_transitions] in M. apply bind_Ok in M as (b & B & M).
      apply bind_Ok in M as (b' & _ & M). destruct I as [E|I]; [|eauto]. injection E as -> -> ->. unfold block_of, unwrap in B.
      destruct (bt_get q (block_map p)); [eauto|discriminate]. }
    destruct (B _ _ _ M I) as [b G]. apply block_map_within in G as (b' & I' & X).
    assert (W0 : within (set_collect (blocks m)) (blocks m)) by (intros b0 x0 I0 X0; rewrite set_collect_In in I0; eauto).
    destruct (loop_within (blocks m) fuel' _ _ p W0 LO b' q I' X) as (b0 & I0 & X0).
    apply (po_cover _ _ PO). eauto.
  - intros RE. destruct (C36_minimize_total d (fun q => reachable q) (blocks m) Wd PO) as [bound T]; [apply rt_refl| |].
    + intros q l r ED. pose proof (RE _ _ _ ED) as R. split; [exact R|]. eapply rt_trans; [exact R|]. apply rt_step. now exists l.
    + exists bound. apply T. lia.
Qed.

(** If they are, the result is deterministic and reads the same language, with the states that contain a final one as final states (the code sets
    none, see [C36_minimize_refuted]), provided that the classes separate the final states. *)
Theorem C113_minimize_partial {C} (has : L -> C -> Prop) fuel fuel' m mini : partition fuel d f = Ok m -> minimize fuel' d (blocks m) = Ok mini ->
  deterministic has d -> (forall q r, f q = f r -> In q (d_final d) -> In r (d_final d)) ->
  deterministic has mini /\
  (forall w, d_accepts has d w <-> exists b, d_run has mini (d_initial mini) w b /\ exists q, In q b /\ In q (d_final d)) /\
  forall w w' q q' b b', label_run d (d_initial d) w q -> label_run mini (d_initial mini) w b ->
    label_run d (d_initial d) w' q' -> label_run mini (d_initial mini) w' b' -> (b = b' <-> indistinguishable d (blocks m) q q').
Proof.
  intros H M D SEP. destruct (C113_partition fuel m H) as [PO SAME].
  assert (RE : forall q l r, d_edge d q l r -> reachable q) by (apply (proj1 (C113_minimize_succeeds fuel m H)); eauto).
  assert (UE : forall q l r, d_edge d q l r -> reachable q /\ reachable r).
  { intros q l r ED. pose proof (RE _ _ _ ED) as R. split; [exact R|]. eapply rt_trans; [exact R|]. apply rt_step. now exists l. }
  destruct (C36_language_partial d (fun q => reachable q) (blocks m) Wd PO ltac:(apply rt_refl) UE has fuel' mini D) as [A B]; [|exact M|].
  - intros b x y I X Y. apply SEP. apply SAME; [apply (po_cover _ _ PO); eauto|apply (po_cover _ _ PO); eauto|eauto].
  - split; [exact A|]. split; [exact B|]. intros. eapply (C36_minimal d (fun q => reachable q) (blocks m)); eauto. apply rt_refl.
Qed.
End Minimize.
