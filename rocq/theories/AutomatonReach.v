(** * Enumeration of the states, compression: lemmas *)

From Coq Require Import String List Bool Arith NArith Lia Sorted Relations.
Import ListNotations.
From Verif Require Import Base BaseProofs Orders CharModel AutomatonModel AutomatonSpec AutomatonProofs AutomatonDet
  AutomatonTerm AutomatonProduct.
Open Scope list_scope.

Section Reach.
Context {Q L : Type} {CQ : Cmp Q} {CL : Cmp L} {LQ : CmpLaws Q} {LL : CmpLaws L}.
Variable d : dfa Q L.
Hypothesis Wd : bt_wf (d_transitions d).

Definition d_step (q q' : Q) : Prop := exists l, d_edge d q l q'.

Lemma step_successors q q' : d_step q q' <-> In q' (map snd (dfa_successors d q)).
Proof.
  unfold d_step. rewrite in_map_iff. split.
  - intros (l & H). apply (dfa_edge_successors d _ _ _ Wd) in H. now exists (l, q').
  - intros ([l r] & <- & H). exists l. now apply (dfa_edge_successors d _ _ _ Wd).
Qed.

(** ** [reachable_states_from] *)
Lemma reachable_spec fuel q l : reachable_states_from fuel d q = Ok l ->
  NoDup l /\ forall r, In r l <-> d_reaches d q r.
Proof.
  unfold reachable_states_from. intro H. apply bind_Ok in H as (new & H & [= <-]).
  apply explore_spec in H as (new' & -> & ND & HS & HN). cbn [app] in *. split; [apply ND; constructor|]. intro r. split.
  - intro H. apply in_map_iff in H as ([k b] & <- & H). apply HN in H as (x & l & <- & _ & (x0 & [<-|[]] & R) & _). cbn [fst].
    eapply clos_ext; [|exact R]. intros y z (l' & b' & [= <- <-] & Hz). now apply step_successors.
  - intro R. apply (closed_reaches _ (fun r => In r (map fst new'))) with (2 := R); [|apply HS; now left].
    intros x y Hx Hy. apply in_map_iff in Hx as ([k b] & <- & Hx). apply HN in Hx as (x & l & <- & [= <- <-] & _ & HX).
    cbn [fst] in Hy. apply HX. now apply step_successors.
Qed.

Definition d_universe (q : Q) : list Q := q :: flat_map (fun x => map snd (snd x)) (d_transitions d).

Lemma step_universe q q' r : d_step q' r -> In r (d_universe q).
Proof.
  intros (l & ts & H1 & H2). right. apply in_flat_map. exists (q', ts). split; [exact H1|]. apply in_map_iff. now exists (l, r).
Qed.

Lemma reachable_total q : exists bound, forall fuel, bound <= fuel -> exists l, reachable_states_from fuel d q = Ok l.
Proof.
  destruct (explore_total (E := Empty_set) (fun q : Q => q) (fun q => Ok (map snd (entry q [] (d_transitions d)), tt))
    (fun r => In r (d_universe q)) (d_universe q)) with (visited := @nil (Q * unit)) (stack := [q]) as (fe & r & Hr).
  - auto.
  - intros r _. eexists _, _. split; [reflexivity|]. apply Forall_forall. intros x Hx. apply (step_universe q r).
    now apply step_successors.
  - constructor; [now left|constructor].
  - exists fe. intros fuel Lf. unfold reachable_states_from. rewrite (explore_mono _ _ _ _ _ _ _ Lf Hr). eexists; reflexivity.
Qed.

(** ** [select_states] *)
Variable f : Q -> bool.

Definition select_succ (fuel : nat) : list (L * Q) -> list Q * list Q -> res (list Q * list Q) :=
  fix go (ts : list (L * Q)) (st : list Q * list Q) : res (list Q * list Q) :=
    match ts with
    | [] => Ok st
    | (_, r) :: ts' => let* st := select_states_from fuel d f r st in go ts' st
    end.

Lemma select_step fuel q visited set : select_states_from (Datatypes.S fuel) d f q (visited, set) =
  if mem q visited then Ok (visited, set)
  else select_succ fuel (dfa_successors d q) (q :: visited, if f q then set_insert q set else set).
Proof. reflexivity. Qed.

(** What a call does; [p]: what it was called on. *)
Record select_post (p : Q -> Prop) (st st' : list Q * list Q) : Prop := {
  sp_incl : forall x, In x (fst st) -> In x (fst st');
  sp_reach : forall x, In x (fst st') -> In x (fst st) \/ exists q, p q /\ d_reaches d q x;
  sp_closed : forall x y, In x (fst st') -> ~ In x (fst st) -> d_step x y -> In y (fst st');
  sp_set : forall x, In x (snd st') <-> In x (snd st) \/ (In x (fst st') /\ ~ In x (fst st) /\ f x = true);
  sp_sorted : StronglySorted lt (snd st) -> StronglySorted lt (snd st')
}.

Lemma In_dec_Q (x : Q) l : In x l \/ ~ In x l.
Proof. destruct (mem x l) eqn:E; [left; now apply mem_In|right]. intro H. apply mem_In in H. congruence. Qed.

Lemma select_post_trans (p p1 p2 : Q -> Prop) st st1 st2 : (forall q, p1 q -> p q) -> (forall q, p2 q -> p q) ->
  select_post p1 st st1 -> select_post p2 st1 st2 -> select_post p st st2.
Proof.
  intros P1 P2 [A1 A2 A3 A4 A5] [B1 B2 B3 B4 B5]. constructor.
  - auto.
  - intros x H. apply B2 in H as [H|(q & Hq & R)]; [|eauto]. apply A2 in H as [H|(q & Hq & R)]; eauto.
  - intros x y H1 H2 H3. destruct (In_dec_Q x (fst st1)) as [K|K]; [|eauto]. apply B1. eauto.
  - intro x. rewrite B4, A4. split.
    + intros [[H|(H1 & H2 & H3)]|(H1 & H2 & H3)]; [auto|right; auto|]. right. split; [exact H1|]. split; [|exact H3]. auto.
    + intros [H|(H1 & H2 & H3)]; [auto|]. destruct (In_dec_Q x (fst st1)) as [K|K]; [left; right; auto|right; auto].
  - auto.
Qed.

Lemma select_spec fuel : forall q st st', select_states_from fuel d f q st = Ok st' ->
  select_post (fun x => x = q) st st' /\ In q (fst st').
Proof.
  induction fuel as [|fuel IH]; intros q [vis set] st' H; [discriminate|]. rewrite select_step in H.
  destruct (mem q vis) eqn:Em.
  - injection H as <-. apply mem_In in Em. split; [|exact Em]. constructor; cbn [fst snd]; try tauto; intros x; tauto.
  - assert (Nq : ~ In q vis) by (intro K; apply mem_In in K; congruence).
    assert (KS : forall ts st st', select_succ fuel ts st = Ok st' ->
      select_post (fun x => In x (map snd ts)) st st' /\ forall x, In x (map snd ts) -> In x (fst st')).
    { clear -IH LQ. induction ts as [|[l r] ts IHt]; intros st st' H.
      - injection H as <-. split; [|intros ? []]. constructor; try tauto; intros x; tauto.
      - change (select_succ fuel ((l, r) :: ts) st) with (let* st := select_states_from fuel d f r st in select_succ fuel ts st) in H.
        apply bind_Ok in H as (st1 & H1 & H). apply IH in H1 as [A1 A2]. apply IHt in H as [B1 B2]. split.
        + eapply select_post_trans; [| |exact A1|exact B1]; cbn [map snd]; [intros ? ->; now left|intros; now right].
        + intros x [<-|Hx]; [|auto]. apply (sp_incl _ _ _ B1). exact A2. }
    apply KS in H as [[B1 B2 B3 B4 B5] B6]. cbn [fst snd] in *.
    assert (Hq' : In q (fst st')) by (apply B1; now left). split; [|exact Hq']. constructor; cbn [fst snd].
    + intros x Hx. apply B1. now right.
    + intros x Hx. apply B2 in Hx as [[<-|Hx]|(r & Hr & R)]; [right; exists q; split; [reflexivity|apply rt_refl]|auto|].
      right. exists q. split; [reflexivity|]. eapply rt_trans; [apply rt_step; apply step_successors; exact Hr|exact R].
    + intros x y H1 H2 H3. destruct (eqb_spec x q) as [->|N]; [apply B6; now apply step_successors|]. apply (B3 x); [exact H1| |exact H3].
      intros [->|K]; contradiction.
    + intro x. rewrite B4. clear B4. destruct (f q) eqn:Ef.
      * rewrite set_insert_In. split.
        -- intros [[->|H]|(H1 & H2 & H3)]; [auto|auto|]. right. split; [exact H1|]. split; [|exact H3]. intro K. apply H2. now right.
        -- intros [H|(H1 & H2 & H3)]; [auto|]. destruct (eqb_spec x q) as [->|N]; [auto|]. right. split; [exact H1|]. split; [|exact H3].
           intros [->|K]; contradiction.
      * split.
        -- intros [H|(H1 & H2 & H3)]; [auto|]. right. split; [exact H1|]. split; [|exact H3]. intro K. apply H2. now right.
        -- intros [H|(H1 & H2 & H3)]; [auto|]. right. split; [exact H1|]. split; [|exact H3]. intros [->|K]; [congruence|contradiction].
    + intro S1. apply B5. destruct (f q); [now apply set_insert_sorted|exact S1].
Qed.

Lemma select_states_spec fuel l : select_states fuel d f = Ok l ->
  StronglySorted lt l /\ forall q, In q l <-> d_reaches d (d_initial d) q /\ f q = true.
Proof.
  unfold select_states. intro H. apply bind_Ok in H as ([vis set] & H & [= <-]).
  apply select_spec in H as [[B1 B2 B3 B4 B5] B6]. cbn [fst snd] in *. split; [apply B5; constructor|]. intro q. rewrite B4. split.
  - intros [[]|(H1 & _ & H3)]. split; [|exact H3]. apply B2 in H1 as [[]|(r & -> & R)]. exact R.
  - intros [R H3]. right. split; [|split; [intros []|exact H3]].
    apply (closed_reaches _ (fun r => In r vis)) with (2 := R); [|exact B6]. intros x y Hx Hy. eapply B3; [exact Hx|intros []|exact Hy].
Qed.

(** Termination *)
Definition fresh (U visited : list Q) : nat := length (filter (fun q => negb (mem q visited)) U).

Lemma fresh_le U v v' : (forall x, In x v -> In x v') -> fresh U v' <= fresh U v.
Proof.
  intro H. induction U as [|u U IH]; [apply Nat.le_refl|]. unfold fresh in *. cbn [filter].
  destruct (mem u v) eqn:E1, (mem u v') eqn:E2; cbn [negb length]; try lia.
  apply mem_In, H, mem_In in E1. congruence.
Qed.

Lemma fresh_lt U v q : In q U -> ~ In q v -> fresh U (q :: v) < fresh U v.
Proof.
  intros HU Nq. induction U as [|u U IH]; [destruct HU|]. unfold fresh. cbn [filter mem].
  assert (LE := fresh_le U v (q :: v) (fun x H => or_intror H)). unfold fresh in *. cbn [filter mem] in *. destruct HU as [->|HU].
  - rewrite eqb_refl. cbn [orb negb]. destruct (mem q v) eqn:E; [apply mem_In in E; contradiction|]. cbn [negb length]. lia.
  - specialize (IH HU). destruct (eqb u q); cbn [orb negb]; destruct (mem u v); cbn [negb length]; lia.
Qed.

Lemma select_total U n : (forall q r, In q U -> d_step q r -> In r U) ->
  forall fuel q st, n < fuel -> fresh U (fst st) <= n -> In q U -> exists st', select_states_from fuel d f q st = Ok st'.
Proof.
  intro CU. induction n as [n IHn] using lt_wf_ind. intros fuel q [vis set] Lf Hn HU. destruct fuel as [|fuel]; [lia|].
  rewrite select_step. destruct (mem q vis) eqn:Em; [eauto|].
  assert (Nq : ~ In q vis) by (intro K; apply mem_In in K; congruence). cbn [fst] in Hn.
  assert (Hlt := fresh_lt U vis q HU Nq).
  assert (KS : forall ts, (forall x, In x ts -> In x (dfa_successors d q)) -> forall st,
    fresh U (fst st) <= fresh U (q :: vis) -> exists st', select_succ fuel ts st = Ok st').
  { induction ts as [|[l r] ts IHt]; intros Ht st Hst; [eexists; reflexivity|].
    change (select_succ fuel ((l, r) :: ts) st) with (let* st := select_states_from fuel d f r st in select_succ fuel ts st).
    destruct (IHn (fresh U (q :: vis)) ltac:(lia) fuel r st ltac:(lia) Hst) as (st1 & H1).
    { apply (CU q); [exact HU|]. apply step_successors. apply in_map_iff. exists (l, r). split; [reflexivity|]. apply Ht. now left. }
    rewrite H1. cbn [bind]. apply IHt; [intros; apply Ht; now right|]. apply select_spec in H1 as [[B1 _ _ _ _] _].
    assert (X := fresh_le U _ _ B1). lia. }
  apply KS; [auto|]. cbn [fst]. lia.
Qed.

Lemma select_states_total : exists bound, forall fuel, bound <= fuel -> exists l, select_states fuel d f = Ok l.
Proof.
  pose (U := d_universe (d_initial d)). exists (Datatypes.S (fresh U [])). intros fuel Lf.
  destruct (select_total U (fresh U [])) with (fuel := fuel) (q := d_initial d) (st := (@nil Q, @nil Q)) as (st & Hst).
  - intros q r _. apply step_universe.
  - lia.
  - apply Nat.le_refl.
  - now left.
  - unfold select_states. rewrite Hst. eexists; reflexivity.
Qed.
End Reach.

(** ** [compress] *)
Section Compress.
Context {Q L M C : Type} {CQ : Cmp Q} {CL : Cmp L} {CM : Cmp M} {LQ : CmpLaws Q} {LM : CmpLaws M}.
Variable default : M.
Variable append : M -> L -> M.
Variable has : L -> C -> Prop.
(** The words denoted by a compact label. *)
Variable reads : M -> list C -> Prop.
Hypothesis READ0 : forall w, reads default w <-> w = [].
Hypothesis READ1 : forall m l w, reads (append m l) w <-> exists w0 c, w = w0 ++ [c] /\ reads m w0 /\ has l c.
Variable d : dfa Q L.
Hypothesis Wd : bt_wf (d_transitions d).

Lemma d_run_app (dd : dfa Q L) q w1 r w2 s : d_run has dd q w1 r -> d_run has dd r w2 s -> d_run has dd q (w1 ++ w2) s.
Proof. induction 1; intros; simpl; eauto using dr_char. Qed.

Lemma d_run_snoc (dd : dfa Q L) q w r l c s : d_run has dd q w r -> d_edge dd r l s -> has l c -> d_run has dd q (w ++ [c]) s.
Proof. intros R H1 H2. eapply d_run_app; [exact R|]. eapply dr_char; [exact H1|exact H2|constructor]. Qed.

Lemma single_edge q l r : single_transition_of d q = Some (l, r) -> d_edge d q l r.
Proof.
  unfold single_transition_of. destruct (bt_get q (d_transitions d)) as [[|t [|]]|] eqn:E; try discriminate.
  intros [= ->]. exists [(l, r)]. split; [now apply bt_get_In|now left].
Qed.

(** Every transition of the result is a path. *)
Definition path_ok (q : Q) (ts : list (M * Q)) : Prop :=
  bt_wf ts /\ forall m r, In (m, r) ts -> forall w, reads m w -> d_run has d q w r.

Lemma insert_path q ts m r : path_ok q ts -> (forall w, reads m w -> d_run has d q w r) -> path_ok q (bt_insert m r ts).
Proof.
  intros [W H] H1. split; [now apply bt_insert_wf|]. intros m0 r0 H0. apply (proj1 (bt_insert_In _ _ _ _ _ W)) in H0 as [[-> ->]|[_ H0]]; eauto.
Qed.

Lemma chain_sound fuel : forall q compact r ts ts', compress_chain append fuel d compact r ts = Ok ts' ->
  path_ok q ts -> (forall w, reads compact w -> d_run has d q w r) -> path_ok q ts'.
Proof.
  induction fuel as [|fuel IH]; intros q compact r ts ts' H P HR; [discriminate|]. cbn [compress_chain] in H.
  destruct (single_transition_of d r) as [[l s]|] eqn:Es.
  - eapply IH; [exact H| |].
    + destruct (mem r (d_final d)); [now apply insert_path|exact P].
    + intros w Hw. apply READ1 in Hw as (w0 & c & -> & H0 & Hc). eapply d_run_snoc; [apply HR; exact H0|apply single_edge; exact Es|exact Hc].
  - injection H as <-. now apply insert_path.
Qed.

Lemma transitions_sound fuel q l : forall ts ts', (forall lb r, In (lb, r) l -> d_edge d q lb r) ->
  compress_transitions default append fuel d l ts = Ok ts' -> path_ok q ts -> path_ok q ts'.
Proof.
  induction l as [|[lb r] l IH]; intros ts ts' He H P; cbn [compress_transitions] in H; [injection H as <-; exact P|].
  apply bind_Ok in H as (ts1 & H1 & H). eapply IH; [intros; apply He; now right|exact H|].
  eapply chain_sound; [exact H1|exact P|]. intros w Hw. apply READ1 in Hw as (w0 & c & -> & H0 & Hc). apply READ0 in H0 as ->.
  eapply dr_char; [apply He; now left|exact Hc|constructor].
Qed.

Theorem compress_sound fuel c : compress default append fuel d = Ok c -> forall w, s_accepts reads c w -> d_accepts has d w.
Proof.
  unfold compress. intro H. apply bind_Ok in H as (ts & H & [= <-]).
  apply (transitions_sound fuel (d_initial d)) in H as [W P].
  - intros w (r & Hf & R). cbn [d_final d_initial] in *. exists r. split; [exact Hf|]. clear Hf.
    induction R as [q|q m q' w w' r (ts' & [[= <- <-]|[]] & He) Hw _ IH]; [constructor|]. eapply d_run_app; [eapply P; eassumption|exact IH].
  - intros lb r Hr. apply (dfa_edge_successors d _ _ _ Wd). exact Hr.
  - split; [constructor|intros ? ? []].
Qed.
End Compress.

(** Compact labels that are lists of labels, with [append] = [push]. *)
Section CompressLists.
Context {Q L C : Type} {CQ : Cmp Q} {CL : Cmp L} {LQ : CmpLaws Q} {LL : CmpLaws L}.
Variable has : L -> C -> Prop.
Variable d : dfa Q L.
Hypothesis Wd : dfa_wf d.
(** Only the initial state branches. *)
Hypothesis LEAF : forall q l r, d_edge d q l r -> single_transition_of d r = None -> forall l' r', ~ d_edge d r l' r'.

Local Notation push := (fun (m : list L) (l : L) => m ++ [l]).

Lemma push_reads m l w : Forall2 has (m ++ [l]) w <-> exists w0 c, w = w0 ++ [c] /\ Forall2 has m w0 /\ has l c.
Proof.
  split.
  - intro H. apply Forall2_app_inv_l in H as (w0 & w1 & H1 & H2 & ->). inversion H2 as [|? c ? w2 Hc H3]; subst. inversion H3; subst. eauto.
  - intros (w0 & c & -> & H1 & H2). apply Forall2_app; [exact H1|]. constructor; [exact H2|constructor].
Qed.

Lemma chain_keeps fuel : forall compact r ts ts', compress_chain push fuel d compact r ts = Ok ts' -> bt_wf ts ->
  bt_wf ts' /\ forall m x, In (m, x) ts -> (forall k, m <> compact ++ k) -> In (m, x) ts'.
Proof.
  induction fuel as [|fuel IH]; intros compact r ts ts' H W; [discriminate|]. cbn [compress_chain] in H.
  destruct (single_transition_of d r) as [[l s]|] eqn:Es.
  - assert (W1 : bt_wf (if mem r (d_final d) then bt_insert compact r ts else ts)) by (destruct (mem r _); [now apply bt_insert_wf|exact W]).
    destruct (IH _ _ _ _ H W1) as [W2 K]. split; [exact W2|]. intros m x Hm N. apply K.
    + destruct (mem r (d_final d)); [|exact Hm]. apply bt_insert_In; [exact W|]. right. split; [|exact Hm].
      intros ->. apply (N []). now rewrite app_nil_r.
    + intros k ->. apply (N (l :: k)). now rewrite <- app_assoc.
  - injection H as <-. split; [now apply bt_insert_wf|]. intros m x Hm N. apply bt_insert_In; [exact W|]. right. split; [|exact Hm].
    intros ->. apply (N []). now rewrite app_nil_r.
Qed.

Lemma single_unique r l s l' s' : single_transition_of d r = Some (l, s) -> d_edge d r l' s' -> l' = l /\ s' = s.
Proof.
  unfold single_transition_of. intros H (ts & H1 & H2). rewrite (bt_get_wf _ _ _ (proj1 Wd) H1) in H.
  destruct ts as [|t [|]]; try discriminate. injection H as ->. destruct H2 as [[= -> ->]|[]]. auto.
Qed.

Lemma chain_complete fuel : forall q lb compact r ts ts', compress_chain push fuel d compact r ts = Ok ts' -> bt_wf ts -> d_edge d q lb r ->
  forall w rf, d_run has d r w rf -> In rf (d_final d) -> exists k, In (compact ++ k, rf) ts' /\ Forall2 has k w.
Proof.
  induction fuel as [|fuel IH]; intros q lb compact r ts ts' H W He w rf R Hf; [discriminate|]. cbn [compress_chain] in H.
  destruct (single_transition_of d r) as [[l s]|] eqn:Es.
  - assert (W1 : bt_wf (if mem r (d_final d) then bt_insert compact r ts else ts)) by (destruct (mem r _); [now apply bt_insert_wf|exact W]).
    inversion R as [|? l' c s' w' ? He' Hc R']; subst.
    + exists []. rewrite app_nil_r. split; [|constructor]. apply mem_In in Hf. rewrite Hf in *.
      eapply chain_keeps; [exact H|exact W1| |].
      * apply bt_insert_In; [exact W|auto].
      * intros k E. rewrite <- app_assoc in E. rewrite <- (app_nil_r compact) in E at 1. apply app_inv_head in E. discriminate.
    + destruct (single_unique _ _ _ _ _ Es He') as [-> ->].
      destruct (IH r l _ _ _ _ H W1 He' _ _ R' Hf) as (k & K1 & K2). exists (l :: k). rewrite <- app_assoc in K1. split; [exact K1|].
      now constructor.
  - injection H as <-. inversion R as [|? l' c s' w' ? He' Hc R']; subst.
    + exists []. rewrite app_nil_r. split; [|constructor]. apply bt_insert_In; [exact W|auto].
    + exfalso. exact (LEAF _ _ _ He Es _ _ He').
Qed.

Lemma transitions_complete fuel q l : forall ts ts', (forall lb r, In (lb, r) l -> d_edge d q lb r) -> NoDup (map fst l) ->
  compress_transitions [] push fuel d l ts = Ok ts' -> bt_wf ts ->
  (forall m x, In (m, x) ts -> (forall lb k, In lb (map fst l) -> m <> lb :: k) -> In (m, x) ts') /\
  forall lb c r w rf, In (lb, r) l -> has lb c -> d_run has d r w rf -> In rf (d_final d) ->
    exists m, In (m, rf) ts' /\ Forall2 has m (c :: w).
Proof.
  induction l as [|[lb r] l IH]; intros ts ts' He ND H W; cbn [compress_transitions] in H.
  - injection H as <-. split; [auto|]. intros ? ? ? ? ? [].
  - apply bind_Ok in H as (ts1 & H1 & H). cbn [app] in H1. destruct (chain_keeps _ _ _ _ _ H1 W) as [W1 K1].
    inversion ND as [|? ? N1 N2]; subst.
    destruct (IH ts1 ts' (fun lb r H => He lb r (or_intror H)) N2 H W1) as [K2 K3]. split.
    + intros m x Hm N. apply K2; [apply K1; [exact Hm|]|].
      * intros k E. apply (N lb k (or_introl eq_refl) E).
      * intros lb' k Hl. apply N. now right.
    + intros lb' c r' w rf [[= <- <-]|Hl] Hc R Hf; [|eapply K3; eassumption].
      destruct (chain_complete _ q lb _ _ _ _ H1 W (He _ _ (or_introl eq_refl)) _ _ R Hf) as (k & K4 & K5). cbn [app] in K4.
      exists (lb :: k). split; [|constructor; assumption]. apply K2; [exact K4|]. intros lb2 k2 Hl [= -> _]. contradiction.
Qed.

Theorem compress_complete fuel c : compress [] push fuel d = Ok c ->
  forall w, d_accepts has d w -> s_accepts (Forall2 has) c w.
Proof.
  unfold compress. intro H. apply bind_Ok in H as (ts & H & [= <-]).
  assert (We : bt_wf (entry (d_initial d) [] (d_transitions d))).
  { apply (entry_or (fun ts : list (L * Q) => bt_wf ts)); [|constructor]. intros ts0 H0. exact (proj2 Wd _ _ H0). }
  assert (HE : forall lb r, In (lb, r) (entry (d_initial d) [] (d_transitions d)) -> d_edge d (d_initial d) lb r).
  { intros lb r Hr. apply (dfa_edge_successors d _ _ _ (proj1 Wd)). exact Hr. }
  destruct (transitions_complete fuel (d_initial d) _ [] ts HE) as [_ K].
  - clear -We LL. unfold bt_wf, keys in We. induction We as [|x l _ IH F]; [constructor|]. constructor; [|exact IH]. intro HI.
    rewrite Forall_forall in F. specialize (F x HI). eapply lt_irrefl; exact F.
  - exact H.
  - constructor.
  - intros w (rf & Hf & R). exists rf. split; [exact Hf|]. cbn [d_initial].
    inversion R as [|? lb c r w' ? He Hc R']; subst; [constructor|].
    apply (dfa_edge_successors d _ _ _ (proj1 Wd)) in He. destruct (K _ _ _ _ _ He Hc R' Hf) as (m & K1 & K2).
    rewrite <- (app_nil_r (c :: w')). eapply sr_label; [|exact K2|constructor]. eexists. split; [left; reflexivity|exact K1].
Qed.
End CompressLists.
