(** * Determinization terminates *)

From Coq Require Import String List Bool Arith NArith Lia Sorted Relations.
Import ListNotations.
From Verif Require Import Base BaseProofs Orders CharModel AutomatonModel AutomatonSpec AutomatonProofs AutomatonDet.
Open Scope list_scope.

(** The sublists of a list. *)
Fixpoint sublists {A} (l : list A) : list (list A) :=
  match l with [] => [[]] | x :: l => map (cons x) (sublists l) ++ sublists l end.

Lemma sorted_sublist {A} `{CmpLaws A} (v : list A) : StronglySorted lt v ->
  forall s, StronglySorted lt s -> (forall x, In x s -> In x v) -> In s (sublists v).
Proof.
  induction 1 as [|x v Sv IH Fx]; intros s Ss Hs.
  - destruct s as [|y s]; [now left|]. destruct (Hs y); now left.
  - cbn [sublists]. apply in_or_app. destruct Ss as [|y s Ss Fy].
    + right. apply IH; [constructor|intros ? []].
    + destruct (Hs y (or_introl eq_refl)) as [->|Hy].
      * left. apply in_map. apply IH; [exact Ss|]. intros z Hz. destruct (Hs z (or_intror Hz)) as [<-|Hz']; [|exact Hz'].
        rewrite Forall_forall in Fy. exfalso. eapply lt_irrefl. now apply Fy.
      * right. apply IH; [now constructor|]. rewrite Forall_forall in Fx, Fy. intros z [<-|Hz]; [exact Hy|].
        destruct (Hs z (or_intror Hz)) as [<-|Hz']; [|exact Hz']. exfalso. apply (lt_irrefl x).
        eapply lt_trans; [apply Fx; exact Hy|now apply Fy].
Qed.

Section Term.
Context {Q : Type} {CQ : Cmp Q} {LQ : CmpLaws Q}.
Variable a : nfa Q.
Hypothesis W : nfa_wf a.

Definition all_states : list Q :=
  n_initial a ++ flat_map (fun x : Q * transitions Q => fst x :: flat_map snd (snd x)) (n_transitions a).

Lemma edge_states q l q' : n_edge a q l q' -> In q' all_states.
Proof.
  intros (ts & qs & H1 & H2 & H3). apply in_or_app. right. apply in_flat_map. exists (q, ts). split; [exact H1|]. right.
  apply in_flat_map. now exists (l, qs).
Qed.

Lemma mono_closure f f' qs s : f <= f' -> modulo_epsilon_state f a qs = Ok s -> modulo_epsilon_state f' a qs = Ok s.
Proof.
  unfold modulo_epsilon_state. intros L H. apply bind_Ok in H as (r & H & E).
  rewrite (explore_mono _ _ _ _ _ _ _ L H). exact E.
Qed.

Lemma mono_extend f f' ts : f <= f' -> forall cur s, extend_closures f a cur ts = Ok s -> extend_closures f' a cur ts = Ok s.
Proof.
  intro L. induction ts as [|t ts IH]; intros cur s H; [exact H|]. cbn [extend_closures] in *.
  apply bind_Ok in H as (c & Hc & H). rewrite (mono_closure _ _ _ _ L Hc). now apply IH.
Qed.

Lemma mono_label f f' ts rs : f <= f' -> forall m m', determinize_label f a rs ts m = Ok m' -> determinize_label f' a rs ts m = Ok m'.
Proof.
  intro L. induction rs as [|r rs IH]; intros m m' H; [exact H|]. cbn [determinize_label] in *.
  apply bind_Ok in H as (c & Hc & H). rewrite (mono_extend _ _ _ L _ _ Hc). cbn [bind].
  destruct (snd r <? fst r)%N; [discriminate|]. now apply IH.
Qed.

Lemma mono_labels f f' ts : f <= f' -> forall m m', determinize_labels f a ts m = Ok m' -> determinize_labels f' a ts m = Ok m'.
Proof.
  intro L. induction ts as [|[[l|] qs] ts IH]; intros m m' H; [exact H| |]; cbn [determinize_labels] in *; [|now apply IH].
  apply bind_Ok in H as (c & Hc & H). rewrite (mono_label _ _ _ _ L _ _ Hc). now apply IH.
Qed.

Lemma mono_states f f' ss : f <= f' -> forall m m', determinize_states f a ss m = Ok m' -> determinize_states f' a ss m = Ok m'.
Proof.
  intro L. induction ss as [|s ss IH]; intros m m' H; [exact H|]. cbn [determinize_states] in *.
  apply bind_Ok in H as (c & Hc & H).
  destruct (bt_get s (n_transitions a)) as [ts|]; [rewrite (mono_labels _ _ _ L _ _ Hc)|rewrite Hc]; now apply IH.
Qed.

(** One bound for all the closures. *)
Lemma closure_total qs : (forall q, In q qs -> In q all_states) -> exists fuel s, modulo_epsilon_state fuel a qs = Ok s.
Proof.
  intro Hqs. destruct (explore_total (E := Empty_set) (fun q : Q => q) (fun q => Ok (epsilon_successors a q, tt))
    (fun q => In q all_states) all_states) with (visited := @nil (Q * unit)) (stack := rev qs) as (fuel & r & Hr).
  - auto.
  - intros q _. eexists _, _. split; [reflexivity|]. apply Forall_forall. intros x Hx. apply (epsilon_edge a W) in Hx.
    eapply edge_states; exact Hx.
  - apply Forall_rev. now apply Forall_forall.
  - exists fuel. unfold modulo_epsilon_state. rewrite Hr. eexists; reflexivity.
Qed.

Lemma closures_total : exists fuel, forall q, In q all_states -> exists s, modulo_epsilon_state fuel a [q] = Ok s.
Proof.
  assert (H : forall l, (forall q, In q l -> In q all_states) ->
    exists fuel, forall q, In q l -> exists s, modulo_epsilon_state fuel a [q] = Ok s).
  { induction l as [|x l IH]; intro Hl; [exists 0; intros ? []|].
    destruct IH as (f1 & H1); [intros; apply Hl; now right|].
    destruct (closure_total [x]) as (f2 & s & H2); [intros q [<-|[]]; apply Hl; now left|].
    exists (max f1 f2). intros q [<-|Hq].
    - exists s. eapply mono_closure; [|exact H2]. lia.
    - destruct (H1 q Hq) as (s' & Hs'). exists s'. eapply mono_closure; [|exact Hs']. lia. }
  apply H. auto.
Qed.

Section Fuel.
Variable fc : nat.
Hypothesis HC : forall q, In q all_states -> exists s, modulo_epsilon_state fc a [q] = Ok s.

Lemma extend_total ts : (forall t, In t ts -> In t all_states) -> forall cur, exists s, extend_closures fc a cur ts = Ok s.
Proof.
  induction ts as [|t ts IH]; intros Ht cur; [eexists; reflexivity|]. cbn [extend_closures].
  destruct (HC t (Ht t (or_introl eq_refl))) as (c & ->). cbn [bind]. apply IH. intros; apply Ht; now right.
Qed.

Lemma label_total ts rs : (forall t, In t ts -> In t all_states) -> (forall r, In r rs -> (fst r <= snd r)%N) ->
  forall m, exists m', determinize_label fc a rs ts m = Ok m'.
Proof.
  intro Ht. induction rs as [|r rs IH]; intros Hr m; [eexists; reflexivity|]. cbn [determinize_label].
  destruct (extend_total ts Ht []) as (s & ->). cbn [bind].
  destruct (N.ltb_spec (snd r) (fst r)) as [L|L]; [specialize (Hr r (or_introl eq_refl)); lia|]. apply IH. intros; apply Hr; now right.
Qed.

Lemma labels_total q ts : In (q, ts) (n_transitions a) -> forall m, exists m', determinize_labels fc a ts m = Ok m'.
Proof.
  intro Hq. assert (K : forall l, (forall x, In x l -> In x ts) -> forall m, exists m', determinize_labels fc a l m = Ok m').
  { induction l as [|[[l|] qs] ls IH]; intros Hl m; [eexists; reflexivity| |]; cbn [determinize_labels].
    - destruct (label_total qs l) with (m := m) as (m1 & ->).
      + intros t Ht. apply (edge_states q (Some l)). exists ts, qs. split; [exact Hq|]. split; [|exact Ht]. apply Hl. now left.
      + intros r Hr. destruct (proj2 W _ _ Hq) as [_ HR]. apply (HR l qs); [|exact Hr]. apply Hl. now left.
      + cbn [bind]. apply IH. intros; apply Hl; now right.
    - apply IH. intros; apply Hl; now right. }
  apply K. auto.
Qed.

Lemma states_total ss : forall m, exists m', determinize_states fc a ss m = Ok m'.
Proof.
  induction ss as [|s ss IH]; intro m; [eexists; reflexivity|]. cbn [determinize_states].
  destruct (bt_get s (n_transitions a)) as [ts|] eqn:E; [|apply IH]. apply bt_get_In in E.
  destruct (labels_total _ _ E m) as (m1 & ->). apply IH.
Qed.
End Fuel.

Definition det_visit (fuel : nat) (s : list Q) : res (list (list Q) * (bool * list ((N * N) * list Q))) :=
  let* m := determinize_transitions_for fuel a s in
  Ok (map snd m, (existsb (fun q => mem q (n_final a)) s, m)).

Lemma eps_states q r : In q all_states -> eps a q r -> In r all_states.
Proof.
  intros H E. revert H. apply (closed_reaches _ (fun q => In q all_states)) with (2 := E).
  intros x y _ He. eapply edge_states; exact He.
Qed.

Theorem det_total : exists bound, forall fuel, bound <= fuel -> exists d, determinize fuel a = Ok d.
Proof.
  destruct closures_total as (fc & HC). destruct (closure_total (n_initial a)) as (fi & init & HI).
  { intros q Hq. apply in_or_app. now left. }
  pose (P := fun s : list Q => StronglySorted lt s /\ forall q, In q s -> In q all_states).
  assert (HP : forall s, P s -> exists l b, det_visit fc s = Ok (l, b) /\ Forall P l).
  { intros s _. unfold det_visit, determinize_transitions_for.
    destruct (states_total fc HC s []) as (m & Hm). rewrite Hm. cbn [bind].
    apply (states_spec a W) in Hm as [G Hm]; [|split; [exact Logic.I|intros ? ? []]].
    eexists _, _. split; [reflexivity|]. apply Forall_forall. intros s' Hs'.
    apply in_map_iff in Hs' as ([r s1] & <- & Hs'). apply collect_elim in Hs'; [|eapply rm_from_NoDup; apply G].
    split; [eapply G; exact Hs'|]. cbn [snd]. intros q Hq.
    assert (Ei : image m (fst r) = s1).
    { unfold image. assert (rm_get (fst r) m = Some s1) as ->; [|reflexivity]. apply (rm_get_In m 0); [apply G|].
      exists r. split; [exact Hs'|]. assert (forall k (m : range_map (list Q)), rm_from k m -> In (r, s1) m -> (fst r <= snd r)%N) as HF.
      { clear. intros k m. revert k. induction m as [|[[a b] v] m IH]; intros k W H; [destruct H|].
        destruct W as (W1 & W2 & W3). destruct H as [[= <- <-]|H]; [exact W2|eauto]. }
      specialize (HF _ _ (proj1 G) Hs'). split; lia. }
    rewrite <- Ei in Hq. apply Hm in Hq as [[]|(p & l & t & Hp & He & Hl & Ht)].
    eapply eps_states; [|exact Ht]. eapply edge_states; exact He. }
  assert (Pi : Forall P [init]).
  { constructor; [|constructor]. apply (closure_spec a W) in HI as [Si Hi]. split; [exact Si|].
    intros q Hq. apply Hi in Hq as (i & Hi' & He). eapply eps_states; [|exact He]. apply in_or_app. now left. }
  destruct (explore_total (fun s : list Q => s) (det_visit fc) P (sublists (set_collect all_states)))
    with (visited := @nil (list Q * (bool * list ((N * N) * list Q)))) (stack := [init]) as (fe & r & Hr).
  - intros s [S1 S2]. apply sorted_sublist; [apply set_collect_sorted|exact S1|].
    intros x Hx. apply set_collect_In. auto.
  - exact HP.
  - exact Pi.
  - exists (max fi (max fc fe)). intros fuel L. unfold determinize.
    rewrite (mono_closure fi fuel _ _ ltac:(lia) HI). cbn [bind].
    fold (det_visit fuel). change (fun s : list Q =>
      let* m := determinize_transitions_for fuel a s in
      Ok (map snd m, (existsb (fun q => mem q (n_final a)) s, m))) with (det_visit fuel).
    rewrite (explore_ext (fun s : list Q => s) (det_visit fuel) (det_visit fc) P).
    + assert (Hr2 := explore_mono (CK := cmp_list) (fun s : list Q => s) (det_visit fc) fe fuel [init] [] r ltac:(lia) Hr). rewrite Hr2. cbn [bind]. eexists; reflexivity.
    + intros s Ps. destruct (HP s Ps) as (l & b & H1 & H2). exists l, b. split; [|auto].
      unfold det_visit, determinize_transitions_for in *. apply bind_Ok in H1 as (x & H1 & E). apply bind_Ok in H1 as (m & H1 & E1).
      rewrite (mono_states fc fuel _ ltac:(lia) _ _ H1). cbn [bind]. injection E1 as <-. exact E.
    + exact Pi.
Qed.
End Term.

(** ** The automata built through the API are well formed *)
Section Built.
Context {Q : Type} {CQ : Cmp Q} {LQ : CmpLaws Q}.

(** A set of non empty ranges: all the values of type [CharSet] are. *)
Definition label_ok (l : option charset) : Prop :=
  match l with Some s => forall r, In r s -> (fst r <= snd r)%N | None => True end.

Lemma entry_or {K V} `{CmpLaws K} (P : V -> Prop) k d (m : list (K * V)) :
  (forall v, In (k, v) m -> P v) -> P d -> P (entry k d m).
Proof.
  intros H1 H2. unfold entry. destruct (bt_get k m) as [v|] eqn:E; [|exact H2]. apply H1. now apply bt_get_In.
Qed.

Lemma nfa_new_wf : nfa_wf (@nfa_new Q).
Proof. split; [constructor|intros ? ? []]. Qed.

Lemma declare_wf q (a : nfa Q) : nfa_wf a -> nfa_wf (declare_state q a).
Proof.
  intros [W1 W2]. split; [now apply bt_insert_wf|]. cbn [declare_state n_transitions]. intros q' ts H.
  apply (bt_insert_In (n_transitions a)) in H; [|exact W1]. destruct H as [[-> ->]|[_ H]]; [|eauto].
  apply (entry_or (fun ts : transitions Q => bt_wf ts /\ forall s qs r, In (Some s, qs) ts -> In r s -> (fst r <= snd r)%N)).
  - exact (fun ts H => W2 q ts H).
  - split; [constructor|intros ? ? ? []].
Qed.

Lemma nfa_add_wf s l t (a : nfa Q) : label_ok l -> nfa_wf a -> nfa_wf (nfa_add s l t a).
Proof.
  intros OK W. apply (declare_wf t) in W. unfold nfa_add. set (b := declare_state t a) in *. clearbody b. destruct W as [W1 W2].
  split; [now apply bt_insert_wf|]. cbn [n_transitions]. intros q' ts H.
  apply (bt_insert_In (n_transitions b)) in H; [|exact W1]. destruct H as [[-> ->]|[_ H]]; [|eauto].
  assert (K : bt_wf (entry s [] (n_transitions b)) /\ forall cs qs r, In (Some cs, qs) (entry s [] (n_transitions b)) -> In r cs -> (fst r <= snd r)%N).
  { apply (entry_or (fun ts : transitions Q => bt_wf ts /\ forall s qs r, In (Some s, qs) ts -> In r s -> (fst r <= snd r)%N)).
    - exact (fun ts H => W2 s ts H).
    - split; [constructor|intros ? ? ? []]. }
  destruct K as [K1 K2]. split; [now apply bt_insert_wf|]. intros cs qs r H Hr.
  apply (bt_insert_In _) in H; [|exact K1]. destruct H as [[<- _]|[_ H]]; [exact (OK r Hr)|eauto].
Qed.

Lemma add_initial_wf q (a : nfa Q) : nfa_wf a -> nfa_wf (add_initial_state q a).
Proof. exact (fun W => W). Qed.
Lemma add_final_wf q (a : nfa Q) : nfa_wf a -> nfa_wf (add_final_state q a).
Proof. exact (fun W => W). Qed.
End Built.
