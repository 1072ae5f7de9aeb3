(** * Automata: witnesses and counter-examples *)

From Coq Require Import String List Bool Arith NArith Lia Sorted Relations.
Import ListNotations.
From Verif Require Import Base BaseProofs Orders CharModel CharSpec CharProofs AutomatonModel AutomatonSpec AutomatonProofs AutomatonDet
  AutomatonTerm AutomatonProduct AutomatonMap AutomatonReach AutomatonMin AutomatonProperties.
Open Scope list_scope.

Definition ca : charset := cs_char 97.
Definition cb : charset := cs_char 98.

Definition ok {E A} (d : A) (o : outcome E A) : A := match o with Ok x => x | _ => d end.

(** ** C33: [(a|b)*a] with an epsilon transition *)
Definition nfa1 : nfa nat :=
  add_final_state 2 (add_initial_state 0
    (nfa_add 1 (Some ca) 2 (nfa_add 0 None 1 (nfa_add 0 (Some cb) 0 (nfa_add 0 (Some ca) 0 nfa_new))))).

Lemma ca_good s : Some ca = Some s -> cs_good s.
Proof. intros [= <-]. apply cs_char_good. reflexivity. Qed.
Lemma cb_good s : Some cb = Some s -> cs_good s.
Proof. intros [= <-]. apply cs_char_good. reflexivity. Qed.

Lemma nfa1_wf : nfa_wf nfa1.
Proof.
  destruct (C33_well_formed (Q := nat)) as (W0 & _ & W2 & W3 & W4). unfold nfa1. apply W4, W3.
  apply W2; [|exact ca_good]. apply W2; [|discriminate]. apply W2; [|exact cb_good]. apply W2; [|exact ca_good]. exact W0.
Qed.

Definition det1 : dfa (list nat) (N * N) := ok (Dfa [] [] []) (determinize 100 nfa1).

Example C33_example : determinize 100 nfa1 = Ok det1 /\ length (d_transitions det1) = 2 /\
  n_accepts nfa1 [98%N; 97%N] /\ d_accepts range_has det1 [98%N; 97%N].
Proof.
  assert (E : determinize 100 nfa1 = Ok det1) by (vm_compute; reflexivity).
  assert (A : n_accepts nfa1 [98%N; 97%N]).
  { exists 0, 2. split; [vm_compute; tauto|]. split; [vm_compute; tauto|].
    apply (nr_char _ 0 cb 98%N 0); [eexists _, _; vm_compute; split; [left; reflexivity|]; split; [right; right; left; reflexivity|now left]|reflexivity|].
    apply (nr_epsilon _ 0 1); [eexists _, _; vm_compute; split; [left; reflexivity|]; split; [left; reflexivity|now left]|].
    apply (nr_char _ 1 ca 97%N 2); [eexists _, _; vm_compute; split; [right; left; reflexivity|]; split; [left; reflexivity|now left]|reflexivity|].
    constructor. }
  split; [exact E|]. split; [vm_compute; reflexivity|]. split; [exact A|].
  apply (proj2 (C33_determinize nfa1 100 det1 nfa1_wf E)). exact A.
Qed.

(** ** C34 *)

(** [a]: a single transition. *)
Definition nfa_a : nfa nat := add_final_state 1 (add_initial_state 0 (nfa_add 0 (Some ca) 1 nfa_new)).
(** The same language, after an epsilon transition. *)
Definition nfa_ea : nfa nat := add_final_state 2 (add_initial_state 0 (nfa_add 1 (Some ca) 2 (nfa_add 0 None 1 nfa_new))).
Definition prod_ea_a : nfa (nat * nat) := ok nfa_new (nfa_product nfa_ea nfa_a pair 100).
Definition prod_a_a : nfa (nat * nat) := ok nfa_new (nfa_product nfa_a nfa_a pair 100).

Lemma nfa_a_wf : nfa_wf nfa_a.
Proof. destruct (C33_well_formed (Q := nat)) as (W0 & _ & W2 & W3 & W4). apply W4, W3, W2; [exact W0|exact ca_good]. Qed.
Lemma nfa_ea_wf : nfa_wf nfa_ea.
Proof. destruct (C33_well_formed (Q := nat)) as (W0 & _ & W2 & W3 & W4). apply W4, W3, W2; [apply W2; [exact W0|discriminate]|exact ca_good]. Qed.
Lemma nfa_a_good : labels_good nfa_a.
Proof.
  destruct (C33_well_formed (Q := nat)) as (W0 & _ & W2 & _). destruct (C34_labels_good (Q := nat)) as (G0 & _ & G2).
  exact (G2 nfa_new 0 (Some ca) 1 W0 G0 ca_good).
Qed.
Lemma nfa_ea_good : labels_good nfa_ea.
Proof.
  destruct (C33_well_formed (Q := nat)) as (W0 & _ & W2 & _). destruct (C34_labels_good (Q := nat)) as (G0 & _ & G2).
  assert (K : forall s : charset, @None charset = Some s -> cs_good s) by discriminate.
  exact (G2 (nfa_add 0 None 1 nfa_new) 1 (Some ca) 2 (W2 nfa_new 0 None 1 W0 K) (G2 nfa_new 0 None 1 W0 G0 K) ca_good).
Qed.
Lemma nfa_a_free : epsilon_free nfa_a.
Proof.
  intros q q' (ts & qs & H1 & H2 & _). vm_compute in H1. destruct H1 as [[= <- <-]|[[= <- <-]|[]]]; vm_compute in H2.
  - destruct H2 as [[=]|[]].
  - destruct H2.
Qed.

Lemma a_accepts : n_accepts nfa_a [97%N].
Proof.
  exists 0, 1. split; [vm_compute; tauto|]. split; [vm_compute; tauto|].
  apply (nr_char _ 0 ca 97%N 1); [eexists _, _; vm_compute; split; [left; reflexivity|]; split; [left; reflexivity|now left]|reflexivity|constructor].
Qed.
Lemma ea_accepts : n_accepts nfa_ea [97%N].
Proof.
  exists 0, 2. split; [vm_compute; tauto|]. split; [vm_compute; tauto|].
  apply (nr_epsilon _ 0 1); [eexists _, _; vm_compute; split; [left; reflexivity|]; split; [left; reflexivity|now left]|].
  apply (nr_char _ 1 ca 97%N 2); [eexists _, _; vm_compute; split; [right; left; reflexivity|]; split; [left; reflexivity|now left]|reflexivity|constructor].
Qed.

Example C34_example : nfa_product nfa_a nfa_a pair 100 = Ok prod_a_a /\ n_accepts prod_a_a [97%N].
Proof.
  assert (E : nfa_product nfa_a nfa_a pair 100 = Ok prod_a_a) by (vm_compute; reflexivity). split; [exact E|].
  refine (C34_product_complete_partial nfa_a nfa_a pair 100 prod_a_a _ nfa_a_wf nfa_a_wf nfa_a_good nfa_a_good nfa_a_free nfa_a_free E _ _ a_accepts a_accepts).
  - intros ? ? ? ? [= -> ->]. auto.
  - constructor; [reflexivity|constructor].
Qed.

(** With an epsilon transition in one of the automata, the product misses words: an epsilon transition is only followed if the other automaton also
    has one. *)
Theorem C34_product_refuted : exists (a b : nfa nat) (p : nfa (nat * nat)) w,
  nfa_wf a /\ nfa_wf b /\ labels_good a /\ labels_good b /\ chars w /\ nfa_product a b pair 100 = Ok p /\
  n_accepts a w /\ n_accepts b w /\ ~ n_accepts p w.
Proof.
  exists nfa_ea, nfa_a, prod_ea_a, [97%N].
  split; [exact nfa_ea_wf|]. split; [exact nfa_a_wf|]. split; [exact nfa_ea_good|]. split; [exact nfa_a_good|].
  split; [constructor; [reflexivity|constructor]|]. split; [vm_compute; reflexivity|]. split; [exact ea_accepts|]. split; [exact a_accepts|].
  intros (i & f & _ & Hf & _). vm_compute in Hf. exact Hf.
Qed.

(** With epsilon transitions at the same places, the word is kept. *)
Definition prod_ea_ea : nfa (nat * nat) := ok nfa_new (nfa_product nfa_ea nfa_ea pair 100).
Example C34_exact_example : n_accepts prod_ea_ea [97%N].
Proof.
  apply (C34_product_exact nfa_ea nfa_ea pair 100 prod_ea_ea ltac:(intros ? ? ? ? [= -> ->]; auto) nfa_ea_wf nfa_ea_wf nfa_ea_good nfa_ea_good
    ltac:(vm_compute; reflexivity) [97%N] ltac:(constructor; [reflexivity|constructor])).
  assert (T : n_accepts_trace nfa_ea [None; Some 97%N]).
  { exists 0, 2. split; [now left|]. split; [now left|].
    apply (nt_epsilon _ 0 1); [eexists _, _; vm_compute; split; [left; reflexivity|]; split; [left; reflexivity|now left]|].
    apply (nt_char _ 1 ca 97%N 2); [eexists _, _; vm_compute; split; [right; left; reflexivity|]; split; [left; reflexivity|now left]|reflexivity|constructor]. }
  exists [None; Some 97%N]. auto.
Qed.

(** Product of the determinized automata, the labels being intersected. *)
Definition meet (r s : N * N) : option (N * N) :=
  let lo := N.max (fst r) (fst s) in let hi := N.min (snd r) (snd s) in
  if (lo <=? hi)%N then Some (lo, hi) else None.

Lemma meet_spec r s c : (exists n, meet r s = Some n /\ range_has n c) <-> range_has r c /\ range_has s c.
Proof.
  unfold meet, range_has. destruct (N.leb_spec (N.max (fst r) (fst s)) (N.min (snd r) (snd s))) as [H|H].
  - split; [intros (n & [= <-] & K); cbn [fst snd] in K; lia|]. intros K. eexists. split; [reflexivity|]. cbn [fst snd]. lia.
  - split; [intros (n & [=] & _)|lia].
Qed.

Definition det_a : dfa (list nat) (N * N) := ok (Dfa [] [] []) (determinize 100 nfa_ea).
Definition prod1 : dfa (list nat * list nat) (N * N) := ok (Dfa ([], []) [] []) (dfa_product det1 det_a pair meet 100).

Example C34_det_example : dfa_product det1 det_a pair meet 100 = Ok prod1 /\ deterministic range_has prod1 /\ d_accepts range_has prod1 [97%N].
Proof.
  assert (E1 : determinize 100 nfa1 = Ok det1) by (vm_compute; reflexivity).
  assert (E2 : determinize 100 nfa_ea = Ok det_a) by (vm_compute; reflexivity).
  assert (E : dfa_product det1 det_a pair meet 100 = Ok prod1) by (vm_compute; reflexivity).
  destruct (C33_determinize nfa1 100 det1 nfa1_wf E1) as [D1 L1]. destruct (C33_determinize nfa_ea 100 det_a nfa_ea_wf E2) as [D2 L2].
  destruct (C34_det_product det1 det_a pair meet range_has range_has range_has 100 prod1) as [D L]; [| | | |exact D1|exact D2|exact E|].
  - intros ? ? ? ? [= -> ->]. auto.
  - exact meet_spec.
  - repeat constructor; vm_compute; reflexivity.
  - repeat constructor; vm_compute; reflexivity.
  - split; [exact E|]. split; [exact D|]. apply L. rewrite L1, L2. split; [|exact ea_accepts].
    exists 0, 2. split; [vm_compute; tauto|]. split; [vm_compute; tauto|].
    apply (nr_epsilon _ 0 1); [eexists _, _; vm_compute; split; [left; reflexivity|]; split; [left; reflexivity|now left]|].
    apply (nr_char _ 1 ca 97%N 2); [eexists _, _; vm_compute; split; [right; left; reflexivity|]; split; [left; reflexivity|now left]|reflexivity|constructor].
Qed.

(** ** C35: numbering the states in the order of the calls *)
Definition number {K} (_ : K) (n : nat) : outcome Empty_set (nat * nat) := Ok (n, S n).
Definition keep (r : N * N) (_ : unit) : outcome Empty_set ((N * N) * unit) := Ok (r, tt).

Lemma number_inj {K} m s : calls (number (K := K)) 0 m s -> NoDup (map fst m) -> NoDup (map snd m).
Proof.
  enough (H : forall t, calls (number (K := K)) t m s -> (forall v, In v (map snd m) -> t <= v) /\ NoDup (map snd m)) by (intros C _; now apply (H 0)).
  induction m as [|[k v] m IH]; intros t C; inversion C as [|? ? ? t1 ? ? E C']; subst.
  - split; [intros ? []|constructor].
  - injection E as <- <-. destruct (IH _ C') as [H1 H2]. split.
    + intros v [<-|Hv]; [apply Nat.le_refl|]. apply H1 in Hv. cbn [snd] in *. lia.
    + cbn [map snd]. constructor; [|exact H2]. intro Hv. apply H1 in Hv. lia.
Qed.
Lemma keep_inj m s : calls keep tt m s -> NoDup (map fst m) -> NoDup (map snd m).
Proof.
  intros C. enough (E : map snd m = map fst m) by (rewrite E; auto).
  induction C as [|k v t t1 m t2 E _ IH]; [reflexivity|]. injection E as <- <-. cbn [map fst snd]. now f_equal.
Qed.

Lemma det1_wf : dfa_wf det1.
Proof. split; [repeat constructor; vm_compute; reflexivity|]. intros q ts H. vm_compute in H. destruct H as [[= <- <-]|[[= <- <-]|[]]]; repeat constructor; vm_compute; reflexivity. Qed.

Definition num1 : dfa nat (N * N) := ok (Dfa 0 [] []) (dfa_map number keep det1 0 tt).
Definition tnum1 : dfa nat (N * N) := ok (Dfa 0 [] []) (dfa_try_map number keep det1 0 tt).

Lemma keep_has l t m t' : keep l t = Ok (m, t') -> forall c, range_has m c <-> range_has l c.
Proof. intros [= <- _] c. reflexivity. Qed.

Example C35_example : dfa_map number keep det1 0 tt = Ok num1 /\ d_initial num1 = 0 /\ d_final num1 = [1] /\ d_accepts range_has num1 [98%N; 97%N].
Proof.
  assert (E : dfa_map number keep det1 0 tt = Ok num1) by (vm_compute; reflexivity).
  split; [exact E|]. split; [vm_compute; reflexivity|]. split; [vm_compute; reflexivity|].
  apply (C35_map number keep 0 tt number_inj keep_inj range_has range_has keep_has det1 num1 det1_wf E). apply C33_example.
Qed.

(** [try_map] forgets the final states. *)
Theorem C35_try_map_refuted : exists (d : dfa (list nat) (N * N)) d' w,
  dfa_wf d /\ dfa_try_map number keep d 0 tt = Ok d' /\ d_accepts range_has d w /\ ~ d_accepts range_has d' w.
Proof.
  exists det1, tnum1, [98%N; 97%N]. assert (E : dfa_try_map number keep det1 0 tt = Ok tnum1) by (vm_compute; reflexivity).
  split; [exact det1_wf|]. split; [exact E|]. split; [apply C33_example|].
  exact (C35_try_map_empty number keep 0 tt number_inj keep_inj range_has range_has keep_has det1 tnum1 det1_wf E _).
Qed.

(** ** C36: four states, two of them equivalent *)
Definition dfa4 : dfa nat nat :=
  dfa_add_final_state 3 (dfa_add 2 0 3 (dfa_add 1 0 3 (dfa_add 0 1 2 (dfa_add 0 0 1 (dfa_new 0))))).
Definition part4 : list (list nat) := [[0; 1; 2]; [3]].
Definition u4 (q : nat) : Prop := q < 4.

Lemma dfa4_wf : dfa_wf dfa4.
Proof. unfold dfa4. split; [repeat constructor; vm_compute; reflexivity|]. intros q ts H. vm_compute in H. destruct H as [[= <- <-]|[[= <- <-]|[[= <- <-]|[]]]]; repeat constructor; vm_compute; reflexivity. Qed.
Lemma part4_of : partition_of u4 part4.
Proof.
  split.
  - intros b [<-|[<-|[]]]; repeat constructor; vm_compute; reflexivity.
  - intros b [<-|[<-|[]]]; discriminate.
  - intros b b' x [<-|[<-|[]]] [<-|[<-|[]]] H1 H2; try reflexivity; cbn [In] in H1, H2; lia.
  - intro x. unfold u4. split.
    + intro H. destruct (Nat.eq_dec x 3) as [->|N]; [exists [3]|exists [0; 1; 2]]; cbn [In part4]; (split; [tauto|lia]).
    + intros (b & [<-|[<-|[]]] & H); cbn [In] in H; lia.
Qed.
Lemma dfa4_edges q l r : d_edge dfa4 q l r -> u4 q /\ u4 r.
Proof.
  intros (ts & H1 & H2). unfold u4. vm_compute in H1. destruct H1 as [[= <- <-]|[[= <- <-]|[[= <- <-]|[]]]]; vm_compute in H2.
  - destruct H2 as [[= <- <-]|[[= <- <-]|[]]]; lia.
  - destruct H2 as [[= <- <-]|[]]; lia.
  - destruct H2 as [[= <- <-]|[]]; lia.
Qed.

Definition min4 : dfa (list nat) nat := ok (Dfa [] [] []) (minimize 100 dfa4 part4).

Lemma dfa4_det : deterministic (fun l c : nat => l = c) dfa4.
Proof.
  intros q l l' q' q'' c H1 H2 E1 E2. assert (E : l' = l) by congruence. rewrite E in H2. split; [now symmetry|].
  exact (edge_fun dfa4 dfa4_wf q l q' q'' H1 H2).
Qed.

Example C36_example : minimize 100 dfa4 part4 = Ok min4 /\
  min4 = Dfa [0] [] [([0], [(0, [1; 2]); (1, [1; 2])]); ([1; 2], [(0, [3])])] /\
  d_accepts (fun l c => l = c) dfa4 [1; 0] /\
  exists b, d_run (fun l c => l = c) min4 (d_initial min4) [1; 0] b /\ exists q, In q b /\ In q (d_final dfa4).
Proof.
  assert (E : minimize 100 dfa4 part4 = Ok min4) by (vm_compute; reflexivity).
  assert (A : d_accepts (fun l c => l = c) dfa4 [1; 0]).
  { exists 3. split; [vm_compute; tauto|].
    apply (dr_char _ _ 0 1 1 2); [eexists; vm_compute; split; [left; reflexivity|right; now left]|reflexivity|].
    apply (dr_char _ _ 2 0 0 3); [eexists; vm_compute; split; [right; right; left; reflexivity|now left]|reflexivity|constructor]. }
  split; [exact E|]. split; [vm_compute; reflexivity|]. split; [exact A|].
  apply (proj2 (C36_language_partial dfa4 u4 part4 dfa4_wf part4_of (le_S _ _ (le_S _ _ (le_S _ _ (le_n 1)))) dfa4_edges (fun l c => l = c) 100 min4 dfa4_det
    ltac:(intros b x y [<-|[<-|[]]] Hx Hy Hf; vm_compute in Hf; cbn [In] in *; vm_compute; lia) E)). exact A.
Qed.

(** [minimize] does not set the final states of its result. *)
Theorem C36_minimize_refuted : exists (d : dfa nat nat) u p m w,
  dfa_wf d /\ partition_of u p /\ u (d_initial d) /\ (forall q l r, d_edge d q l r -> u q /\ u r) /\
  deterministic (fun l c => l = c) d /\
  (forall b x y, In b p -> In x b -> In y b -> In x (d_final d) -> In y (d_final d)) /\
  minimize 100 d p = Ok m /\ d_accepts (fun l c => l = c) d w /\ ~ d_accepts (fun l c => l = c) m w.
Proof.
  exists dfa4, u4, part4, min4, [1; 0]. destruct C36_example as (E & _ & A & _).
  assert (U : u4 (d_initial dfa4)) by (vm_compute; lia).
  split; [exact dfa4_wf|]. split; [exact part4_of|]. split; [exact U|]. split; [exact dfa4_edges|]. split; [exact dfa4_det|].
  split; [intros b x y [<-|[<-|[]]] Hx Hy Hf; vm_compute in Hf; cbn [In] in *; vm_compute; lia|].
  split; [exact E|]. split; [exact A|]. exact (C36_minimize_empty dfa4 u4 part4 dfa4_wf part4_of U dfa4_edges _ 100 min4 E _).
Qed.

(** ** C37 *)
Definition push (m : list nat) (l : nat) : list nat := m ++ [l].
Definition is (l c : nat) : Prop := l = c.

(** [a(b|c)]: the state after [a] has two transitions; its successors are never expanded. *)
Definition dfa_branch : dfa nat nat :=
  dfa_add_final_state 2 (dfa_add 1 2 2 (dfa_add 1 1 2 (dfa_add 0 0 1 (dfa_new 0)))).
Definition comp_branch : dfa nat (list nat) := ok (Dfa 0 [] []) (compress [] push 100 dfa_branch).

Lemma dfa_branch_wf : dfa_wf dfa_branch.
Proof. split; [repeat constructor; vm_compute; reflexivity|]. intros q ts H. vm_compute in H. destruct H as [[= <- <-]|[[= <- <-]|[]]]; repeat constructor; vm_compute; reflexivity. Qed.

Theorem C37_compress_refuted : exists (d : dfa nat nat) c w, dfa_wf d /\ compress [] push 100 d = Ok c /\
  d_accepts is d w /\ ~ s_accepts (Forall2 is) c w.
Proof.
  exists dfa_branch, comp_branch, [0; 1]. split; [exact dfa_branch_wf|]. split; [vm_compute; reflexivity|]. split.
  - exists 2. split; [vm_compute; tauto|].
    apply (dr_char _ _ 0 0 0 1); [eexists; vm_compute; split; [left; reflexivity|now left]|reflexivity|].
    apply (dr_char _ _ 1 1 1 2); [eexists; vm_compute; split; [right; left; reflexivity|now left]|reflexivity|constructor].
  - assert (EDGE : forall q m r, d_edge comp_branch q m r -> q = 0 /\ r = 1).
    { intros q m r (ts & H1 & H2). vm_compute in H1. destruct H1 as [[= <- <-]|[]]. vm_compute in H2. destruct H2 as [[= <- <-]|[]]. auto. }
    intros (f & Hf & R). vm_compute in Hf. destruct Hf as [<-|[]].
    assert (I : d_initial comp_branch = 0) by (vm_compute; reflexivity). rewrite I in R.
    inversion R as [|? ? ? ? ? ? He _ R']; subst. apply EDGE in He as [_ ->].
    inversion R' as [|? ? ? ? ? ? He' _ _]; subst. apply EDGE in He' as [E _]. discriminate.
Qed.

(** A cycle of single transitions: [compress] never ends. *)
Definition dfa_cycle : dfa nat nat := dfa_add_final_state 1 (dfa_add 1 0 1 (dfa_add 0 0 1 (dfa_new 0))).

Theorem C37_compress_diverges : dfa_wf dfa_cycle /\ forall fuel, compress [] push fuel dfa_cycle = OutOfFuel.
Proof.
  split.
  - split; [repeat constructor; vm_compute; reflexivity|]. intros q ts H. vm_compute in H. destruct H as [[= <- <-]|[[= <- <-]|[]]]; repeat constructor; vm_compute; reflexivity.
  - intro fuel. unfold compress. change (entry (d_initial dfa_cycle) [] (d_transitions dfa_cycle)) with [(0, 1)]. cbn [compress_transitions].
    enough (K : forall fuel c ts, compress_chain push fuel dfa_cycle c 1 ts = OutOfFuel) by (rewrite K; reflexivity).
    clear fuel. induction fuel as [|fuel IH]; intros c ts; [reflexivity|]. cbn [compress_chain].
    change (single_transition_of dfa_cycle 1) with (Some (0, 1)). apply IH.
Qed.

(** The strings [abc] and [bd]: only the initial state branches. *)
Definition dfa_words : dfa nat nat :=
  dfa_add_final_state 3 (dfa_add_final_state 5
    (dfa_add 4 3 5 (dfa_add 0 1 4 (dfa_add 2 2 3 (dfa_add 1 1 2 (dfa_add 0 0 1 (dfa_new 0))))))).
Definition comp_words : dfa nat (list nat) := ok (Dfa 0 [] []) (compress [] push 100 dfa_words).

Lemma dfa_words_wf : dfa_wf dfa_words.
Proof. split; [repeat constructor; vm_compute; reflexivity|]. intros q ts H. vm_compute in H. destruct H as [[= <- <-]|[[= <- <-]|[[= <- <-]|[[= <- <-]|[]]]]]; repeat constructor; vm_compute; reflexivity. Qed.

Example C37_example : compress [] push 100 dfa_words = Ok comp_words /\
  comp_words = Dfa 0 [3; 5] [(0, [([0; 1; 2], 3); ([1; 3], 5)])] /\ s_accepts (Forall2 is) comp_words [0; 1; 2].
Proof.
  assert (E : compress [] push 100 dfa_words = Ok comp_words) by (vm_compute; reflexivity).
  split; [exact E|]. split; [vm_compute; reflexivity|].
  apply (C37_compress_complete_partial is dfa_words 100 comp_words dfa_words_wf); [|exact E|].
  - intros q l r (ts & H1 & H2) Hs l' r' (ts' & H3 & H4). vm_compute in H1, H3.
    destruct H3 as [[= <- <-]|[[= <- <-]|[[= <- <-]|[[= <- <-]|[]]]]]; try discriminate Hs.
    destruct H1 as [[= <- <-]|[[= <- <-]|[[= <- <-]|[[= <- <-]|[]]]]]; cbn [In] in H2; repeat destruct H2 as [H2|H2]; congruence || destruct H2.
  - exists 3. split; [vm_compute; tauto|].
    apply (dr_char _ _ 0 0 0 1); [eexists; vm_compute; split; [left; reflexivity|now left]|reflexivity|].
    apply (dr_char _ _ 1 1 1 2); [eexists; vm_compute; split; [right; left; reflexivity|now left]|reflexivity|].
    apply (dr_char _ _ 2 2 2 3); [eexists; vm_compute; split; [right; right; left; reflexivity|now left]|reflexivity|constructor].
Qed.

(** ** C38 *)
Example C38_example : reachable_states_from 100 dfa4 0 = Ok [0; 2; 3; 1] /\ states 100 dfa4 = Ok [0; 1; 2; 3] /\
  select_states 100 dfa4 (fun q => Nat.ltb 1 q) = Ok [2; 3] /\ reachable_states_from 100 dfa4 1 = Ok [1; 3].
Proof. vm_compute. auto. Qed.

(** ** C63 *)
Example C63_example : serialize_transitions dfa4 = [(0, (0, 1)); (0, (1, 2)); (1, (0, 3)); (2, (0, 3))] /\
  deserialize_transitions (serialize_transitions dfa4) = d_transitions dfa4.
Proof. vm_compute. auto. Qed.

Print Assumptions C33_determinize.
Print Assumptions C33_determinize_total.
Print Assumptions C34_product_sound.
Print Assumptions C34_product_complete_partial.
Print Assumptions C34_product_refuted.
Print Assumptions C34_product_exact.
Print Assumptions C34_det_product.
Print Assumptions C35_map.
Print Assumptions C35_try_map_partial.
Print Assumptions C36_language_partial.
Print Assumptions C36_minimal.
Print Assumptions C36_minimize_total.
Print Assumptions C37_compress_sound.
Print Assumptions C37_compress_complete_partial.
Print Assumptions C37_compress_diverges.
Print Assumptions C38_reachable_states.
Print Assumptions C38_select_states.
Print Assumptions C63_language.
