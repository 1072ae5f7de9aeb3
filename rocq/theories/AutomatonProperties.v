(** * Properties of the automata (C33–C38, C63) *)

From Coq Require Import String List Bool Arith NArith Lia Sorted Relations.
Import ListNotations.
From Verif Require Import Base BaseProofs Orders CharModel CharSpec CharProofs AutomatonModel AutomatonSpec AutomatonProofs AutomatonDet
  AutomatonTerm AutomatonProduct AutomatonMap AutomatonReach AutomatonMin.
Open Scope list_scope.

(** ** C33 — determinization *)
Section C33.
Context {Q : Type} {CQ : Cmp Q} {LQ : CmpLaws Q}.

(** The determinized automaton is deterministic and accepts the same words. *)
Theorem C33_determinize (a : nfa Q) fuel d : nfa_wf a -> determinize fuel a = Ok d ->
  deterministic range_has d /\ forall w, d_accepts range_has d w <-> n_accepts a w.
Proof. intros W H. split; [eapply det_deterministic; eassumption|]. intro w. eapply det_language; eassumption. Qed.

(** It always exists: no panic, no divergence. *)
Theorem C33_determinize_total (a : nfa Q) : nfa_wf a ->
  exists bound, forall fuel, bound <= fuel -> exists d, determinize fuel a = Ok d.
Proof. apply det_total. Qed.

(** The API only builds well formed automata (the labels being values of the type [RangeSet<char>]). *)
Theorem C33_well_formed :
  nfa_wf (nfa_new (Q := Q)) /\
  (forall a q, nfa_wf a -> nfa_wf (declare_state q a)) /\
  (forall a q l r, nfa_wf a -> (forall s, l = Some s -> cs_good s) -> nfa_wf (nfa_add q l r a)) /\
  (forall a q, nfa_wf a -> nfa_wf (add_initial_state q a)) /\
  (forall a q, nfa_wf a -> nfa_wf (add_final_state q a)).
Proof.
  split; [apply nfa_new_wf|]. split; [intros; now apply declare_wf|]. split; [|split; intros; [now apply add_initial_wf|now apply add_final_wf]].
  intros a q l r W H. apply nfa_add_wf; [|exact W]. destruct l as [s|]; [|exact Logic.I]. intros x Hx. exact (cs_good_ranges s x (H s eq_refl) Hx).
Qed.
End C33.

(** ** C34 — product *)

(** The API keeps the labels, values of type [RangeSet<char>]. *)
Theorem C34_labels_good {Q} {CQ : Cmp Q} {LQ : CmpLaws Q} :
  labels_good (nfa_new (Q := Q)) /\
  (forall a q, nfa_wf a -> labels_good a -> labels_good (declare_state q a)) /\
  (forall a q l r, nfa_wf a -> labels_good a -> (forall s, l = Some s -> cs_good s) -> labels_good (nfa_add q l r a)).
Proof.
  pose (P := fun ts : transitions Q => forall s qs, In (Some s, qs) ts -> cs_good s).
  assert (G0 : forall a : nfa Q, labels_good a -> forall q, P (entry q [] (n_transitions a))).
  { intros a G q. apply entry_or; [|intros ? ? []]. intros ts H s qs. apply (G q ts s qs H). }
  assert (D : forall (a : nfa Q) q, nfa_wf a -> labels_good a -> labels_good (declare_state q a)).
  { intros a q [W1 W2] G q0 ts s qs H1 H2. cbn [declare_state n_transitions] in H1.
    apply (proj1 (bt_insert_In _ _ _ _ _ W1)) in H1 as [[-> ->]|[_ H1]]; [|eapply G; eassumption]. exact (G0 a G q s qs H2). }
  split; [intros ? ? ? ? []|]. split; [exact D|]. intros a q l r W G HL q0 ts s qs H1 H2.
  pose proof (D a r W G) as G'. pose proof (declare_wf r a W) as [W1 W2]. unfold nfa_add in H1. cbn [n_transitions] in H1.
  apply (proj1 (bt_insert_In _ _ _ _ _ W1)) in H1 as [[-> ->]|[_ H1]]; [|eapply G'; eassumption].
  assert (We : bt_wf (entry q [] (n_transitions (declare_state r a)))).
  { apply entry_or; [|constructor]. intros ts H. now apply W2 in H. }
  apply (proj1 (bt_insert_In _ _ _ _ _ We)) in H2 as [[E ->]|[_ H2]]; [now apply HL|]. exact (G0 _ G' q s qs H2).
Qed.

Section C34.
Context {Q R S : Type} {CQ : Cmp Q} {CR : Cmp R} {CS : Cmp S} {LQ : CmpLaws Q} {LR : CmpLaws R} {LS : CmpLaws S}.

(** [Automaton::product]: an accepted word is accepted by both automata. *)
Theorem C34_product_sound (a : nfa Q) (b : nfa R) (f : Q -> R -> S) fuel p :
  (forall q r q' r', f q r = f q' r' -> q = q' /\ r = r') ->
  nfa_wf a -> nfa_wf b -> labels_good a -> labels_good b -> nfa_product a b f fuel = Ok p ->
  forall w, chars w -> n_accepts p w -> n_accepts a w /\ n_accepts b w.
Proof. intros INJ Wa Wb Ga Gb HP w. exact (product_sound a b f INJ Wa Wb Ga Gb fuel p HP w). Qed.

(** The converse holds without epsilon transitions (see [C34_product_refuted]). *)
Theorem C34_product_complete_partial (a : nfa Q) (b : nfa R) (f : Q -> R -> S) fuel p :
  (forall q r q' r', f q r = f q' r' -> q = q' /\ r = r') ->
  nfa_wf a -> nfa_wf b -> labels_good a -> labels_good b -> epsilon_free a -> epsilon_free b ->
  nfa_product a b f fuel = Ok p ->
  forall w, chars w -> n_accepts a w -> n_accepts b w -> n_accepts p w.
Proof. intros INJ Wa Wb Ga Gb Fa Fb HP w. exact (product_complete a b f INJ Wa Wb Ga Gb fuel p HP w Fa Fb). Qed.

(** What [Automaton::product] accepts, for all automata: the words that both can read with their epsilon transitions at the same
    places. *)
Lemma trace_word {T} (a : nfa T) q w q' : n_run a q w q' <-> exists t, letters t = w /\ n_trace a q t q'.
Proof.
  split.
  - intro H. induction H as [q|q q1 w r E _ (t & <- & IH)|q s c q1 w r E Hc _ (t & <- & IH)].
    + exists []. split; [reflexivity|constructor].
    + exists (None :: t). split; [reflexivity|]. eapply nt_epsilon; eassumption.
    + exists (Some c :: t). split; [reflexivity|]. eapply nt_char; eassumption.
  - intros (t & <- & H). induction H; cbn [letters]; [constructor|eapply nr_epsilon; eassumption|eapply nr_char; eassumption].
Qed.
Theorem C34_product_exact (a : nfa Q) (b : nfa R) (f : Q -> R -> S) fuel p :
  (forall q r q' r', f q r = f q' r' -> q = q' /\ r = r') ->
  nfa_wf a -> nfa_wf b -> labels_good a -> labels_good b -> nfa_product a b f fuel = Ok p ->
  forall w, chars w ->
    n_accepts p w <-> exists t, letters t = w /\ n_accepts_trace a t /\ n_accepts_trace b t.
Proof.
  intros INJ Wa Wb Ga Gb HP w Cw. split.
  - intros (i & fi & Hi & Hf & RR). apply trace_word in RR as (t & E & T). exists t. split; [exact E|].
    apply (product_traces a b f INJ Wa Wb Ga Gb fuel p HP t); [now rewrite E|]. exists i, fi. auto.
  - intros (t & E & T). apply (product_traces a b f INJ Wa Wb Ga Gb fuel p HP t) in T as (i & fi & Hi & Hf & T); [|now rewrite E].
    exists i, fi. split; [exact Hi|]. split; [exact Hf|]. apply trace_word. eauto.
Qed.

Theorem C34_product_total (a : nfa Q) (b : nfa R) (f : Q -> R -> S) : nfa_wf a -> nfa_wf b ->
  exists bound, forall fuel, bound <= fuel -> exists p, nfa_product a b f fuel = Ok p.
Proof. apply product_total. Qed.

(** [DetAutomaton::product] is the intersection, when [g] is the intersection of labels. *)
Theorem C34_det_product {L M N' C} {CN : Cmp N'} {LN : CmpLaws N'} (a : dfa Q L) (b : dfa R M) (f : Q -> R -> S) (g : L -> M -> option N')
  (has_a : L -> C -> Prop) (has_b : M -> C -> Prop) (has_p : N' -> C -> Prop) fuel p :
  (forall q r q' r', f q r = f q' r' -> q = q' /\ r = r') ->
  (forall l m c, (exists n, g l m = Some n /\ has_p n c) <-> has_a l c /\ has_b m c) ->
  bt_wf (d_transitions a) -> bt_wf (d_transitions b) -> deterministic has_a a -> deterministic has_b b ->
  dfa_product a b f g fuel = Ok p ->
  deterministic has_p p /\ forall w, d_accepts has_p p w <-> d_accepts has_a a w /\ d_accepts has_b b w.
Proof.
  intros INJ MEET Wa Wb Da Db HP. split; [exact (dfa_product_deterministic a b f g has_a has_b has_p INJ MEET Wa Wb Da Db fuel p HP)|].
  exact (dfa_product_language a b f g has_a has_b has_p INJ MEET Wa Wb Da Db fuel p HP).
Qed.

Theorem C34_det_product_total {L M N'} {CN : Cmp N'} (a : dfa Q L) (b : dfa R M) (f : Q -> R -> S) (g : L -> M -> option N') :
  bt_wf (d_transitions a) -> bt_wf (d_transitions b) ->
  exists bound, forall fuel, bound <= fuel -> exists p, dfa_product a b f g fuel = Ok p.
Proof. intros. now apply dfa_product_total. Qed.
End C34.

(** ** C35 — renaming *)
Section C35.
Context {Q L P M St St' E C : Type} {CQ : Cmp Q} {CL : Cmp L} {CP : Cmp P} {CM : Cmp M}.
Context {LQ : CmpLaws Q} {LL : CmpLaws L} {LP : CmpLaws P} {LM : CmpLaws M}.
Variable f : Q -> St -> outcome E (P * St).
Variable g : L -> St' -> outcome E (M * St').
Variable s0 : St.
Variable t0 : St'.
(** Called once on each of several distinct keys, the functions return distinct values. *)
Hypothesis INJf : forall m s, calls f s0 m s -> NoDup (map fst m) -> NoDup (map snd m).
Hypothesis INJg : forall m t, calls g t0 m t -> NoDup (map fst m) -> NoDup (map snd m).
Variable has : L -> C -> Prop.
Variable has' : M -> C -> Prop.
(** The new labels contain the same symbols. *)
Hypothesis HAS : forall l t m t', g l t = Ok (m, t') -> forall c, has' m c <-> has l c.

Theorem C35_map (d : dfa Q L) d' : dfa_wf d -> dfa_map f g d s0 t0 = Ok d' ->
  forall w, d_accepts has' d' w <-> d_accepts has d w.
Proof. intros. eapply map_language; eassumption. Qed.

(** [try_map] keeps the runs, through an injective renaming of the states, but not the final states (see
    [C35_try_map_refuted]). *)
Theorem C35_try_map_partial (d : dfa Q L) d' : dfa_wf d -> dfa_try_map f g d s0 t0 = Ok d' ->
  exists phi : Q -> P -> Prop,
    (forall q p p', phi q p -> phi q p' -> p = p') /\ (forall q q' p, phi q p -> phi q' p -> q = q') /\
    forall w, (forall q, d_run has d (d_initial d) w q -> exists p, phi q p /\ d_run has' d' (d_initial d') w p) /\
              (forall p, d_run has' d' (d_initial d') w p -> exists q, phi q p /\ d_run has d (d_initial d) w q).
Proof. intros Wd H. eapply try_map_language; eassumption. Qed.

(** Whatever the automaton, the result of [try_map] accepts nothing. *)
Theorem C35_try_map_empty (d : dfa Q L) d' : dfa_wf d -> dfa_try_map f g d s0 t0 = Ok d' -> forall w, ~ d_accepts has' d' w.
Proof.
  intros Wd H w (q & Hq & _). destruct (try_map_language f g s0 t0 INJf INJg has has' HAS d Wd d' H) as [EF _]. rewrite EF in Hq. destruct Hq.
Qed.
End C35.

(** Failures are only those of the functions. *)
Theorem C35_map_total {Q L P M St St' E} {CQ : Cmp Q} {CL : Cmp L} {CP : Cmp P} {CM : Cmp M}
  (f : Q -> St -> outcome E (P * St)) (g : L -> St' -> outcome E (M * St')) s0 t0 (d : dfa Q L) :
  (forall q s, exists r, f q s = Ok r) -> (forall l t, exists r, g l t = Ok r) ->
  (exists d', dfa_map f g d s0 t0 = Ok d') /\ (exists d', dfa_try_map f g d s0 t0 = Ok d').
Proof. apply map_total. Qed.

(** ** C36 — minimization *)
Section C36.
Context {Q L : Type} {CQ : Cmp Q} {CL : Cmp L} {LQ : CmpLaws Q} {LL : CmpLaws L}.
Variable d : dfa Q L.
Variable u : Q -> Prop.
Variable p0 : list (list Q).
Hypothesis Wd : dfa_wf d.
(** [p0] is a partition of a set of states that contains all those of the automaton. *)
Hypothesis P0 : partition_of u p0.
Hypothesis UI : u (d_initial d).
Hypothesis UE : forall q l r, d_edge d q l r -> u q /\ u r.

(** [minimize] terminates without a panic. *)
Theorem C36_minimize_total : exists bound, forall fuel, bound <= fuel -> exists m, minimize fuel d p0 = Ok m.
Proof. eapply minimize_total; eassumption. Qed.

(** The result is the language of the automaton, if the final states are (again) those that contain a final state: the code does not
    set them (see [C36_minimize_refuted]). *)
Theorem C36_language_partial {C} (has : L -> C -> Prop) fuel m : deterministic has d ->
  (forall b x y, In b p0 -> In x b -> In y b -> In x (d_final d) -> In y (d_final d)) ->
  minimize fuel d p0 = Ok m ->
  deterministic has m /\
  forall w, d_accepts has d w <->
    exists b, d_run has m (d_initial m) w b /\ exists q, In q b /\ In q (d_final d).
Proof.
  intros D SEP H. split; [eapply minimize_deterministic; eassumption|]. intro w.
  destruct (minimize_run d Wd u p0 P0 UI UE has fuel m H w) as [K1 K2].
  destruct (minimize_Ok d p0 fuel m H) as (p & E).
  destruct (minimize_result d Wd u p0 P0 UI UE fuel p E) as (P & _ & RF & m' & H' & Hi & _ & _ & _ & _ & HE).
  assert (m' = m) as -> by congruence.
  assert (IN : forall s w b, d_run has m s w b -> In s p -> In b p).
  { clear -HE. intros s w b R. induction R as [|s l c s' w r He _ _ IH]; [auto|]. intros _. apply IH. apply HE in He as (q & r' & _ & _ & _ & K & _). exact K. }
  split.
  - intros (q & Hq & R). destruct (K1 q R) as (b & Hb & R'). exists b. split; [exact R'|]. now exists q.
  - intros (b & R & q & Hq & Hf). destruct (K2 b R) as (q' & Hq' & R'). exists q'. split; [|exact R'].
    destruct (RF b (IN _ _ _ R Hi)) as (b0 & Hb0 & Hs). eapply SEP; [exact Hb0|apply Hs; exact Hq|apply Hs; exact Hq'|exact Hf].
Qed.

(** It is minimal: two reachable states end up in the same state exactly if no sequence of labels distinguishes them. *)
Theorem C36_minimal fuel m w w' q q' b b' :
  minimize fuel d p0 = Ok m ->
  label_run d (d_initial d) w q -> label_run m (d_initial m) w b ->
  label_run d (d_initial d) w' q' -> label_run m (d_initial m) w' b' ->
  (b = b' <-> indistinguishable d p0 q q').
Proof.
  intros H R1 R2 R3 R4.
  destruct (minimize_Ok d p0 fuel m H) as (p & E).
  destruct (minimize_result d Wd u p0 P0 UI UE fuel p E) as (P & SAME & RF & m' & H' & Hi & Hii & _ & Wm & _ & HE).
  assert (m' = m) as -> by congruence.
  assert (IN : forall s w b, label_run m s w b -> In s p -> In b p).
  { clear -HE. intros s w b R. induction R as [|s l c s' w r He _ _ IH]; [auto|]. intros _. apply IH. apply HE in He as (q & r' & _ & _ & _ & K & _). exact K. }
  assert (MEM : forall w q b, label_run d (d_initial d) w q -> label_run m (d_initial m) w b -> In q b).
  { intros w1 q1 b1 S1 S2. destruct (minimize_run d Wd u p0 P0 UI UE (fun l c => l = c) fuel m H w1) as [K1 _].
    destruct (K1 q1 S1) as (b2 & Hb2 & S3).
    assert (b2 = b1) as ->; [|exact Hb2]. eapply (label_run_fun m Wm); eassumption. }
  assert (Uq := label_run_u d u UE _ _ _ R1 UI). assert (Uq' := label_run_u d u UE _ _ _ R3 UI).
  rewrite <- (SAME q q' Uq Uq'). pose proof (MEM _ _ _ R1 R2) as M1. pose proof (MEM _ _ _ R3 R4) as M2.
  pose proof (IN _ _ _ R2 Hi) as I1. pose proof (IN _ _ _ R4 Hi) as I2. split.
  - intros <-. exists b. auto.
  - intros (c & Hc & Hq & Hq'). rewrite (pt_disj _ _ P b c q I1 Hc M1 Hq). symmetry. exact (pt_disj _ _ P b' c q' I2 Hc M2 Hq').
Qed.

(** Whatever the automaton, the result of [minimize] accepts nothing. *)
Theorem C36_minimize_empty {C} (has : L -> C -> Prop) fuel m : minimize fuel d p0 = Ok m -> forall w, ~ d_accepts has m w.
Proof.
  intros H w (b & Hb & _). destruct (minimize_Ok d p0 fuel m H) as (p & E).
  destruct (minimize_result d Wd u p0 P0 UI UE fuel p E) as (_ & _ & _ & m' & H' & _ & _ & EF & _).
  assert (m' = m) as -> by congruence. rewrite EF in Hb. destruct Hb.
Qed.
End C36.

(** ** C37 — compression *)

(** What the compressed automaton accepts is accepted. *)
Theorem C37_compress_sound {Q L M C} {CQ : Cmp Q} {CM : Cmp M} {LQ : CmpLaws Q} {LM : CmpLaws M}
  (default : M) (append : M -> L -> M) (has : L -> C -> Prop) (reads : M -> list C -> Prop) (d : dfa Q L) fuel c :
  (forall w, reads default w <-> w = []) ->
  (forall m l w, reads (append m l) w <-> exists w0 c, w = w0 ++ [c] /\ reads m w0 /\ has l c) ->
  bt_wf (d_transitions d) -> compress default append fuel d = Ok c ->
  forall w, s_accepts reads c w -> d_accepts has d w.
Proof. intros. eapply compress_sound; eassumption. Qed.

(** The converse holds if only the initial state has several transitions (see [C37_compress_refuted]). *)
Theorem C37_compress_complete_partial {Q L C} {CQ : Cmp Q} {CL : Cmp L} {LQ : CmpLaws Q} {LL : CmpLaws L}
  (has : L -> C -> Prop) (d : dfa Q L) fuel c : dfa_wf d ->
  (forall q l r, d_edge d q l r -> single_transition_of d r = None -> forall l' r', ~ d_edge d r l' r') ->
  compress [] (fun m l => m ++ [l]) fuel d = Ok c ->
  forall w, d_accepts has d w -> s_accepts (Forall2 has) c w.
Proof. intros. eapply compress_complete; eassumption. Qed.

(** It terminates if the chains of single transitions are finite (see [C37_compress_diverges]). *)
Theorem C37_compress_total_partial {Q L M} {CQ : Cmp Q} {CM : Cmp M} (default : M) (append : M -> L -> M) (d : dfa Q L) :
  (forall q, Acc (fun s r => exists l, single_transition_of d r = Some (l, s)) q) ->
  exists bound, forall fuel, bound <= fuel -> exists c, compress default append fuel d = Ok c.
Proof.
  intro WF.
  assert (K1 : forall r, exists bound, forall fuel, bound <= fuel -> forall compact ts, exists ts', compress_chain append fuel d compact r ts = Ok ts').
  { intro r. induction (WF r) as [r _ IH]. destruct (single_transition_of d r) as [[l s]|] eqn:E.
    - destruct (IH s) as (b & Hb); [now exists l|]. exists (S b). intros [|fuel] Hf compact ts; [lia|]. cbn [compress_chain]. rewrite E. apply Hb. lia.
    - exists 1. intros [|fuel] Hf compact ts; [lia|]. cbn [compress_chain]. rewrite E. eauto. }
  assert (K2 : forall l, exists bound, forall fuel, bound <= fuel -> forall ts, exists ts', compress_transitions default append fuel d l ts = Ok ts').
  { induction l as [|[lb r] l (b & IH)]; [exists 0; intros; cbn; eauto|]. destruct (K1 r) as (b' & Hb'). exists (b + b'). intros fuel Hf ts.
    cbn [compress_transitions]. destruct (Hb' fuel ltac:(lia) (append default lb) ts) as (ts1 & ->). cbn [bind]. apply IH. lia. }
  destruct (K2 (entry (d_initial d) [] (d_transitions d))) as (b & Hb). exists b. intros fuel Hf. unfold compress.
  destruct (Hb fuel Hf []) as (ts & ->). cbn [bind]. eauto.
Qed.

(** ** C38 — reachable states *)
Section C38.
Context {Q L : Type} {CQ : Cmp Q} {LQ : CmpLaws Q}.
Variable d : dfa Q L.
Hypothesis Wd : bt_wf (d_transitions d).

Theorem C38_reachable_states fuel q l : reachable_states_from fuel d q = Ok l ->
  NoDup l /\ forall r, In r l <-> d_reaches d q r.
Proof. now apply reachable_spec. Qed.

Theorem C38_reachable_states_total q : exists bound, forall fuel, bound <= fuel -> exists l, reachable_states_from fuel d q = Ok l.
Proof. now apply reachable_total. Qed.

(** [select_states]: a set (strictly sorted), the reachable states that satisfy the predicate. *)
Theorem C38_select_states (f : Q -> bool) fuel l : select_states fuel d f = Ok l ->
  StronglySorted lt l /\ forall q, In q l <-> d_reaches d (d_initial d) q /\ f q = true.
Proof. now apply select_states_spec. Qed.

Theorem C38_select_states_total (f : Q -> bool) : exists bound, forall fuel, bound <= fuel -> exists l, select_states fuel d f = Ok l.
Proof. now apply select_states_total. Qed.

Theorem C38_states fuel l : states fuel d = Ok l -> NoDup l /\ forall q, In q l <-> d_reaches d (d_initial d) q.
Proof.
  intro H. destruct (select_states_spec d Wd _ fuel l H) as [H1 H2]. split; [now apply sorted_NoDup|].
  intro q. rewrite H2. tauto.
Qed.
End C38.

(** ** C63 — serialization of the transitions *)
Section C63.
Context {Q L : Type} {CQ : Cmp Q} {CL : Cmp L} {LQ : CmpLaws Q} {LL : CmpLaws L}.

Lemma deserialize_edges (l : list (Q * (L * Q))) : forall res, dfa_wf res ->
  NoDup (map (fun x => (fst x, fst (snd x))) l) ->
  (forall q lb r r', In (q, (lb, r)) l -> ~ d_edge res q lb r') ->
  let res' := fold_left (fun d t => dfa_add (fst t) (fst (snd t)) (snd (snd t)) d) l res in
  dfa_wf res' /\ forall q lb r, d_edge res' q lb r <-> d_edge res q lb r \/ In (q, (lb, r)) l.
Proof.
  induction l as [|[q [lb r]] l IH]; intros res W ND FR; cbn [fold_left fst snd map] in *.
  - split; [exact W|]. intros. split; [auto|]. intros [H|[]]. exact H.
  - inversion ND as [|? ? N1 N2]; subst. destruct (IH (dfa_add q lb r res)) as [W' HE].
    + now apply dfa_add_wf.
    + exact N2.
    + intros q0 lb0 r0 r' Hi He. apply dfa_add_edge in He as [(-> & -> & ->)|[_ He]]; [|eapply FR; [right; exact Hi|exact He]|exact W].
      apply N1. apply in_map_iff. now exists (q, (lb, r0)).
    + split; [exact W'|]. intros q0 lb0 r0. rewrite HE, (dfa_add_edge _ _ _ _ _ _ _ W). split.
      * intros [[(-> & -> & ->)|[_ H]]|H]; [right; now left|now left|right; now right].
      * intros [H|[[= -> -> ->]|H]].
        -- left. right. split; [|exact H]. intros [-> ->]. eapply FR; [now left|exact H].
        -- left. left. auto.
        -- now right.
Qed.

Lemma deserialize_add l : forall (res : dfa Q L),
  d_transitions (fold_left (fun d t => dfa_add (fst t) (fst (snd t)) (snd (snd t)) d) l res) =
  fold_left (fun m (t : Q * (L * Q)) => bt_insert (fst t) (bt_insert (fst (snd t)) (snd (snd t)) (entry (fst t) [] m)) m) l (d_transitions res).
Proof. induction l as [|t l IH]; intro res; [reflexivity|]. cbn [fold_left]. rewrite IH. reflexivity. Qed.

(** An automaton rebuilt from its serialized transitions has the same transitions... *)
Theorem C63_transitions (d : dfa Q L) i f : dfa_wf d ->
  let d' := Dfa i f (deserialize_transitions (serialize_transitions d)) in
  dfa_wf d' /\ forall q l r, d_edge d' q l r <-> d_edge d q l r.
Proof.
  intros W. cbn zeta.
  destruct (deserialize_edges (triples d) (Dfa i f [])) as [W' HE].
  - split; [constructor|]. intros ? ? [].
  - now apply triples_NoDup.
  - intros ? ? ? ? _ (ts & [] & _).
  - unfold dfa_wf, d_edge in *. cbn [d_transitions] in *. rewrite deserialize_add in *. cbn [d_transitions] in *. split; [exact W'|].
    intros q l r. unfold deserialize_transitions, serialize_transitions. rewrite HE. rewrite (triples_In d q l r). split; [|auto].
    intros [(ts & [] & _)|H]. exact H.
Qed.

(** ... and accepts the same words. *)
Theorem C63_language {C} (has : L -> C -> Prop) (d : dfa Q L) : dfa_wf d ->
  forall w, d_accepts has (Dfa (d_initial d) (d_final d) (deserialize_transitions (serialize_transitions d))) w <-> d_accepts has d w.
Proof.
  intros W w. destruct (C63_transitions d (d_initial d) (d_final d) W) as [_ HE].
  assert (K : forall d1 d2 : dfa Q L, (forall q l r, d_edge d1 q l r -> d_edge d2 q l r) -> forall q v r, d_run has d1 q v r -> d_run has d2 q v r).
  { intros d1 d2 H q v r R. induction R as [|q l c q' v r He Hc _ IH]; [constructor|]. econstructor; [apply H; exact He|exact Hc|exact IH]. }
  unfold d_accepts. cbn [d_initial d_final]. split; intros (f & Hf & R); exists f; (split; [exact Hf|]); (eapply K; [|exact R]); intros; now apply HE.
Qed.
End C63.
