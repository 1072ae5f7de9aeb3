(** * Several documents in one dataset (C102) *)

From Coq Require Import String List Bool Arith NArith Lia Permutation.
Import ListNotations.
From Verif Require Import Base BaseProofs Orders PatternModel MatchingModel MatchingSpec ValueModel LayoutModel LayoutSpec
  HydrateModel HydrateSpec TermModel DehydrateModel DehydrateSpec DehydrateProofs DehydrateEmits DehydrateFinish DehydrateProperties
  RoundTripSpec RoundTripProperties RenameProperties DehydrateUnique DehydrateUniqueProperties
  CombineModel CombineSpec CombineProofs.
Open Scope list_scope.
Open Scope nat_scope.

(** The blank node is the subject, the predicate, the object or the graph of a quad, or is one of the values. *)
Definition has_blank (r : list (quad term) * list term) (b : string) : Prop :=
  In (TmBlank b) (snd r) \/
  exists q, In q (fst r) /\
    (q_s q = TmBlank b \/ q_p q = TmBlank b \/ q_o q = TmBlank b \/ q_g q = Some (TmBlank b)).

Section Combined.
Context {Gn : Type} {X : Xsd} {IS : IriSyntax}.
Variable reg : registry term.
Hypothesis no_blank : forall r l b, reg r = Some l -> ~ mentions l (TmBlank b).
Variable order : list (quad res) -> list (quad res).
Hypothesis order_perm : forall l, Permutation (order l) l.

Lemma combined_In (rs : list (list (quad term) * list term)) q : In q (combined rs) <-> exists r, In r rs /\ In q (fst r).
Proof.
  unfold combined. enough (H : forall d, In q (fold_left (fun d r => fold_left (fun d q => ds_insert q d) (fst r) d) rs d) <->
    (exists r, In r rs /\ In q (fst r)) \/ In q d).
  { rewrite H. cbn [In]. tauto. }
  induction rs as [|r rs IH]; intro d; cbn [fold_left]; [split; [now right|now intros [(r & [] & _)|H]]|].
  rewrite IH, ds_insert_all_In. split.
  - intros [(r' & I & H)|[H|H]]; [left; exists r'; split; [now right|exact H]|left; exists r; split; [now left|exact H]|now right].
  - intros [(r' & [<-|I] & H)|H]; [right; now left|left; eauto|right; now right].
Qed.

(** The blank nodes of one result. *)
Lemma result_blanks fuel v ref (opts : options Gn) ds vals gn :
  dehydrate_next order reg fuel v ref opts = Ok (ds, vals, gn) ->
  exists k, gn = gen_state opts k /\
    forall b, has_blank (ds, vals) b ->
      (In (TmBlank b) vals /\ exists i, TmBlank b = o_input_term opts i) \/ exists j, j < k /\ TmBlank b = generated opts j.
Proof.
  intro H. apply next_inv in H as (l & st & theta & k & E & R & -> & MP & GB & HD & HV); [|exact order_perm].
  destruct (run_met reg no_blank _ _ _ _ _ R) as [MET NB]. exists k. split; [reflexivity|].
  assert (ONE : forall r b, In r (resources (root_count opts l) st) -> theta r = TmBlank b ->
    (In (TmBlank b) vals /\ exists i, TmBlank b = o_input_term opts i) \/ exists j, j < k /\ TmBlank b = generated opts j).
  { intros r b Hr Eb. pose proof (MET r Hr) as ME.
    assert (U : forall t, ~ assigned st r t).
    { intros t Ht. rewrite (mp_assigned _ _ _ _ MP _ _ Ht) in Eb. subst t. eapply NB, Ht. }
    destruct r as [i|i|t]; cbn [met] in ME.
    - left. split.
      + subst vals. rewrite <- Eb. apply in_map, in_map. apply in_seq. lia.
      + exists i. rewrite <- Eb. apply (mp_input _ _ _ _ MP); [exact ME|exact U].
    - right. apply resources_In in Hr as [Hr|(q & Hq & Hr)]; [apply in_map_iff in Hr as (? & [=] & _)|].
      destruct (GB i q Hq Hr U) as (j & LT & Ej). exists j. split; [exact LT|congruence].
    - exfalso. rewrite (mp_term _ _ _ _ MP) in Eb. exact (ME b Eb). }
  intros b [Hb|(q & Hq & Hb)]; cbn [fst snd] in *.
  - rewrite HV in Hb. apply in_map_iff in Hb as (r & Er & Hr). apply (ONE r b); [apply resources_In; now left|exact Er].
  - apply HD in Hq as (q' & Hq' & ->). unfold quad_map in Hb. cbn [q_s q_p q_o q_g] in Hb.
    assert (IN : forall r, quad_res q' r -> In r (resources (root_count opts l) st)) by (intros r Hr; apply resources_In; right; eauto).
    destruct Hb as [Hb|[Hb|[Hb|Hb]]]; [eapply ONE; [apply IN|exact Hb]..|].
    + now left.
    + right. now left.
    + right. right. now left.
    + destruct (q_g q') as [g|] eqn:Eg; [|discriminate]. cbn [option_map] in Hb. injection Hb as Hb.
      eapply ONE; [apply IN|exact Hb]. right. right. right. exact Eg.
Qed.

(** C102 (the generator).  Dehydrating with a generator given by reference gives what dehydration gives; and each
    document is dehydrated as if it were alone, with a generator that has already given some names. *)
Theorem C102_each_alone fuel (next : Gn -> term * Gn) (gn : Gn) docs rs : dehydrate_all order reg fuel next gn docs = Ok rs ->
  length rs = length docs /\
  forall i d r, nth_error docs i = Some d -> nth_error rs i = Some r ->
  exists n, dehydrate order reg fuel (d_value d) (d_layout d) (Options None (d_input d) (nth_state next gn n) next) = Ok r.
Proof.
  intro H. destruct (spans reg order fuel next gn (fun _ _ _ _ _ => True) docs 0 rs H) as (HL & lo & k & _ & _ & HI).
  - intros d n ds vals g _ E. destruct (next_inv _ order_perm _ _ _ _ _ _ _ _ E) as (_ & _ & _ & k & _ & _ & G & _). eauto.
  - split; [exact HL|]. intros i d r Hd Hr. exists (lo i). destruct (HI i d r Hd Hr) as [E _].
    rewrite next_dehydrate. unfold options_at in E. rewrite E. now destruct r.
Qed.

(** C102 (no mixing).  If the generator never gives twice a name, nor the name of an input, then a blank node found in the
    results of two documents is an input, with that name, of both.  For any layouts. *)
Theorem C102_shared_blanks fuel (next : Gn -> term * Gn) (gn : Gn) docs rs i j d d' r r' b :
  good_names next gn docs -> dehydrate_all order reg fuel next gn docs = Ok rs -> i <> j ->
  nth_error docs i = Some d -> nth_error rs i = Some r -> nth_error docs j = Some d' -> nth_error rs j = Some r' ->
  has_blank r b -> has_blank r' b ->
  (In (TmBlank b) (snd r) /\ exists n, TmBlank b = d_input d n) /\ (In (TmBlank b) (snd r') /\ exists n, TmBlank b = d_input d' n).
Proof.
  intros (_ & G2 & G3) H NE Hd Hr Hd' Hr' Hb Hb'.
  destruct (spans reg order fuel next gn (fun d opts ds vals k => forall b, has_blank (ds, vals) b ->
    (In (TmBlank b) vals /\ exists n, TmBlank b = o_input_term opts n) \/ exists m, m < k /\ TmBlank b = generated opts m)
    docs 0 rs H) as (HL & lo & k & _ & L & HI).
  { intros x n ds vals g _ E. exact (result_blanks _ _ _ _ _ _ _ E). }
  assert (Li : i < length docs) by (apply nth_error_Some; congruence).
  assert (Lj : j < length docs) by (apply nth_error_Some; congruence).
  destruct (HI i d r Hd Hr) as [_ S], (HI j d' r' Hd' Hr') as [_ S'].
  destruct (G3 d (nth_error_In _ _ Hd)) as (_ & _ & N), (G3 d' (nth_error_In _ _ Hd')) as (_ & _ & N').
  rewrite <- surjective_pairing in S, S'. unfold options_at in S, S'. setoid_rewrite options_name in S. setoid_rewrite options_name in S'.
  cbn [o_input_term] in S, S'.
  destruct (S b Hb) as [A|(n & Ln & En)], (S' b Hb') as [A'|(m & Lm & Em)].
  - auto.
  - exfalso. destruct A as (_ & n & En). rewrite En in Em. eapply N, Em.
  - exfalso. destruct A' as (_ & m & Em). rewrite Em in En. eapply N', En.
  - exfalso. rewrite En in Em. apply G2 in Em. assert (i < j \/ j < i) as [O|O] by lia; [specialize (L i j)|specialize (L j i)]; lia.
Qed.

Hypothesis TR : tree_registry reg.

Lemma names_fresh (next : Gn -> term * Gn) gn docs : good_names next gn docs -> forall d f, In d docs ->
  blank_identifiers (Options None (d_input d) (nth_state next gn f) next) /\
  fresh_identifiers (Options None (d_input d) (nth_state next gn f) next).
Proof.
  intros (G1 & G2 & G3) d f Hd. destruct (G3 d Hd) as (B & I & N). unfold blank_identifiers, fresh_identifiers. cbn [o_input_term].
  split; split.
  - exact B.
  - intro n. rewrite options_name. apply G1.
  - exact I.
  - split.
    + intros n m E. rewrite !options_name in E. apply G2 in E. lia.
    + intros i n. rewrite options_name. apply N.
Qed.

(** C102.  Documents that are dehydrated one after the other with the same generator, and whose datasets are put together, are each
    read back.  Missing: as for C30, the layouts out of the class [tree_registry] and the values excluded by [readable]. *)
Theorem C102_combined_partial fuel (next : Gn -> term * Gn) (gn : Gn) docs rs D :
  good_names next gn docs -> (forall d, In d docs -> readable reg d) -> decimals_read_back X ->
  dehydrate_all order reg fuel next gn docs = Ok rs ->
  (forall i j d d' r r', i <> j -> nth_error docs i = Some d -> nth_error rs i = Some r ->
     nth_error docs j = Some d' -> nth_error rs j = Some r' -> compatible reg d r d' r') ->
  enumerates D (fun q => In q (combined rs)) ->
  forall i d r, nth_error docs i = Some d -> nth_error rs i = Some r ->
  exists tv N, (forall fuel', N <= fuel' -> hydrate D reg fuel' (d_layout d) (snd r) = Ok tv) /\
    Same reg (d_layout d) (d_value d) (into_untyped tv).
Proof.
  intros GN RD DR H CO EN i d r Hd Hr.
  pose proof (names_fresh _ _ _ GN) as FR.
  destruct (spans reg order fuel next gn (summary reg) docs 0 rs H) as (HL & lo & k & _ & L & HI).
  { intros x n ds vals g Hx E. destruct (FR x n Hx) as [BI FI]. eapply summarize; try eassumption. now apply RD. }
  destruct (HI i d r Hd Hr) as [E SM].
  destruct (RD d (nth_error_In _ _ Hd)) as (HP & DI & NT).
  destruct (FR d (lo i) (nth_error_In _ _ Hd)) as [BI FI].
  pose (others := flat_map (fun j => if Nat.eqb i j then [] else match nth_error rs j with Some r' => fst r' | None => [] end) (seq 0 (length rs))).
  assert (OT : forall q, In q others <-> exists j r', i <> j /\ nth_error rs j = Some r' /\ In q (fst r')).
  { intro q. unfold others. rewrite in_flat_map. split.
    - intros (j & _ & Hq). destruct (Nat.eqb_spec i j); [destruct Hq|]. destruct (nth_error rs j) as [r'|] eqn:Ej; [|destruct Hq]. eauto.
    - intros (j & r' & NE & Ej & Hq). exists j. split.
      + apply in_seq. assert (j < length rs) by (apply nth_error_Some; congruence). lia.
      + rewrite (proj2 (Nat.eqb_neq i j) NE), Ej. exact Hq. }
  apply (C30_round_trip_elsewhere_partial (options_at next gn d (lo i)) reg order order_perm
    fuel (d_value d) (d_layout d) (fst r) (snd r) D others); try assumption.
  - rewrite next_dehydrate, E. reflexivity.
  - intro p. destruct (EN p) as [ND HQ]. split; [exact ND|]. intro q. rewrite HQ, combined_In, OT.
    apply and_iff_compat_r. split.
    + intros (r' & I & Hq). apply In_nth_error in I as [j Ej]. destruct (Nat.eq_dec i j) as [<-|NE]; [left; congruence|right; eauto].
    + intros [Hq|(j & r' & _ & Ej & Hq)]; [exists r; split; [eapply nth_error_In, Hr|exact Hq]|exists r'; split; [eapply nth_error_In, Ej|exact Hq]].
  - intros q Hq. apply OT in Hq as (j & r' & NE & Ej & Hq).
    assert (Lj : j < length docs) by (rewrite <- HL; apply nth_error_Some; congruence).
    assert (Li : i < length docs) by (apply nth_error_Some; congruence).
    destruct (nth_error docs j) as [d'|] eqn:Ed'; [|apply nth_error_None in Ed'; lia].
    destruct (HI j d' r' Ed' Ej) as [_ SM']. revert q Hq.
    apply (separate reg next gn d r (lo i) (k i) d' r' (lo j) (k j) docs); try assumption.
    + eapply nth_error_In, Hd.
    + eapply nth_error_In, Ed'.
    + assert (i < j \/ j < i) as [O|O] by lia; [left; now apply L|right; now apply L].
    + eapply CO; eassumption.
Qed.

(** C102, without sets: the same values. *)
Theorem C102_combined_equal_partial fuel (next : Gn -> term * Gn) (gn : Gn) docs rs D :
  no_sets reg -> good_names next gn docs -> (forall d, In d docs -> readable reg d) -> decimals_read_back X ->
  dehydrate_all order reg fuel next gn docs = Ok rs ->
  (forall i j d d' r r', i <> j -> nth_error docs i = Some d -> nth_error rs i = Some r ->
     nth_error docs j = Some d' -> nth_error rs j = Some r' -> compatible reg d r d' r') ->
  enumerates D (fun q => In q (combined rs)) ->
  forall i d r, nth_error docs i = Some d -> nth_error rs i = Some r ->
  exists tv N, (forall fuel', N <= fuel' -> hydrate D reg fuel' (d_layout d) (snd r) = Ok tv) /\ into_untyped tv = d_value d.
Proof.
  intros NS GN RD DR H CO EN i d r Hd Hr.
  destruct (C102_combined_partial _ _ _ _ _ _ GN RD DR H CO EN i d r Hd Hr) as (tv & N & H1 & HS).
  exists tv, N. split; [exact H1|]. symmetry. eapply same_equal; eassumption.
Qed.
End Combined.
