(** * The combination of documents: proofs (C102) *)

From Coq Require Import String List Bool Arith NArith Lia Qcanon Permutation Sorted.
Import ListNotations.
From Verif Require Import Base BaseProofs Orders PatternModel MatchingModel MatchingSpec ValueModel LayoutModel LayoutSpec
  HydrateModel HydrateSpec TermModel DehydrateModel DehydrateSpec DehydrateProofs DehydrateEmits DehydrateFinish DehydrateProperties
  RoundTripSpec RoundTripWrites RoundTripRun RoundTripMeans RoundTripProperties RenameProperties DehydrateUnique DehydrateUniqueProperties
  CombineModel CombineSpec.
Open Scope list_scope.
Open Scope nat_scope.

Section Next.
Context {Gn : Type} {X : Xsd} {IS : IriSyntax}.
Variable order : list (quad res) -> list (quad res).

Lemma next_dehydrate reg fuel v ref (opts : options Gn) :
  dehydrate order reg fuel v ref opts = let* r := dehydrate_next order reg fuel v ref opts in Ok (fst r).
Proof.
  unfold dehydrate, dehydrate_next. destruct (ok_or (DLayoutNotFound ref) (reg ref)) as [l|e|w|]; cbn [bind]; try reflexivity.
  destruct (dehydrate_with _ _ _ _ _ _ _ _) as [[u|e|w|] st]; cbn [bind]; try reflexivity.
  destruct (check_terms _) as [m|e|w|]; cbn [bind]; try reflexivity.
  destruct (map_list (map_quad opts) _ _) as [ds ms]. destruct (map_list (map_resource opts) _ _) as [vs ms']. reflexivity.
Qed.

Hypothesis order_perm : forall l, Permutation (order l) l.

Lemma next_inv reg fuel v ref (opts : options Gn) ds vals gn :
  dehydrate_next order reg fuel v ref opts = Ok (ds, vals, gn) ->
  exists l st theta k, reg ref = Some l /\
    dehydrate_with input_interpretation reg fuel v None ref (map RInput (seq 0 (root_count opts l))) initial = (Ok tt, st) /\
    gn = gen_state opts k /\ mapping opts st (root_count opts l) theta /\
    (forall i q, In q (ds_output st) -> quad_res q (RAnon i) -> (forall t, ~ assigned st (RAnon i) t) ->
       exists j, j < k /\ theta (RAnon i) = generated opts j) /\
    (forall q, In q ds <-> exists q', In q' (ds_output st) /\ q = quad_map theta q') /\
    vals = map theta (map RInput (seq 0 (root_count opts l))).
Proof.
  unfold dehydrate_next. intro H. apply bind_Ok in H as (l & Hl & H).
  assert (reg ref = Some l) as Hreg by (destruct (reg ref); cbn [ok_or] in Hl; [now injection Hl as ->|discriminate]). clear Hl.
  fold (root_count opts l) in H. fold initial in H.
  destruct (dehydrate_with _ reg fuel v None ref _ initial) as [[[]|e|w|] st] eqn:ED; try discriminate.
  apply bind_Ok in H as (m0 & Hm0 & H).
  destruct (map_list (map_quad opts) (m0, o_generator opts) (order (ds_output st))) as [dataset ms] eqn:E1.
  destruct (map_list (map_resource opts) ms (map RInput (seq 0 (root_count opts l)))) as [values ms'] eqn:E2.
  injection H as <- <- <-.
  destruct (finish_inv opts reg order order_perm _ _ _ _ _ _ _ _ _ _ ED Hm0 E1 E2) as (theta & k & G & MP & B & _ & HD & HV).
  exists l, st, theta, k. auto 10.
Qed.
End Next.

Section Stream.
Context {Gn : Type}.
Variable next : Gn -> term * Gn.

Lemma nth_state_add gn a n : nth_state next (nth_state next gn a) n = nth_state next gn (a + n).
Proof. induction n; [now rewrite Nat.add_0_r|]. rewrite Nat.add_succ_r. cbn [nth_state]. now rewrite IHn. Qed.
Lemma options_state c f gn n : gen_state (Options c f gn next) n = nth_state next gn n.
Proof. induction n; [reflexivity|]. cbn [gen_state nth_state o_next]. now rewrite IHn. Qed.
Lemma options_name c f gn a n : generated (Options c f (nth_state next gn a) next) n = nth_name next gn (a + n).
Proof. unfold generated, nth_name. rewrite options_state, nth_state_add. reflexivity. Qed.
End Stream.

(** The documents, with the part of the names that each one uses. *)
Section Spans.
Context {Gn : Type} {X : Xsd} {IS : IriSyntax}.
Variable reg : registry term.
Variable order : list (quad res) -> list (quad res).
Variable fuel : nat.
Variable next : Gn -> term * Gn.
Variable gn0 : Gn.
Definition options_at (d : document) (n : nat) : options Gn := Options None (d_input d) (nth_state next gn0 n) next.
Variable P : document -> options Gn -> list (quad term) -> list term -> nat -> Prop.

Lemma spans : forall docs a rs, dehydrate_all order reg fuel next (nth_state next gn0 a) docs = Ok rs ->
  (forall d n ds vals gn, In d docs -> dehydrate_next order reg fuel (d_value d) (d_layout d) (options_at d n) = Ok (ds, vals, gn) ->
     exists k, gn = gen_state (options_at d n) k /\ P d (options_at d n) ds vals k) ->
  length rs = length docs /\
  exists lo k : nat -> nat, (forall i, i < length docs -> a <= lo i) /\ (forall i j, i < j -> j < length docs -> lo i + k i <= lo j) /\
  forall i d r, nth_error docs i = Some d -> nth_error rs i = Some r ->
    dehydrate_next order reg fuel (d_value d) (d_layout d) (options_at d (lo i)) = Ok (fst r, snd r, nth_state next gn0 (lo i + k i)) /\
    P d (options_at d (lo i)) (fst r) (snd r) (k i).
Proof.
  induction docs as [|d0 docs IH]; intros a rs H HP; cbn [dehydrate_all] in H.
  - injection H as <-. split; [reflexivity|]. exists (fun _ => 0), (fun _ => 0). cbn [length].
    split; [lia|]. split; [lia|]. intros [|i]; discriminate.
  - apply bind_Ok in H as ([[ds0 vals0] gn1] & E0 & H). apply bind_Ok in H as (rs0 & E1 & H). injection H as <-. cbn [fst snd] in E1.
    destruct (HP d0 a ds0 vals0 gn1 (or_introl eq_refl) E0) as (k0 & -> & P0).
    unfold options_at in E1. rewrite options_state, nth_state_add in E1.
    destruct (IH _ _ E1 (fun d n ds vals gn Hd => HP d n ds vals gn (or_intror Hd))) as (HL & lo & k & L1 & L2 & HI).
    split; [cbn [length]; congruence|].
    exists (fun i => match i with 0 => a | S i => lo i end), (fun i => match i with 0 => k0 | S i => k i end). cbn [length].
    split; [intros [|i] Hi; [lia|]; specialize (L1 i); lia|]. split.
    + intros [|i] [|j] Lij Hj; try lia; [apply L1; lia|apply L2; lia].
    + intros [|i] d r Hd Hr; cbn [nth_error] in Hd, Hr; [|exact (HI i d r Hd Hr)].
      injection Hd as <-. injection Hr as <-. cbn [fst snd]. split; [|exact P0].
      unfold options_at in E0 |- *. rewrite E0, options_state, nth_state_add. reflexivity.
Qed.
End Spans.

Section Leaf.
Context {X : Xsd} {IS : IriSyntax}.
Variable reg : registry term.

Lemma leaf_term_owns A r v t p : leaf_term reg A r v t -> ~ Owns reg r p.
Proof.
  intros H HO. destruct H as [ref k ty v l E _|ref pat s E|ref vs n r v t E I _].
  - inversion HO; unfold record_layout, tuple_layout, set_layout, list_layout, tagged_layout, data_layout in *; congruence.
  - inversion HO; unfold record_layout, tuple_layout, set_layout, list_layout, tagged_layout in *; congruence.
  - assert (T : forall ps q vs', reg ref = Some (tagged_layout ps q vs') -> False).
    { intros ps q vs' E'. rewrite E in E'. unfold choice_layout, tagged_layout in E'. injection E' as _ E'.
      destruct vs as [|a vs]; [destruct I|]. destruct vs' as [|a' vs']; discriminate E'. }
    inversion HO; try (unfold record_layout, tuple_layout, set_layout, list_layout, choice_layout in *; congruence); eapply T; eassumption.
Qed.

Lemma leaf_term_not_blank A r v b : ~ leaf_term reg A r v (TmBlank b).
Proof. intro H. remember (TmBlank b) as t. induction H; try discriminate. auto. Qed.
End Leaf.

Section Summary.
Context {Gn : Type} {X : Xsd} {IS : IriSyntax}.
Variable reg : registry term.
Hypothesis TR : tree_registry reg.
Hypothesis no_blank : forall r l b, reg r = Some l -> ~ mentions l (TmBlank b).
Variable order : list (quad res) -> list (quad res).
Hypothesis order_perm : forall l, Permutation (order l) l.

(** What is known of the result of a document whose generator has given [k] names. *)
Record summary (d : document) (opts : options Gn) (ds : list (quad term)) (vals : list term) (k : nat) : Prop := {
  sm_subject : forall q, In q ds -> q_g q = None /\
    ((exists i, q_s q = TmIri i /\ identifies reg d i) \/ (q_s q = o_input_term opts 0 /\ In (q_s q) vals) \/
     (exists j, j < k /\ q_s q = generated opts j));
  sm_owned : forall q, In q ds -> In (q_s q) vals -> Owns reg (d_layout d) (q_p q);
  sm_object : forall q b, In q ds -> q_o q = TmBlank b -> In (q_o q) vals \/ exists j, j < k /\ q_o q = generated opts j;
  sm_vals : forall t, In t vals -> t = o_input_term opts 0 \/ (exists i, t = TmIri i /\ identifies reg d i) \/
    ((forall b, t <> TmBlank b) /\ forall p, ~ Owns reg (d_layout d) p)
}.

Lemma summarize fuel d (opts : options Gn) ds vals gn :
  readable reg d -> blank_identifiers opts -> fresh_identifiers opts ->
  dehydrate_next order reg fuel (d_value d) (d_layout d) opts = Ok (ds, vals, gn) ->
  exists k, gn = gen_state opts k /\ summary d opts ds vals k.
Proof.
  intros (HP & DI & NT) BI FI H. apply next_inv in H as (l & st & theta & k & E & R & -> & MP & GB & HD & HV); [|exact order_perm].
  destruct (run_met reg no_blank _ _ _ _ _ R) as [MET NB].
  unfold root_count in *. rewrite (tree_input _ _ (TR _ _ E)) in *. cbn [seq map] in R, HV.
  destruct (run_facts opts reg _ _ _ _ _ _ TR HP DI NT BI FI E R MP) as (hi & Q & ids & nodes & HW & OQ & CASE & INJ & NIL).
  pose proof (proj1 (Wrote_ids reg _) _ _ _ _ _ _ _ _ HW) as HI.
  assert (ID : forall r i, In (r, i) ids -> identifies reg d i).
  { intros r i Hi. exists (map snd ids). split; [exact HI|]. apply (in_map snd) in Hi. exact Hi. }
  destruct (proj1 (Wrote_bounds reg _) _ _ _ _ _ _ _ _ HW) as (_ & _ & HB).
  assert (SUB : forall q, In q (ds_output st) -> In (q_s q) nodes).
  { intros q Hq. apply OQ in Hq. exact (proj1 (Wrote_subjects reg _) _ _ _ _ _ _ _ _ HW q Hq). }
  assert (ROOT : nodes <> [] -> In (RInput 0) nodes).
  { intro NE. eapply Wrote_node; [exact HW|]. intro HL. destruct (leaf_nodes reg _ _ _ _ _ _ _ _ _ HW HL) as (_ & _ & ->). now elim NE. }
  exists k. split; [reflexivity|]. split.
  - intros q Hq. apply HD in Hq as (q' & Hq' & ->). pose proof (SUB q' Hq') as HS.
    assert (exists p, q' = triple (q_s q') p (q_o q')) as (p & Eq).
    { apply OQ in Hq'. exact (proj1 (Wrote_triples reg _) _ _ _ _ _ _ _ _ HW q' Hq'). }
    split; [rewrite Eq; reflexivity|]. cbn [quad_map q_s].
    destruct (CASE _ HS) as [(i & Ei & Hi)|(U & [(n & En & Et)|(n & q & j & En & Hq & QR & Et)])].
    + left. exists i. split; [exact Ei|]. eapply ID, Hi.
    + right. left. destruct (HB _ HS) as [E0|(m & E0 & _)]; [|congruence]. assert (n = 0) as -> by congruence.
      split; [exact Et|]. rewrite E0. subst vals. now left.
    + right. right. rewrite En in *. destruct (GB n q Hq QR U) as (j' & LT & Ej). eauto.
  - intros q Hq Hv. apply HD in Hq as (q' & Hq' & ->). cbn [quad_map q_s q_p] in *. pose proof (SUB q' Hq') as HS.
    assert (Es : q_s q' = RInput 0).
    { subst vals. destruct Hv as [Ev|[]]. apply INJ; [exact HS| |now symmetry]. apply ROOT. intro N. rewrite N in HS. destruct HS. }
    apply OQ in Hq'. destruct (proj1 (Wrote_owned reg _) _ _ _ _ _ _ _ _ HW (outside_input 0 0) q' Hq' Es) as (p & Ep & HO).
    rewrite Ep. now rewrite (mp_term _ _ _ _ MP).
  - intros q b Hq Eb. apply HD in Hq as (q' & Hq' & ->). cbn [quad_map q_o] in *.
    assert (QR : quad_res q' (q_o q')) by (right; right; now left).
    assert (U : forall t, ~ assigned st (q_o q') t).
    { intros t Ht. rewrite (mp_assigned _ _ _ _ MP _ _ Ht) in Eb. subst t. eapply NB, Ht. }
    assert (ME : met 1 (q_o q')) by (apply MET, resources_In; right; exists q'; auto).
    destruct (q_o q') as [i|i|t] eqn:Eo.
    + left. cbn [met] in ME. assert (i = 0) as -> by lia. subst vals. now left.
    + right. rewrite <- Eo in *. rewrite Eo in U, QR |- *. exact (GB i q' Hq' QR U).
    + exfalso. rewrite (mp_term _ _ _ _ MP) in Eb. exact (ME b Eb).
  - intros t Ht. subst vals. destruct Ht as [<-|[]]. destruct (leaf_dec reg (d_layout d)) as [Lf|NL].
    + right. right. destruct (Wrote_leaf reg _ _ _ _ _ _ _ _ _ HW Lf) as (t & LT & At). rewrite (mp_assigned _ _ _ _ MP _ _ At).
      split; [|intro p; eapply leaf_term_owns, LT]. intros b ->. eapply leaf_term_not_blank, LT.
    + pose proof (Wrote_node reg _ _ _ _ _ _ _ _ _ HW NL) as HN. destruct (CASE _ HN) as [(i & Ei & Hi)|(U & [(n & [= <-] & Et)|(n & q & j & En & _)])].
      * right. left. exists i. split; [exact Ei|]. eapply ID, Hi.
      * now left.
      * discriminate En.
Qed.

(** Two documents that used different names, and are compatible, are elsewhere. *)
Lemma separate next gn0 d r lo k d' r' lo' k' docs :
  good_names next gn0 docs -> In d docs -> In d' docs ->
  summary d (Options None (d_input d) (nth_state next gn0 lo) next) (fst r) (snd r) k ->
  summary d' (Options None (d_input d') (nth_state next gn0 lo') next) (fst r') (snd r') k' ->
  lo + k <= lo' \/ lo' + k' <= lo -> compatible reg d r d' r' ->
  elsewhere reg (d_layout d) (d_value d) (fst r) (snd r) (fun q => In q (fst r')).
Proof.
  intros (G1 & G2 & G3) ID ID' [S1 S2 S3 S4] [S1' S2' S3' S4'] DISJ [C1 C2] q Hq _ ON.
  destruct (G3 d ID) as (B & _ & N), (G3 d' ID') as (B' & _ & N'). cbn [o_input_term] in *.
  setoid_rewrite options_name in S1. setoid_rewrite options_name in S3. setoid_rewrite options_name in S1'. setoid_rewrite options_name in S3'.
  assert (IN : In (q_s q) (snd r) /\ In (q_s q) (snd r') \/ In (q_s q) (snd r) /\ (forall p, ~ Owns reg (d_layout d) p)).
  { destruct (S1' q Hq) as [_ [(i & Ei & Ii)|[(Ei & Iv)|(j & LT & Ej)]]].
    - destruct ON as [Hv|[(b & q0 & Eb & _)|(x & ids & Ex & Ix & Hx)]].
      + destruct (S4 _ Hv) as [E|[(x & Ex & Ix)|(_ & NO)]].
        * destruct (B 0) as [b Eb]. congruence.
        * left. assert (x = i) as -> by congruence. destruct (C1 i Ix Ii) as [A1 A2]. rewrite Ei. auto.
        * right. auto.
      + congruence.
      + left. assert (x = i) as -> by congruence. destruct (C1 i) as [A1 A2]; [now exists ids|exact Ii|]. rewrite Ei. auto.
    - destruct ON as [Hv|[(b & q0 & Eb & Hq0 & Eo)|(x & ids & Ex & Ix & Hx)]].
      + auto.
      + left. split; [|exact Iv]. rewrite <- Eo in Eb |- *. destruct (S3 q0 b Hq0 Eb) as [A|(j & _ & Ej)]; [exact A|].
        exfalso. rewrite Eo, Ei in Ej. eapply N', Ej.
      + destruct (B' 0) as [b Eb]. congruence.
    - exfalso. destruct (G1 (lo' + j)) as [b Eb]. destruct ON as [Hv|[(b' & q0 & Eb' & Hq0 & Eo)|(x & ids & Ex & Ix & Hx)]]; [| |congruence].
      + destruct (S4 _ Hv) as [E|[(x & Ex & Ix)|(NB & _)]]; [|congruence|]; [rewrite Ej in E; symmetry in E; eapply N, E|].
        eapply NB. rewrite Ej. exact Eb.
      + rewrite <- Eo in Eb'. destruct (S3 q0 b' Hq0 Eb') as [A|(j' & LT' & Ej')].
        * rewrite Eo in A. destruct (S4 _ A) as [E|[(x & Ex & Ix)|(NB & _)]]; [|congruence|]; [rewrite Ej in E; symmetry in E; eapply N, E|].
          eapply NB. rewrite Ej. exact Eb.
        * rewrite Eo, Ej in Ej'. apply G2 in Ej'. lia. }
  destruct IN as [[A1 A2]|[A1 NO]]; (split; [exact A1|]); [|apply NO].
  intro HO. exact (C2 _ _ A1 A2 HO (S2' q Hq A2)).
Qed.
End Summary.
