(** * Properties of pattern matching: C01 - C08 *)

From Coq Require Import String List Bool Arith Lia.
Import ListNotations.
From Verif Require Import Base BaseProofs PatternModel MatchingModel MatchingSpec MatchingProofs.

Section Lemmas.
Context {R : Type} {CR : Cmp R} {LR : CmpLaws R}.

Lemma no_panic_map (l : list (subst R)) i : In i (map inr l) -> ~ panicking i.
Proof. intros H (w & ->). apply in_map_iff in H as (s & ? & _). discriminate. Qed.

Lemma In_inr (l : list (subst R)) s : In (inr s) (map (@inr string _) l) <-> In s l.
Proof.
  rewrite in_map_iff. split.
  - intros (s' & [= ->] & I); auto.
  - eauto.
Qed.

Lemma stream_declared (D : dataset R) G s ps :
  enumerates D G -> declared s ps -> exists l, stream D ps s = map inr l.
Proof.
  intros EN DC. pose proof (stream_no_panic D G EN ps s DC) as NP.
  induction (stream D ps s) as [|[w|s'] l IH].
  - now exists [].
  - exfalso. eapply NP; [now left|]. eexists; reflexivity.
  - destruct IH as (l' & ->); [intros; apply NP; now right|]. now exists (s' :: l').
Qed.

Lemma emit_inr (l : list (subst R)) : emit (map inr l) (Ok []) = Ok l.
Proof. induction l as [|s l IH]; simpl; auto. now rewrite IH. Qed.

Lemma unique_exact (D : dataset R) G s ps l :
  enumerates D G -> stream D ps s = map inr l ->
  NoDup l /\ forall s', In s' l <-> solution G s ps s'.
Proof.
  intros EN E. split.
  - apply (NoDup_map_inv (@inr string (subst R))). rewrite <- E.
    apply (stream_NoDup D G EN). intros i Hi. rewrite E in Hi. eapply no_panic_map; eauto.
  - intros s'. rewrite <- In_inr, <- E. split.
    + apply (stream_sound D G EN).
    + apply (stream_complete D G EN). intros i Hi. rewrite E in Hi. eapply no_panic_map; eauto.
Qed.

Lemma into_unique_declared (D : dataset R) G s ps :
  enumerates D G -> declared s ps ->
  exists N l, NoDup l /\ (forall s', In s' l <-> solution G s ps s') /\
    forall fuel, N <= fuel ->
    into_unique D fuel (matching_new s ps) =
      match l with [] => Ok None | [s'] => Ok (Some s') | _ => Err Ambiguity end.
Proof.
  intros EN DC. destruct (stream_declared D G s ps EN DC) as (l & E).
  destruct (into_unique_stream D s ps) as (N & HN).
  exists N, l. destruct (unique_exact D G s ps l EN E) as [ND SO].
  split; [auto|split; [auto|]].
  intros fuel H. rewrite HN by auto. rewrite E.
  destruct l as [|s1 [|s2 l]]; reflexivity.
Qed.

Lemma unique_cases (P : subst R -> Prop) l (s1 s2 : subst R) :
  NoDup l -> (forall s, In s l <-> P s) -> P s1 -> P s2 -> s1 <> s2 ->
  exists a b l', l = a :: b :: l'.
Proof.
  intros ND E P1 P2 N. apply E in P1, P2.
  destruct l as [|a [|b l]]; eauto.
  - destruct P1.
  - destruct P1 as [->|[]], P2 as [->|[]]; congruence.
Qed.

(** Quads of the evaluation graph. *)
Lemma default_graph_inst (B : nat -> R -> Prop) g p q :
  (exists p', In p' (with_default_graph g [p]) /\ qinst B p' q) <->
  pinst B (q_s p) (q_s q) /\ pinst B (q_p p) (q_p q) /\ pinst B (q_o p) (q_o q) /\
  match q_g p with
  | None => q_g q = g
  | Some pg => exists r, q_g q = Some r /\ pinst B pg r
  end.
Proof.
  unfold with_default_graph; simpl. split.
  - intros (p' & [<-|[]] & A1 & A2 & A3 & A4); simpl in *. repeat split; auto.
    destruct (q_g p) as [pg|].
    + inversion A4; eauto.
    + destruct g as [g|]; inversion A4 as [|? ? P]; auto. inversion P; subst; auto.
  - intros (A1 & A2 & A3 & A4). eexists. split; [now left|].
    repeat split; auto. simpl. destruct (q_g p) as [pg|].
    + destruct A4 as (r & -> & P). now constructor.
    + rewrite A4. destruct g; simpl; repeat constructor.
Qed.

End Lemmas.

Section Theorems.
Context {R : Type} {CR : Cmp R} {LR : CmpLaws R}.

(** C01.  Every item produced by iterating the matching is a solution. *)
Theorem C01_matching_sound (D : dataset R) (G : quad R -> Prop) s ps fuel l s' :
  enumerates D G ->
  collect D fuel (matching_new s ps) = Ok l ->
  In s' l ->
  solution G s ps s'.
Proof.
  intros EN H I. apply collect_Ok_stream in H.
  apply (stream_sound D G EN). rewrite H. now apply In_inr.
Qed.

(** C02.  Every solution is produced. The variables being declared, the run does
    return (it neither panics nor runs out of fuel). *)
Theorem C02_matching_complete (D : dataset R) (G : quad R -> Prop) s ps :
  enumerates D G -> declared s ps ->
  exists N l, (forall fuel, N <= fuel -> collect D fuel (matching_new s ps) = Ok l) /\
  forall s', solution G s ps s' -> In s' l.
Proof.
  intros EN DC. destruct (stream_declared D G s ps EN DC) as (l & E).
  destruct (collect_stream D s ps) as (N & HN).
  exists N, l. split.
  - intros fuel H. rewrite HN by auto. rewrite E. apply emit_inr.
  - intros s'. apply (unique_exact D G s ps l EN E).
Qed.

(** C03.  No solution is produced twice. *)
Theorem C03_matching_no_duplicates (D : dataset R) (G : quad R -> Prop) s ps fuel l :
  enumerates D G ->
  collect D fuel (matching_new s ps) = Ok l ->
  NoDup l.
Proof.
  intros EN H. apply collect_Ok_stream in H. exact (proj1 (unique_exact D G s ps l EN H)).
Qed.

(** C04.  Whatever the dataset and the patterns (declared variables or not), every call of
    [next] from a reachable state terminates, and if each pattern matches at most [n] quads,
    the whole iteration takes at most [turns n (length ps)] loop turns. *)
Theorem C04_matching_terminates (D : dataset R) s ps :
  (forall st, reachable D s ps st -> exists fuel, next D fuel st <> OutOfFuel) /\
  (forall n, (forall p, In p ps -> length (D p) <= n) ->
     collect D (S (turns n (length ps))) (matching_new s ps) <> OutOfFuel).
Proof.
  split.
  - intros st _. exists (S (stack_cost D st)).
    pose proof (next_stack D (S (stack_cost D st)) st ltac:(lia)) as N.
    destruct (stack_stream D st) as [|[w|s'] l].
    + rewrite N; discriminate.
    + rewrite N; discriminate.
    + destruct N as (st' & -> & _). discriminate.
  - intros n H. pose proof (new_cost D n s ps H).
    rewrite collect_stack by lia.
    induction (stack_stream D (matching_new s ps)) as [|[w|s'] l IH]; simpl; try discriminate.
    destruct (emit l (Ok [])); simpl; congruence.
Qed.

(** C05.  [into_unique] decides uniqueness. *)
Theorem C05_into_unique_exact (D : dataset R) (G : quad R -> Prop) s ps :
  enumerates D G -> declared s ps ->
  exists N, forall fuel, N <= fuel ->
    let r := into_unique D fuel (matching_new s ps) in
    (r = Ok None <-> (forall s', ~ solution G s ps s')) /\
    (forall s', r = Ok (Some s') <->
       solution G s ps s' /\ forall s'', solution G s ps s'' -> s'' = s') /\
    (r = Err Ambiguity <->
       exists s1 s2, s1 <> s2 /\ solution G s ps s1 /\ solution G s ps s2) /\
    (into_required_unique D fuel (matching_new s ps) =
       match r with Ok None => Err Empty | Ok (Some s') => Ok s' | _ => Err Ambiguity end).
Proof.
  intros EN DC.
  destruct (into_unique_declared D G s ps EN DC) as (N & l & ND & SO & U).
  exists N. intros fuel H. cbv zeta.
  unfold into_required_unique. rewrite U by auto.
  split; [split|split; [|split; [split|]]].
  - destruct l as [|s1 [|s2 l]]; try discriminate. intros _ s' S'. apply SO in S'. destruct S'.
  - intros NS. destruct l as [|s1 l]; auto. exfalso. apply (NS s1). apply SO. now left.
  - intros s'. split.
    + intros E. destruct l as [|s1 [|s2 l]]; try discriminate. injection E as <-. split.
      * apply SO. now left.
      * intros s'' S''. apply SO in S'' as [->|[]]; auto.
    + intros [S' Un]. assert (In s' l) as I by now apply SO.
      destruct l as [|s1 [|s2 l]].
      * destruct I.
      * destruct I as [->|[]]; auto.
      * exfalso. inversion ND as [|? ? N1 N2]; subst. apply N1. left.
        transitivity s'; [|symmetry]; apply Un, SO; simpl; auto.
  - destruct l as [|s1 [|s2 l]]; try discriminate. intros _. exists s1, s2.
    inversion ND as [|? ? N1 N2]; subst. split; [|split; apply SO; simpl; auto].
    intros ->. apply N1. now left.
  - intros (s1 & s2 & NE & S1 & S2).
    destruct (unique_cases _ l s1 s2 ND SO S1 S2 NE) as (a & b & l' & ->). reflexivity.
  - destruct l as [|s1 [|s2 l]]; reflexivity.
Qed.

(** C06.  No panic on declared variables; with an undeclared variable in the first
    pattern nothing is ever produced, and if some quad of the dataset is compatible with the
    pattern, the first [next] panics. *)
Theorem C06_matching_no_panic (D : dataset R) (G : quad R -> Prop) s ps :
  enumerates D G ->
  (declared s ps -> forall fuel w,
     collect D fuel (matching_new s ps) <> Panic w /\
     into_unique D fuel (matching_new s ps) <> Panic w) /\
  (forall p ps' x, ps = p :: ps' -> qvar_of p x -> length s <= x ->
     (forall fuel l, collect D fuel (matching_new s ps) = Ok l -> l = []) /\
     (forall q v, G q -> (forall y r, binds s y r -> v y = r) ->
        qinst (fun y r => v y = r) p q ->
        exists N w, forall fuel, N <= fuel -> next D fuel (matching_new s ps) = Panic w)).
Proof.
  intros EN. split.
  - intros DC fuel w. split; intros H.
    + destruct (stream_declared D G s ps EN DC) as (l & E).
      destruct (collect_stream D s ps) as (N & HN).
      assert (collect D (fuel + N) (matching_new s ps) = Panic w) as H'.
      { rewrite (collect_mono D fuel); auto; [lia|congruence]. }
      rewrite HN in H' by lia. rewrite E, emit_inr in H'. discriminate.
    + destruct (into_unique_declared D G s ps EN DC) as (N & l & _ & _ & U).
      assert (into_unique D (fuel + N) (matching_new s ps) = Panic w) as H'.
      { rewrite (into_unique_mono D fuel); auto; [lia|congruence]. }
      rewrite U in H' by lia. destruct l as [|s1 [|s2 l]]; discriminate.
  - intros p ps' x -> V L. split.
    + intros fuel l H. apply collect_Ok_stream in H.
      destruct l as [|s' l]; auto. exfalso.
      eapply (undeclared_nothing D G s p ps' x s'); eauto. rewrite H. now left.
    + intros q v Gq B I.
      destruct (undeclared_panics D G s p ps' x q v) as (w & l & E); auto.
      exists (S (stack_cost D (matching_new s (p :: ps')))), w.
      intros fuel H. pose proof (next_stack D fuel (matching_new s (p :: ps')) ltac:(lia)) as N.
      rewrite new_stream, E in N. exact N.
Qed.

(** C07 (documented contract).  A [with_quad] that follows its documentation would
    return [None] when a resource component differs. It does not. *)
Definition with_quad_contract : Prop :=
  forall (s : subst nat) (p : qpat nat) (q : quad nat),
    (forall x, qvar_of p x -> x < length s) ->
    (with_quad s p q = Ok None <->
     ~ exists s', (forall x r, binds s x r -> binds s' x r) /\ qinst (binds s') p q).

Theorem C07_with_quad_refuted : ~ with_quad_contract.
Proof.
  intros H. specialize (H [] (Quad (PRes 1) (PRes 2) (PRes 3) None) (Quad 1 2 4 None)).
  destruct H as [_ H].
  - intros x [V|[V|[V|V]]]; discriminate.
  - assert (with_quad (R:=nat) [] (Quad (PRes 1) (PRes 2) (PRes 3) None) (Quad 1 2 4 None) = Ok None)
      as C.
    { apply H. intros (s' & _ & _ & _ & I & _). simpl in I. inversion I. }
    vm_compute in C. discriminate.
Qed.

(** C07 (what holds).  On the quads a dataset returns for the pattern (they agree with its
    resources) the contract holds: [None] iff no extension of the substitution instantiates the
    pattern to the quad; and the result is the least such extension.  Missing with respect to the
    documentation: the comparison of resource components. *)
Theorem C07_with_quad_partial (s : subst R) (p : qpat R) (q : quad R) :
  agrees p q -> (forall x, qvar_of p x -> x < length s) ->
  (with_quad s p q = Ok None <->
     ~ exists s', (forall x r, binds s x r -> binds s' x r) /\ qinst (binds s') p q) /\
  (forall s', with_quad s p q = Ok (Some s') ->
     (forall x r, binds s x r -> binds s' x r) /\ qinst (binds s') p q /\
     length s' = length s /\
     forall s'', (forall x r, binds s x r -> binds s'' x r) -> qinst (binds s'') p q ->
        forall x r, binds s' x r -> binds s'' x r).
Proof.
  intros A DC. split.
  - split.
    + intros H (s' & X & I). destruct (with_quad_below _ _ _ s' _ H) as (? & ? & _); auto.
      discriminate.
    + intros NE. destruct (with_quad_cases s p q) as [(s1 & E)|[E|(w & E)]]; auto.
      * exfalso. apply NE. exists s1. apply with_quad_Some in E as (_ & X & I & _). auto.
      * exfalso. eapply with_quad_no_panic in E; auto. now apply agrees_graph.
  - intros s' E. pose proof (with_quad_Some _ _ _ _ E) as (L & X & I & _).
    repeat split; auto; try apply (I A).
    intros s'' X'' I'' x r B.
    destruct (with_quad_below _ _ _ s'' _ E) as (s1 & [= <-] & X1); auto.
Qed.

(** The variable [x] of the pattern is where the quad has [r]. *)
Definition placed (p : qpat R) (q : quad R) (x : nat) (r : R) : Prop :=
  q_s p = PVar x /\ q_s q = r \/ q_p p = PVar x /\ q_p q = r \/ q_o p = PVar x /\ q_o q = r \/
  q_g p = Some (PVar x) /\ q_g q = Some r.

Lemma with_component_binds c v (s s' : subst R) :
  with_component c v s = Ok (Some s') ->
  length s' = length s /\ forall x r, binds s' x r <-> binds s x r \/ c = PVar x /\ v = r.
Proof.
  intro H. apply with_component_Some in H as (L & E & B & O). split; [exact L|]. intros x r. split.
  - intro H. destruct c as [r0|y]; [left; unfold binds in *; now rewrite <- O|].
    destruct (Nat.eq_dec y x) as [->|N]; [right|left].
    + split; [reflexivity|]. exact (binds_fun _ _ _ _ (B x eq_refl) H).
    + unfold binds in *. rewrite <- O; [exact H|congruence].
  - intros [H|[-> <-]]; auto.
Qed.

(** C07 (what it does, for all quads).  With declared variables (and a graph in the quad when the graph of the pattern
    is a variable) the answer is [None] iff a variable would have two values, in the quad or in the quad and the substitution; the
    resources of the pattern have no influence.  Otherwise the result binds in addition the variables of the pattern as the quad
    says, and nothing else. *)
Theorem C07_with_quad_exact (s : subst R) (p : qpat R) (q : quad R) :
  (forall x, qvar_of p x -> x < length s) -> (forall x, q_g p = Some (PVar x) -> q_g q <> None) ->
  (with_quad s p q = Ok None /\ exists x r r', placed p q x r /\ (binds s x r' \/ placed p q x r') /\ r <> r') \/
  (exists s', with_quad s p q = Ok (Some s') /\ length s' = length s /\
     (forall x r, binds s' x r <-> binds s x r \/ placed p q x r) /\
     forall x r r', placed p q x r -> binds s x r' \/ placed p q x r' -> r = r').
Proof.
  intros DC GR.
  destruct (with_quad s p q) as [[s'|]|[]|w|] eqn:E.
  - right. exists s'. split; [reflexivity|].
    enough (length s' = length s /\ forall x r, binds s' x r <-> binds s x r \/ placed p q x r) as [L B].
    { split; [exact L|]. split; [exact B|]. intros x r r' H H'. apply (binds_fun s' x); apply B; auto. }
    unfold with_quad in E. apply and_then_Some in E as (s1 & H1 & E). apply and_then_Some in E as (s2 & H2 & E).
    apply and_then_Some in E as (s3 & H3 & H4).
    apply with_component_binds in H1 as [L1 B1], H2 as [L2 B2], H3 as [L3 B3].
    assert (length s' = length s3 /\ forall x r, binds s' x r <-> binds s3 x r \/ q_g p = Some (PVar x) /\ q_g q = Some r) as [L4 B4].
    { destruct (q_g p) as [[g|y]|].
      - injection H4 as <-. split; [reflexivity|]. intros x r. split; [now left|intros [?|[[=] _]]; assumption].
      - destruct (q_g q) as [g|]; [|discriminate H4]. cbn [unwrap bind] in H4. apply with_component_binds in H4 as [L4 B4]. split; [exact L4|].
        intros x r. rewrite B4. split; (intros [?|[A B]]; [now left|right; split; congruence]).
      - injection H4 as <-. split; [reflexivity|]. intros x r. split; [now left|intros [?|[[=] _]]; assumption]. }
    split; [congruence|]. intros x r. rewrite B4, B3, B2, B1. unfold placed. tauto.
  - left. split; [reflexivity|]. unfold with_quad in E.
    destruct (with_component (q_s p) (q_s q) s) as [[s1|]| | |] eqn:E1; cbn [and_then bind] in E; try discriminate E.
    2: { apply with_component_None in E1 as (x & r & Ex & B & N). exists x, (q_s q), r. unfold placed. split; [tauto|]. split; [tauto|congruence]. }
    apply with_component_binds in E1 as [L1 B1].
    destruct (with_component (q_p p) (q_p q) s1) as [[s2|]| | |] eqn:E2; cbn [and_then bind] in E; try discriminate E.
    2: { apply with_component_None in E2 as (x & r & Ex & B & N). exists x, (q_p q), r. apply B1 in B. unfold placed. split; [tauto|]. split; [tauto|congruence]. }
    apply with_component_binds in E2 as [L2 B2].
    destruct (with_component (q_o p) (q_o q) s2) as [[s3|]| | |] eqn:E3; cbn [and_then bind] in E; try discriminate E.
    2: { apply with_component_None in E3 as (x & r & Ex & B & N). exists x, (q_o q), r. apply B2 in B. rewrite B1 in B. unfold placed. split; [tauto|]. split; [tauto|congruence]. }
    apply with_component_binds in E3 as [L3 B3].
    destruct (q_g p) as [[g|y]|] eqn:EG; [discriminate E| |discriminate E].
    destruct (q_g q) as [g|] eqn:EQ; [|discriminate E]. cbn [unwrap bind] in E.
    apply with_component_None in E as (x & r & [= <-] & B & N). exists y, g, r. apply B3 in B. rewrite B2, B1 in B. unfold placed. rewrite EG, EQ.
    split; [tauto|]. split; [tauto|congruence].
  - exfalso. now apply (proj1 (with_quad_no_err s p q)).
  - exfalso. revert E. destruct (q_g p) as [[g|y]|] eqn:EG.
    + intro E. apply (with_quad_no_panic s (Quad (q_s p) (q_p p) (q_o p) None) q w).
      * intros x H. apply DC. unfold qvar_of in *. cbn [q_s q_p q_o q_g] in H. rewrite EG. tauto || (destruct H as [|[|[|[=]]]]; tauto).
      * cbn [q_g]. congruence.
      * rewrite <- E. unfold with_quad. cbn [q_s q_p q_o q_g]. now rewrite EG.
    + apply with_quad_no_panic; [exact DC|]. intros _. now apply (GR y).
    + apply with_quad_no_panic; [exact DC|]. congruence.
  - exfalso. now apply (proj2 (with_quad_no_err s p q)).
Qed.

(** C08.  With a current graph [g], a pattern quad without graph is sent to quads of graph
    [g] only (default graph if [None]); a pattern quad with a graph is unaffected. *)
Theorem C08_evaluation_graph (D : dataset R) (G : quad R -> Prop) s ps g fuel l :
  enumerates D G ->
  collect D fuel (matching_new s (with_default_graph g ps)) = Ok l ->
  forall s' p, In s' l -> In p ps ->
  exists q, G q /\
    pinst (binds s') (q_s p) (q_s q) /\ pinst (binds s') (q_p p) (q_p q) /\
    pinst (binds s') (q_o p) (q_o q) /\
    match q_g p with
    | None => q_g q = g
    | Some pg => exists r, q_g q = Some r /\ pinst (binds s') pg r
    end.
Proof.
  intros EN H s' p I Ip.
  destruct (C01_matching_sound _ _ _ _ _ _ _ EN H I) as [_ _ Q _].
  assert (exists p', In p' (with_default_graph g ps) /\ In p' (with_default_graph g [p]))
    as (p' & I1 & I2).
  { eexists. split; [|simpl; left; reflexivity].
    unfold with_default_graph. apply in_map_iff. exists p. split; auto. }
  destruct (Q p' I1) as (q & Gq & Iq). exists q. split; auto.
  apply default_graph_inst. eauto.
Qed.

(** C08, converse: quads of other graphs are irrelevant to graph-less patterns. *)
Theorem C08_other_graphs_irrelevant (D D' : dataset R) (G G' : quad R -> Prop) s ps g fuel l fuel' l' :
  enumerates D G -> enumerates D' G' ->
  (forall p, In p ps -> q_g p = None) ->
  (forall q, q_g q = g -> (G q <-> G' q)) ->
  collect D fuel (matching_new s (with_default_graph g ps)) = Ok l ->
  collect D' fuel' (matching_new s (with_default_graph g ps)) = Ok l' ->
  forall s', In s' l <-> In s' l'.
Proof.
  intros EN EN' NG GG H H' s'.
  apply collect_Ok_stream in H, H'.
  rewrite (proj2 (unique_exact D G s _ l EN H)), (proj2 (unique_exact D' G' s _ l' EN' H')).
  assert (forall G1 G2 : quad R -> Prop, (forall q, q_g q = g -> (G1 q <-> G2 q)) ->
     solution G1 s (with_default_graph g ps) s' -> solution G2 s (with_default_graph g ps) s') as X.
  { intros G1 G2 GE [L X Q O]. split; auto.
    intros p Hp. destruct (Q p Hp) as (q & Gq & Iq). exists q. split; auto.
    apply GE; auto. unfold with_default_graph in Hp. apply in_map_iff in Hp as (p0 & <- & Hp0).
    destruct Iq as (_ & _ & _ & Ig). simpl in Ig. rewrite (NG _ Hp0) in Ig.
    destruct g as [g|]; inversion Ig as [|? ? P]; auto. inversion P; auto. }
  split; apply X; auto. intros q E. symmetry. auto.
Qed.

End Theorems.

(** ** Non-vacuity *)
Section Examples.

Let quads : list (quad nat) :=
  [Quad 1 10 2 None; Quad 1 10 3 None; Quad 2 11 4 None; Quad 3 11 4 None; Quad 5 10 2 (Some 9)].
Let D := list_dataset quads.
(* ?0 10 ?1 . ?1 11 ?2 , starting from ?0 = 1 *)
Let ps : list (qpat nat) :=
  [Quad (PVar 0) (PRes 10) (PVar 1) None; Quad (PVar 1) (PRes 11) (PVar 2) None].
Let s0 : subst nat := [Some 1; None; None].

Example ex_enumerates : enumerates D (fun q => In q quads).
Proof.
  apply list_dataset_enumerates. repeat constructor; simpl; intuition discriminate.
Qed.

Example ex_declared : declared s0 ps.
Proof.
  intros x (p & [<-|[<-|[]]] & [V|[V|[V|V]]]); inversion V; simpl; lia.
Qed.

Example ex_two_solutions :
  collect D 100 (matching_new s0 ps) =
    Ok [[Some 1; Some 2; Some 4]; [Some 1; Some 3; Some 4]].
Proof. vm_compute. reflexivity. Qed.

Example ex_ambiguous : into_unique D 100 (matching_new s0 ps) = Err Ambiguity.
Proof. vm_compute. reflexivity. Qed.

Example ex_unique :
  into_required_unique D 100 (matching_new [Some 1; Some 3; None] ps) = Ok [Some 1; Some 3; Some 4].
Proof. vm_compute. reflexivity. Qed.

Example ex_none : into_required_unique D 100 (matching_new [Some 5; None; None] ps) = Err Empty.
Proof. vm_compute. reflexivity. Qed.

Example ex_graph :
  collect D 100 (matching_new [None; None]
     (with_default_graph (Some 9) [Quad (PVar 0) (PRes 10) (PVar 1) None])) = Ok [[Some 5; Some 2]].
Proof. vm_compute. reflexivity. Qed.

Example ex_undeclared :
  next D 100 (matching_new [Some 1] [Quad (PVar 0) (PRes 10) (PVar 1) None]) =
    Panic "Substitution::set: undeclared variable".
Proof. vm_compute. reflexivity. Qed.

(** A repeated variable. *)
Example ex_repeated :
  collect (list_dataset [Quad 1 10 2 None; Quad 3 10 3 None]) 100
    (matching_new [None] [Quad (PVar 0) (PRes 10) (PVar 0) None]) = Ok [[Some 3]].
Proof. vm_compute. reflexivity. Qed.

Example ex_with_quad :
  with_quad s0 (Quad (PVar 0) (PRes 10) (PVar 1) None) (Quad 1 10 3 None) = Ok (Some [Some 1; Some 3; None])
  /\ with_quad s0 (Quad (PVar 0) (PRes 10) (PVar 1) None) (Quad 2 10 3 None) = Ok None
  /\ with_quad s0 (Quad (PVar 1) (PRes 10) (PVar 1) None) (Quad 2 10 3 None) = Ok None
  /\ with_quad s0 (Quad (PVar 0) (PRes 10) (PVar 1) None) (Quad 1 99 3 (Some 7)) = Ok (Some [Some 1; Some 3; None]).
Proof. vm_compute. auto. Qed.

End Examples.

Print Assumptions C01_matching_sound.
Print Assumptions C02_matching_complete.
Print Assumptions C03_matching_no_duplicates.
Print Assumptions C04_matching_terminates.
Print Assumptions C05_into_unique_exact.
Print Assumptions C06_matching_no_panic.
Print Assumptions C07_with_quad_refuted.
Print Assumptions C07_with_quad_partial.
Print Assumptions C07_with_quad_exact.
Print Assumptions C08_evaluation_graph.
Print Assumptions C08_other_graphs_irrelevant.
