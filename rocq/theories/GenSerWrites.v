(** * What a part of a serialization writes, and what a later reader finds of it *)

From Coq Require Import String List Bool Arith ZArith QArith Qcanon Permutation Lia.
Import ListNotations.
From Verif Require Import Base BaseProofs Orders PatternModel MatchingModel MatchingSpec ValueModel LayoutModel HydrateModel
  TermModel GenDataModel GenDataSpec GenModel GenSpec GenSerModel GenSerSpec.
Open Scope list_scope.
Open Scope nat_scope.

Section Writes.
Context {R I : Type} {CR : Cmp R} {CL : CmpLaws R} {RT : Runtime R I} {RS : Resolver R I}.
Variable known : I -> R -> Prop.
Context {RL : ResolverLaws known}.
Variable types : program.
Variable res : string -> R.
Hypothesis DI : distinct_iris types res.

Notation prog := (program_iri types).
Notation resolved := (resolved types res).

Lemma same_names_refl (i : I) (x : R) : same_names i i x.
Proof. repeat split. Qed.
Lemma same_names_trans (i i' i'' : I) (x : R) : same_names i i' x -> same_names i' i'' x -> same_names i i'' x.
Proof. intros (A & B & C) (A' & B' & C'). repeat split; congruence. Qed.

(** The slots used on the resources that exist already: [own] exclusively, [sh] not. *)
Record Wrote (own : R -> option string -> Prop) (sh : R -> string -> Prop) (i i' : I) (Q : list (quad R)) : Prop := {
  w_known : forall x, known i x -> known i' x;
  w_iris : resolved i';
  w_prog : forall x p, own x (Some p) \/ sh x p -> prog p;
  w_own : forall x s, own x s -> known i x;
  w_sh : forall x p, sh x p -> known i x;
  w_quads : forall q, In q Q -> q_g q = None /\
    ((exists p, (own (q_s q) (Some p) \/ sh (q_s q) p) /\ q_p q = res p) \/
     (known i' (q_s q) /\ ~ known i (q_s q)));
  w_names : forall x, known i x -> ~ own x None -> same_names i i' x
}.

Record View (own : R -> option string -> Prop) (i i' : I) (Q : list (quad R)) (i2 : I) (G : quad R -> Prop) : Prop := {
  v_in : forall q, In q Q -> G q;
  v_new : forall q, G q -> known i' (q_s q) -> ~ known i (q_s q) -> In q Q;
  v_own : forall q p, G q -> own (q_s q) (Some p) -> q_p q = res p -> In q Q;
  v_names : forall x, known i' x -> ~ known i x -> same_names i' i2 x;
  v_node : forall x, own x None -> same_names i' i2 x;
  v_iris : resolved i2
}.

Definition none (x : R) (p : string) : Prop := False.
Definition at_node (x : R) (S : option string -> Prop) (y : R) (s : option string) : Prop := y = x /\ S s.

(** Two parts, one after the other. *)
Lemma Wrote_seq o1 s1 o2 s2 (own : R -> option string -> Prop) (sh : R -> string -> Prop) i i1 i2 Q1 Q2 :
  Wrote o1 s1 i i1 Q1 -> Wrote o2 s2 i1 i2 Q2 ->
  (forall x s, own x s <-> o1 x s \/ o2 x s) -> (forall x p, sh x p <-> s1 x p \/ s2 x p) ->
  (forall x s, o2 x s -> known i x) -> (forall x p, s2 x p -> known i x) ->
  Wrote own sh i i2 (Q1 ++ Q2).
Proof.
  intros [K1 I1 P1 O1 S1 Q1' N1] [K2 I2 P2 O2 S2 Q2' N2] EO ES KO KS. split; auto.
  - intros x p [H|H]; [apply EO in H as [H|H]|apply ES in H as [H|H]]; eauto.
  - intros x s H. apply EO in H as [H|H]; eauto.
  - intros x p H. apply ES in H as [H|H]; eauto.
  - intros q Hq. apply in_app_iff in Hq as [Hq|Hq].
    + destruct (Q1' q Hq) as (Eg & [(p & H & Ep)|[H H']]); (split; [exact Eg|]); [left|right; auto].
      exists p. split; [|exact Ep]. destruct H as [H|H]; [left; apply EO|right; apply ES]; auto.
    + destruct (Q2' q Hq) as (Eg & [(p & H & Ep)|[H H']]); (split; [exact Eg|]); [left|right; auto].
      exists p. split; [|exact Ep]. destruct H as [H|H]; [left; apply EO|right; apply ES]; auto.
  - intros x Hx NO. eapply same_names_trans.
    + apply N1; [exact Hx|]. intro H. apply NO, EO. auto.
    + apply N2; [auto|]. intro H. apply NO, EO. auto.
Qed.

Lemma View_seq o1 s1 o2 s2 (own : R -> option string -> Prop) i i1 i2 Q1 Q2 i3 G :
  Wrote o1 s1 i i1 Q1 -> Wrote o2 s2 i1 i2 Q2 ->
  (forall x s, own x s <-> o1 x s \/ o2 x s) ->
  (forall x s, o2 x s -> known i x) -> (forall x p, s2 x p -> known i x) ->
  (forall x s, o1 x s -> o2 x s -> False) ->
  (forall x p, o1 x (Some p) -> s2 x p -> False) -> (forall x p, o2 x (Some p) -> s1 x p -> False) ->
  View own i i2 (Q1 ++ Q2) i3 G -> View o1 i i1 Q1 i3 G /\ View o2 i1 i2 Q2 i3 G.
Proof.
  intros W1 W2 EO KO KS D12 D1 D2 [Vi Vn Vo Vm Vd Vr].
  pose proof W1 as [K1 I1 P1 O1 S1 Q1' N1]. pose proof W2 as [K2 I2 P2 O2 S2 Q2' N2]. split; split; auto.
  - intros q Hq. apply Vi, in_app_iff. auto.
  - intros q Hq Hk Hn. destruct (in_app_or _ _ _ (Vn q Hq (K2 _ Hk) Hn)) as [H|H]; [exact H|exfalso].
    destruct (Q2' q H) as (_ & [(p & [H'|H'] & _)|[_ H']]); eauto.
  - intros q p Hq Ho Ep. assert (HO : own (q_s q) (Some p)) by (apply EO; auto).
    destruct (in_app_or _ _ _ (Vo q p Hq HO Ep)) as [H|H]; [exact H|exfalso].
    destruct (Q2' q H) as (_ & [(p' & H' & Ep')|[_ H']]); [|apply H', K1; eauto].
    assert (p' = p). { apply DI; [eauto|eauto|congruence]. } subst p'. destruct H'; eauto.
  - intros x Hx Nx. eapply same_names_trans; [|apply Vm; auto]. apply N2; [exact Hx|]. intro H. apply Nx. eauto.
  - intros x Hx. eapply same_names_trans; [|apply Vd, EO; left; exact Hx]. apply N2; eauto.
  - intros q Hq. apply Vi, in_app_iff. auto.
  - intros q Hq Hk Hn. destruct (in_app_or _ _ _ (Vn q Hq Hk (fun H => Hn (K1 _ H)))) as [H|H]; [exfalso|exact H].
    destruct (Q1' q H) as (_ & [(p & [H'|H'] & _)|[H' _]]); eauto.
  - intros q p Hq Ho Ep. assert (HO : own (q_s q) (Some p)) by (apply EO; auto).
    destruct (in_app_or _ _ _ (Vo q p Hq HO Ep)) as [H|H]; [exfalso|exact H].
    destruct (Q1' q H) as (_ & [(p' & H' & Ep')|[_ H']]); [|apply H'; eauto].
    assert (p' = p). { apply DI; [eauto|eauto|congruence]. } subst p'. destruct H'; eauto.
  - intros x Hx. apply Vd, EO. auto.
Qed.

(** A new resource, for the part. *)
Lemma Wrote_new o sh (own : R -> option string -> Prop) (sh' : R -> string -> Prop) b i i1 i2 Q :
  rs_new i = (b, i1) -> Wrote o sh i1 i2 Q ->
  (forall x s, o x s -> x = b \/ own x s) -> (forall x p, sh x p -> x = b \/ sh' x p) ->
  (forall x s, own x s -> o x s /\ known i x) -> (forall x p, sh' x p -> sh x p /\ known i x) ->
  Wrote own sh' i i2 Q.
Proof.
  intros E [K1 I1 P1 O1 S1 Q1 N1] EO ES FO FS.
  assert (Kb := new_known (known := known) i). assert (Nb := new_unknown (known := known) i).
  assert (Nm := new_names (known := known) i). rewrite E in Kb, Nb, Nm. cbn [fst snd] in *.
  split; auto.
  - intros x Hx. apply K1, Kb. auto.
  - intros x p [H|H]; [apply FO in H as [H _]|apply FS in H as [H _]]; eauto.
  - intros x s H. now apply FO in H.
  - intros x s H. now apply FS in H.
  - intros q Hq. destruct (Q1 q Hq) as (Eg & [(p & H & Ep)|[H H']]); split; auto.
    + assert (Hb : q_s q = b \/ (own (q_s q) (Some p) \/ sh' (q_s q) p)).
      { destruct H as [H|H]; [apply EO in H|apply ES in H]; tauto. }
      destruct Hb as [Hb|Hb]; [right|left; eauto]. rewrite Hb. split; [apply K1, Kb; auto|exact Nb].
    + right. split; [exact H|]. intro H2. apply H', Kb. auto.
  - intros x Hx NO. eapply same_names_trans; [apply Nm|]. apply N1; [apply Kb; auto|].
    intro H. apply EO in H as [->|H]; auto.
Qed.

Lemma View_new o sh (own : R -> option string -> Prop) b i i1 i2 Q i3 G :
  rs_new i = (b, i1) -> Wrote o sh i1 i2 Q -> (forall x s, o x s -> x = b \/ own x s) ->
  View own i i2 Q i3 G -> View o i1 i2 Q i3 G.
Proof.
  intros E [K1 I1 P1 O1 S1 Q1 N1] EO [Vi Vn Vo Vm Vd Vr].
  assert (Kb := new_known (known := known) i). assert (Nb := new_unknown (known := known) i). rewrite E in Kb, Nb. cbn [fst snd] in *.
  split; auto.
  - intros q Hq Hk Hn. apply Vn; auto. intro H. apply Hn, Kb. auto.
  - intros q p Hq Ho Ep. destruct (EO _ _ Ho) as [Eb|Ho']; [|eauto].
    apply Vn; [exact Hq| |rewrite Eb; exact Nb]. rewrite Eb. apply K1, Kb. auto.
  - intros x Hx Nx. apply Vm; auto. intro H. apply Nx, Kb. auto.
  - intros x Hx. destruct (EO _ _ Hx) as [->|H]; [|auto]. apply Vm; [apply K1, Kb; auto|exact Nb].
Qed.

(** More slots. *)
Lemma Wrote_weaken o sh (own : R -> option string -> Prop) (sh' : R -> string -> Prop) i i' Q :
  Wrote o sh i i' Q -> (forall x s, o x s -> own x s) -> (forall x p, sh x p -> own x (Some p) \/ sh' x p) ->
  (forall x p, own x (Some p) \/ sh' x p -> prog p) -> (forall x s, own x s -> known i x) ->
  (forall x s, sh' x s -> known i x) ->
  Wrote own sh' i i' Q.
Proof.
  intros [K1 I1 P1 O1 S1 Q1 N1] HO HS HP HK HK'. split; auto.
  intros q Hq. destruct (Q1 q Hq) as (Eg & [(p & H & Ep)|H]); split; auto.
  left. exists p. split; [|exact Ep]. destruct H as [H|H]; [left|apply HS in H as [H|H]]; auto.
Qed.

Lemma View_weaken (o own : R -> option string -> Prop) i i' Q i2 G :
  (forall x s, o x s -> own x s) -> View own i i' Q i2 G -> View o i i' Q i2 G.
Proof. intros H [Vi Vn Vo Vm Vd Vr]. split; eauto. Qed.

(** Nothing. *)
Lemma Wrote_nil i : resolved i -> Wrote (fun _ _ => False) none i i [].
Proof. intros HR. split; auto; try (intros ? ? []; contradiction); try contradiction. intros. apply same_names_refl. Qed.

(** Constant properties of a node. *)
Definition said (x : R) (ps : list (string * string)) : list (quad R) :=
  map (fun po => Quad x (res (fst po)) (res (snd po)) None) ps.
Definition states (ps : list (string * string)) (s : option string) : Prop := exists p, s = Some p /\ In p (map fst ps).

Lemma Wrote_said x ps i : resolved i -> known i x -> (forall p, In p (map fst ps) -> prog p) ->
  Wrote (at_node x (states ps)) none i i (said x ps).
Proof.
  intros HR HK HP. split; auto.
  - intros y p [(_ & p' & [= ->] & H)|[]]. auto.
  - intros y s (-> & _). exact HK.
  - intros y p [].
  - intros q Hq. apply in_map_iff in Hq as (po & <- & Hq). split; [reflexivity|left]. exists (fst po).
    split; [left|reflexivity]. split; [reflexivity|]. exists (fst po). split; [reflexivity|]. now apply in_map.
  - intros y _ _. apply same_names_refl.
Qed.

(** A property of a node. *)
Lemma Wrote_quad x p y i : resolved i -> known i x -> prog p ->
  Wrote (at_node x (eq (Some p))) none i i [Quad x (res p) y None].
Proof.
  intros HR HK HP. split; auto.
  - intros z p' [(_ & [= <-])|[]]. auto.
  - intros z s (-> & _). exact HK.
  - intros z p' [].
  - intros q [<-|[]]. split; [reflexivity|left]. exists p. split; [left|reflexivity]. split; reflexivity.
  - intros z _ _. apply same_names_refl.
Qed.

(** A property of a node, among others. *)
Lemma Wrote_shared x p y i : resolved i -> known i x -> prog p ->
  Wrote (fun _ _ => False) (fun z p' => z = x /\ p' = p) i i [Quad x (res p) y None].
Proof.
  intros HR HK HP. split; auto.
  - intros z p' [[]|[_ ->]]. auto.
  - intros z p' [].
  - intros z p' [-> _]. auto.
  - intros q [<-|[]]. split; [reflexivity|left]. exists p. split; [right|reflexivity]. split; reflexivity.
  - intros z _ _. apply same_names_refl.
Qed.

(** A name. *)
Lemma Wrote_iri x s i : resolved i -> known i x -> ~ prog s ->
  Wrote (at_node x (eq None)) none i (rt_assign_iri x s i) [].
Proof.
  intros HR HK HP. split; auto.
  - intros y Hy. now apply assign_iri_known.
  - intros s' Hs. rewrite assign_iri_iris by (intros ->; contradiction). auto.
  - intros y p [(_ & [=])|[]].
  - intros y s' (-> & _). exact HK.
  - intros y p [].
  - intros q [].
  - intros y Hy NO. apply assign_iri_others. intros ->. apply NO. split; reflexivity.
Qed.
Lemma Wrote_blank x s i : resolved i -> known i x ->
  Wrote (at_node x (eq None)) none i (rt_assign_blank x s i) [].
Proof.
  intros HR HK. split; auto.
  - intros y Hy. now apply assign_blank_known.
  - intros s' Hs. rewrite assign_blank_iris. auto.
  - intros y p [(_ & [=])|[]].
  - intros y s' (-> & _). exact HK.
  - intros y p [].
  - intros q [].
  - intros y Hy NO. apply assign_blank_others. intros ->. apply NO. split; reflexivity.
Qed.
Lemma Wrote_literal x l i : resolved i -> known i x ->
  Wrote (at_node x (eq None)) none i (rt_assign_literal x l i) [].
Proof.
  intros HR HK. split; auto.
  - intros y Hy. now apply assign_literal_known.
  - intros s' Hs. rewrite assign_literal_iris. auto.
  - intros y p [(_ & [=])|[]].
  - intros y s' (-> & _). exact HK.
  - intros y p [].
  - intros q [].
  - intros y Hy NO. apply assign_literal_others. intros ->. apply NO. split; reflexivity.
Qed.
End Writes.
