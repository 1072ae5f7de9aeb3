(** * Two executions of the dehydration compared

    The dehydration is parametric in the interpretation: executions from related states, on
    related resources, with related recursive calls stay related.  Used for the fuel, for the
    initial content of the output, and for the log of the introduced resources. *)

From Coq Require Import String List Bool Arith NArith Lia Qcanon Permutation.
Import ListNotations.
From Verif Require Import Base BaseProofs Orders PatternModel ValueModel ValueProofs LayoutModel HydrateModel TermModel
  LayoutSpec DehydrateModel DehydrateSpec DehydrateProofs.
Open Scope list_scope.
Open Scope nat_scope.

Section Sim.
Context {Q S1 S2 I1 I2 : Type} {C1 : Cmp S1} {C2 : Cmp S2} {X : Xsd} {IS : IriSyntax}.
Variable ops1 : interpretation Q S1 I1.
Variable ops2 : interpretation Q S2 I2.
Variable reg : registry Q.
Notation state1 := (dstate S1 I1).
Notation state2 := (dstate S2 I2).

(** Related resources and states. *)
Variable RS : S1 -> S2 -> Prop.
Variable RT : state1 -> state2 -> Prop.

Definition quad_rel (q1 : quad S1) (q2 : quad S2) : Prop :=
  RS (q_s q1) (q_s q2) /\ RS (q_p q1) (q_p q2) /\ RS (q_o q1) (q_o q2) /\
  match q_g q1, q_g q2 with
  | None, None => True
  | Some g1, Some g2 => RS g1 g2
  | _, _ => False
  end.

Hypothesis H_into : forall q, RS (into ops1 q) (into ops2 q).
Hypothesis H_new : forall i1 o1 i2 o2, RT (DState i1 o1) (DState i2 o2) ->
  RS (fst (new_resource ops1 i1)) (fst (new_resource ops2 i2)) /\
  RT (DState (snd (new_resource ops1 i1)) o1) (DState (snd (new_resource ops2 i2)) o2).
Hypothesis H_iri : forall i1 o1 i2 o2 r1 r2 s, RT (DState i1 o1) (DState i2 o2) -> RS r1 r2 ->
  RT (DState (assign_iri ops1 r1 s i1) o1) (DState (assign_iri ops2 r2 s i2) o2).
Hypothesis H_literal : forall i1 o1 i2 o2 r1 r2 l, RT (DState i1 o1) (DState i2 o2) -> RS r1 r2 ->
  RT (DState (assign_literal ops1 r1 l i1) o1) (DState (assign_literal ops2 r2 l i2) o2).
Hypothesis H_iris : forall i1 o1 i2 o2 q, RT (DState i1 o1) (DState i2 o2) ->
  iris_in ops1 i1 (into ops1 q) = iris_in ops2 i2 (into ops2 q).
Hypothesis H_emit : forall i1 o1 i2 o2 q1 q2, RT (DState i1 o1) (DState i2 o2) -> quad_rel q1 q2 ->
  RT (DState i1 (ds_insert q1 o1)) (DState i2 (ds_insert q2 o2)).
(** Related quads are equal together (needed for the temporary datasets of the variants). *)
Hypothesis H_tmp : forall d1 d2 q1 q2, Forall2 quad_rel d1 d2 -> quad_rel q1 q2 ->
  Forall2 quad_rel (ds_insert q1 d1) (ds_insert q2 d2).

Notation M1 := (M (Q := Q) (S := S1) (I := I1)).
Notation M2 := (M (Q := Q) (S := S2) (I := I2)).

(** The first execution ran out of fuel, or the outcomes and the states are related. *)
Definition sim_out {A B} (RA : A -> B -> Prop) (o1 : outcome (derr (Q := Q)) A)
  (o2 : outcome (derr (Q := Q)) B) : Prop :=
  match o1, o2 with
  | OutOfFuel, _ => True
  | Ok a, Ok b => RA a b
  | Err e1, Err e2 => e1 = e2
  | Panic w1, Panic w2 => w1 = w2
  | _, _ => False
  end.

Definition sim {A B} (RA : A -> B -> Prop) (m1 : M1 A) (m2 : M2 B) : Prop :=
  forall st1 st2, RT st1 st2 ->
  fst (m1 st1) = OutOfFuel \/
  (sim_out RA (fst (m1 st1)) (fst (m2 st2)) /\ RT (snd (m1 st1)) (snd (m2 st2))).

Lemma s_ret {A B} (RA : A -> B -> Prop) a b : RA a b -> sim RA (ret a) (ret b).
Proof. intros H st1 st2 R. right. now split. Qed.
Lemma s_raise {A B} (RA : A -> B -> Prop) e : sim RA (raise e) (raise e).
Proof. intros st1 st2 R. right. split; [reflexivity|exact R]. Qed.
Lemma s_lift {A B} (RA : A -> B -> Prop) o1 o2 : sim_out RA o1 o2 -> sim RA (lift o1) (lift o2).
Proof. intros H st1 st2 R. right. split; [exact H|exact R]. Qed.

Lemma s_bind {A1 A2 B1 B2} (RA : A1 -> A2 -> Prop) (RB : B1 -> B2 -> Prop) m1 m2 k1 k2 :
  sim RA m1 m2 -> (forall a1 a2, RA a1 a2 -> sim RB (k1 a1) (k2 a2)) ->
  sim RB (bindM m1 k1) (bindM m2 k2).
Proof.
  intros Hm Hk st1 st2 R. unfold bindM. destruct (Hm st1 st2 R) as [E|[Ho Hs]].
  - destruct (m1 st1) as [[a|e|w|] s1]; simpl in E; try discriminate. now left.
  - destruct (m1 st1) as [[a|e|w|] s1], (m2 st2) as [[b|e'|w'|] s2]; simpl in *;
      try contradiction; try (left; reflexivity); try (right; split; assumption).
    now apply Hk.
Qed.

Lemma s_is_ok {A B} (RA : A -> B -> Prop) m1 m2 : sim RA m1 m2 -> sim eq (is_ok m1) (is_ok m2).
Proof.
  intros Hm st1 st2 R. unfold is_ok. destruct (Hm st1 st2 R) as [E|[Ho Hs]].
  - destruct (m1 st1) as [[a|e|w|] s1]; simpl in E; try discriminate. now left.
  - destruct (m1 st1) as [[a|e|w|] s1], (m2 st2) as [[b|e'|w'|] s2]; simpl in *;
      try contradiction; try (left; reflexivity); right; split; auto.
Qed.

Lemma s_new : sim RS (new_resourceM ops1) (new_resourceM ops2).
Proof.
  intros [i1 o1] [i2 o2] R. right. unfold new_resourceM. simpl.
  pose proof (H_new _ _ _ _ R) as [H1 H2].
  destruct (new_resource ops1 i1), (new_resource ops2 i2). simpl in *. now split.
Qed.

Lemma s_news n : sim (Forall2 RS) (new_resources ops1 n) (new_resources ops2 n).
Proof.
  induction n as [|n IH]; cbn [new_resources]; [apply s_ret; constructor|].
  eapply s_bind; [apply s_new|]. intros r1 r2 Hr.
  eapply s_bind; [apply IH|]. intros rs1 rs2 Hrs. apply s_ret. now constructor.
Qed.

Definition env_rel (e1 : env S1) (e2 : env S2) : Prop := Forall2 RS (env_list e1) (env_list e2).

Lemma s_env_intro e1 e2 n : env_rel e1 e2 -> sim env_rel (env_intro ops1 e1 n) (env_intro ops2 e2 n).
Proof.
  intro He. eapply s_bind; [apply s_news|]. intros rs1 rs2 Hrs. apply s_ret.
  unfold env_rel. simpl. now apply Forall2_app.
Qed.

Lemma s_pattern e1 e2 p : env_rel e1 e2 ->
  sim_out RS (instantiate_pattern ops1 e1 p) (instantiate_pattern ops2 e2 p).
Proof.
  intro He. unfold env_rel in He. destruct p as [q|x]; simpl; [apply H_into|].
  rewrite !env_get_spec. remember (env_list e1) as l1. remember (env_list e2) as l2.
  clear Heql1 Heql2.
  assert (match nth_error l1 x, nth_error l2 x with
          | Some a, Some b => RS a b | None, None => True | _, _ => False end) as H.
  { clear -He. revert x. induction He as [|a b l1 l2 Hab He IHe]; intros [|y]; simpl; [exact Logic.I|exact Logic.I|exact Hab|exact (IHe y)]. }
  destruct (nth_error l1 x), (nth_error l2 x); simpl; try contradiction; auto.
Qed.

Lemma s_patterns e1 e2 ps : env_rel e1 e2 ->
  sim_out (Forall2 RS) (instantiate_patterns ops1 e1 ps) (instantiate_patterns ops2 e2 ps).
Proof.
  intro He. unfold instantiate_patterns. induction ps as [|p ps IH]; cbn [mapM]; [constructor|].
  pose proof (s_pattern e1 e2 p He) as H.
  destruct (instantiate_pattern ops1 e1 p), (instantiate_pattern ops2 e2 p); simpl in *;
    try contradiction; auto.
  destruct (mapM (instantiate_pattern ops1 e1) ps), (mapM (instantiate_pattern ops2 e2) ps);
    simpl in *; try contradiction; auto.
Qed.

Lemma s_quad e1 e2 p : env_rel e1 e2 ->
  sim_out quad_rel (instantiate_quad ops1 e1 p) (instantiate_quad ops2 e2 p).
Proof.
  intro He. unfold instantiate_quad.
  pose proof (s_pattern e1 e2 (q_s p) He) as Hs.
  destruct (instantiate_pattern ops1 e1 (q_s p)), (instantiate_pattern ops2 e2 (q_s p)); simpl in *;
    try contradiction; auto.
  pose proof (s_pattern e1 e2 (q_p p) He) as Hp.
  destruct (instantiate_pattern ops1 e1 (q_p p)), (instantiate_pattern ops2 e2 (q_p p)); simpl in *;
    try contradiction; auto.
  pose proof (s_pattern e1 e2 (q_o p) He) as Ho.
  destruct (instantiate_pattern ops1 e1 (q_o p)), (instantiate_pattern ops2 e2 (q_o p)); simpl in *;
    try contradiction; auto.
  destruct (q_g p) as [g|]; simpl; [|unfold quad_rel; simpl; auto].
  pose proof (s_pattern e1 e2 g He) as Hg.
  destruct (instantiate_pattern ops1 e1 g), (instantiate_pattern ops2 e2 g); simpl in *;
    try contradiction; auto. unfold quad_rel; simpl; auto.
Qed.

Lemma s_emit qs1 qs2 : Forall2 quad_rel qs1 qs2 -> sim eq (emit qs1) (emit qs2).
Proof.
  intros H [i1 o1] [i2 o2] R. right. unfold emit. simpl. split; [reflexivity|].
  revert o1 o2 R. induction H as [|q1 q2 qs1 qs2 Hq H IH]; intros o1 o2 R; simpl; [exact R|].
  apply IH. now apply H_emit.
Qed.

Lemma s_dataset e1 e2 qs : env_rel e1 e2 ->
  sim eq (instantiate_dataset ops1 e1 qs) (instantiate_dataset ops2 e2 qs).
Proof.
  intro He. induction qs as [|q qs IH]; cbn [instantiate_dataset]; [now apply s_ret|].
  eapply s_bind; [apply s_lift, s_quad, He|]. intros q1 q2 Hq.
  eapply s_bind; [apply s_emit; constructor; [exact Hq|constructor]|]. intros _ _ _. exact IH.
Qed.

Lemma s_variant_dataset e1 e2 qs : env_rel e1 e2 ->
  sim_out (Forall2 quad_rel) (instantiate_variant_dataset ops1 e1 qs)
                             (instantiate_variant_dataset ops2 e2 qs).
Proof.
  intro He. unfold instantiate_variant_dataset.
  assert (sim_out (Forall2 quad_rel) (mapM (instantiate_quad ops1 e1) qs)
                                     (mapM (instantiate_quad ops2 e2) qs)) as H.
  { induction qs as [|q qs IH]; cbn [mapM]; [constructor|].
    pose proof (s_quad e1 e2 q He) as H.
    destruct (instantiate_quad ops1 e1 q), (instantiate_quad ops2 e2 q); simpl in *;
      try contradiction; auto.
    destruct (mapM (instantiate_quad ops1 e1) qs), (mapM (instantiate_quad ops2 e2) qs);
      simpl in *; try contradiction; auto. }
  destruct (mapM (instantiate_quad ops1 e1) qs) as [l1| | |], (mapM (instantiate_quad ops2 e2) qs) as [l2| | |];
    simpl in *; try contradiction; auto.
  assert (forall d1 d2, Forall2 quad_rel d1 d2 ->
    Forall2 quad_rel (fold_left (fun d q => ds_insert q d) l1 d1)
                     (fold_left (fun d q => ds_insert q d) l2 d2)) as G.
  { clear -H H_tmp. induction H as [|q1 q2 l1 l2 Hq H IH]; intros d1 d2 Hd; simpl; [exact Hd|].
    apply IH. now apply H_tmp. }
  apply G. constructor.
Qed.

Lemma s_open e1 e2 n qs : env_rel e1 e2 -> sim env_rel (open ops1 e1 n qs) (open ops2 e2 n qs).
Proof.
  intro He. eapply s_bind; [apply s_env_intro, He|]. intros e1' e2' He'.
  eapply s_bind; [apply s_dataset, He'|]. intros _ _ _. now apply s_ret.
Qed.

Lemma s_literal k v dt :
  match dehydrate_literal ops1 k v (into ops1 dt), dehydrate_literal ops2 k v (into ops2 dt) with
  | Some m1, Some m2 => sim eq m1 m2
  | None, None => True
  | _, _ => False
  end.
Proof.
  destruct k, v; simpl; try exact Logic.I; intros [i1 o1] [i2 o2] R; right;
    pose proof (H_iris i1 o1 i2 o2 dt R) as E.
  - unfold dehydrate_boolean. simpl. rewrite E. destruct (existsb _ _); simpl; auto.
  - unfold dehydrate_number. simpl. rewrite E. destruct (number_literal _ _); simpl; auto.
  - simpl. auto.
  - unfold dehydrate_text_string. simpl. rewrite E. destruct (iris_in ops2 i2 (into ops2 dt)); simpl; auto.
Qed.

Section Body.
Variable rec1 : value -> option S1 -> Q -> list S1 -> M1 unit.
Variable rec2 : value -> option S2 -> Q -> list S2 -> M2 unit.
Definition graph_rel (g1 : option S1) (g2 : option S2) : Prop :=
  match g1, g2 with Some a, Some b => RS a b | None, None => True | _, _ => False end.
Hypothesis H_rec : forall v g1 g2 ref in1 in2, graph_rel g1 g2 -> Forall2 RS in1 in2 ->
  sim eq (rec1 v g1 ref in1) (rec2 v g2 ref in2).

Lemma s_sub_value v g1 g2 vf e1 e2 : graph_rel g1 g2 -> env_rel e1 e2 ->
  sim eq (dehydrate_sub_value ops1 rec1 v g1 vf e1) (dehydrate_sub_value ops2 rec2 v g2 vf e2).
Proof.
  intros Hg He. unfold dehydrate_sub_value.
  eapply s_bind; [apply s_lift, s_patterns, He|]. intros in1 in2 Hin.
  eapply (s_bind graph_rel); [|intros g1' g2' Hg'; now apply H_rec].
  destruct (vf_graph vf) as [[p|]|]; [|now apply s_ret|now apply s_ret].
  eapply s_bind; [apply s_lift, s_pattern, He|]. intros r1 r2 Hr. now apply s_ret.
Qed.

Definition sel_rel (s1 : option (list (quad S1))) (s2 : option (list (quad S2))) : Prop :=
  match s1, s2 with Some a, Some b => Forall2 quad_rel a b | None, None => True | _, _ => False end.

Lemma s_variants v g1 g2 e1 e2 vs : graph_rel g1 g2 -> env_rel e1 e2 -> forall sel1 sel2,
  sel_rel sel1 sel2 ->
  sim sel_rel (dehydrate_variants ops1 rec1 v g1 e1 vs sel1) (dehydrate_variants ops2 rec2 v g2 e2 vs sel2).
Proof.
  intros Hg He. induction vs as [|va vs IH]; intros sel1 sel2 Hsel; cbn [dehydrate_variants];
    [now apply s_ret|].
  eapply s_bind; [apply s_env_intro, He|]. intros e1' e2' He'.
  eapply s_bind; [apply s_lift, s_variant_dataset, He'|]. intros d1 d2 Hd.
  eapply s_bind; [eapply s_is_ok, s_sub_value; eassumption|]. intros ok _ <-.
  destruct ok; [|now apply IH].
  destruct sel1, sel2; simpl in Hsel; try contradiction; [apply s_raise|]. now apply IH.
Qed.

Lemma s_entries g1 g2 e1 e2 fs m : graph_rel g1 g2 -> env_rel e1 e2 ->
  sim eq (dehydrate_entries ops1 rec1 g1 e1 fs m) (dehydrate_entries ops2 rec2 g2 e2 fs m).
Proof.
  intros Hg He. induction m as [|[k v] m IH]; cbn [dehydrate_entries]; [now apply s_ret|].
  destruct (bt_get k fs); [|apply s_raise].
  eapply s_bind; [apply s_open, He|]. intros e1' e2' He'.
  eapply s_bind; [now apply s_sub_value|]. intros _ _ _. exact IH.
Qed.

Lemma s_check ref m fs : sim eq (check_required ref m fs) (check_required ref m fs).
Proof.
  induction fs as [|[k f] fs IH]; cbn [check_required]; [now apply s_ret|].
  destruct (_ && _); [apply s_raise|exact IH].
Qed.

Lemma s_items g1 g2 e1 e2 it l : graph_rel g1 g2 -> env_rel e1 e2 ->
  sim eq (dehydrate_items ops1 rec1 g1 e1 it l) (dehydrate_items ops2 rec2 g2 e2 it l).
Proof.
  intros Hg He. induction l as [|v l IH]; cbn [dehydrate_items]; [now apply s_ret|].
  eapply s_bind; [apply s_open, He|]. intros e1' e2' He'.
  eapply s_bind; [now apply s_sub_value|]. intros _ _ _. exact IH.
Qed.

Lemma s_nodes g1 g2 e1 e2 node tl l : graph_rel g1 g2 -> env_rel e1 e2 -> forall h1 h2, RS h1 h2 ->
  sim eq (dehydrate_nodes ops1 rec1 g1 e1 node tl h1 l) (dehydrate_nodes ops2 rec2 g2 e2 node tl h2 l).
Proof.
  intros Hg He. induction l as [|v l IH]; intros h1 h2 Hh; cbn [dehydrate_nodes]; [now apply s_ret|].
  eapply (s_bind RS); [destruct l; [apply s_lift, s_pattern, He|apply s_new]|]. intros r1 r2 Hr.
  eapply s_bind; [apply s_open|].
  { unfold env_rel. simpl. apply Forall2_app; [exact He|]. now repeat constructor. }
  intros e1' e2' He'. eapply s_bind; [now apply s_sub_value|]. intros _ _ _. now apply IH.
Qed.

Lemma s_tuple g1 g2 e1 e2 l : graph_rel g1 g2 -> env_rel e1 e2 -> forall its,
  sim eq (dehydrate_tuple ops1 rec1 g1 e1 its l) (dehydrate_tuple ops2 rec2 g2 e2 its l).
Proof.
  intros Hg He. induction l as [|v l IH]; intros [|it its]; cbn [dehydrate_tuple];
    try apply s_raise; [now apply s_ret|].
  eapply s_bind; [apply s_open, He|]. intros e1' e2' He'.
  eapply s_bind; [now apply s_sub_value|]. intros _ _ _. apply IH.
Qed.

Lemma s_layout v g1 g2 ref l in1 in2 : graph_rel g1 g2 -> Forall2 RS in1 in2 ->
  sim eq (dehydrate_layout ops1 rec1 v g1 ref l in1) (dehydrate_layout ops2 rec2 v g2 ref l in2).
Proof.
  intros Hg Hin. assert (env_rel (Root in1) (Root in2)) as He by exact Hin.
  destruct l as [| |h c|k h r dt|h r pat|h fs|h vs|h it|h node hd tl|h its];
    cbn [dehydrate_layout].
  - apply s_raise.
  - now apply s_ret.
  - destruct (eqb v c); [|apply s_raise].
    eapply s_bind; [apply s_open, He|]. intros. now apply s_ret.
  - destruct v as [v|m|vs]; try apply s_raise. pose proof (s_literal k v dt) as H.
    destruct (dehydrate_literal ops1 k v (into ops1 dt)),
             (dehydrate_literal ops2 k v (into ops2 dt)); try contradiction; [|apply s_raise].
    eapply s_bind; [apply s_open, He|]. intros e1 e2 He'.
    eapply s_bind; [apply s_lift, s_pattern, He'|]. intros r1 r2 Hr.
    eapply s_bind; [exact H|]. intros lit _ <- [i1 o1] [i2 o2] R. right. split; [reflexivity|].
    now apply H_literal.
  - destruct v as [[| | | |s]|m|vs]; try apply s_raise.
    eapply s_bind; [apply s_open, He|]. intros e1 e2 He'.
    eapply s_bind; [apply s_lift, s_pattern, He'|]. intros r1 r2 Hr.
    destruct (is_iri s); [|apply s_raise]. intros [i1 o1] [i2 o2] R. right. split; [reflexivity|].
    now apply H_iri.
  - destruct v as [v|m|vs]; try apply s_raise.
    eapply s_bind; [apply s_open, He|]. intros e1 e2 He'.
    eapply s_bind; [now apply s_entries|]. intros _ _ _. apply s_check.
  - eapply s_bind; [apply s_open, He|]. intros e1 e2 He'.
    eapply s_bind; [now apply s_variants|]. intros sel1 sel2 Hsel.
    destruct sel1, sel2; simpl in Hsel; try contradiction; [now apply s_emit|apply s_raise].
  - destruct v as [v|m|vs]; try apply s_raise.
    eapply s_bind; [apply s_open, He|]. intros e1 e2 He'. now apply s_items.
  - destruct v as [v|m|vs]; try apply s_raise.
    eapply s_bind; [apply s_open, He|]. intros e1 e2 He'.
    eapply s_bind; [apply s_lift, s_pattern, He'|]. intros r1 r2 Hr. now apply s_nodes.
  - destruct v as [v|m|vs]; try apply s_raise.
    eapply s_bind; [apply s_open, He|]. intros e1 e2 He'. now apply s_tuple.
Qed.

Lemma s_body v g1 g2 ref in1 in2 : graph_rel g1 g2 -> Forall2 RS in1 in2 ->
  sim eq (dehydrate_body ops1 reg rec1 v g1 ref in1) (dehydrate_body ops2 reg rec2 v g2 ref in2).
Proof.
  intros Hg Hin. unfold dehydrate_body. destruct (reg ref) as [l|]; [|apply s_raise].
  assert (length in1 = length in2) as El by (clear -Hin; induction Hin; simpl; congruence).
  rewrite El. destruct (input_count l); [|now apply s_layout].
  destruct (Nat.eqb _ _); [now apply s_layout|apply s_raise].
Qed.
End Body.

Theorem dehydrate_sim fuel1 : forall fuel2 v g1 g2 ref in1 in2,
  fuel1 <= fuel2 -> graph_rel g1 g2 -> Forall2 RS in1 in2 ->
  sim eq (dehydrate_with ops1 reg fuel1 v g1 ref in1) (dehydrate_with ops2 reg fuel2 v g2 ref in2).
Proof.
  induction fuel1 as [|fuel1 IH]; intros fuel2 v g1 g2 ref in1 in2 Hf Hg Hin.
  - intros st1 st2 R. now left.
  - destruct fuel2 as [|fuel2]; [lia|]. cbn [dehydrate_with]. apply s_body; [|exact Hg|exact Hin].
    intros. apply IH; [lia|assumption|assumption].
Qed.

End Sim.

(** ** More fuel changes nothing *)
Section Fuel.
Context {Q S I : Type} {CS : Cmp S} {X : Xsd} {IS : IriSyntax}.
Variable ops : interpretation Q S I.
Variable reg : registry Q.

Lemma Forall2_eq {A} (l1 l2 : list A) : Forall2 eq l1 l2 <-> l1 = l2.
Proof.
  split; [|intros ->; induction l2; constructor; auto].
  induction 1; congruence.
Qed.

Lemma quad_rel_eq (q1 q2 : quad S) : quad_rel eq q1 q2 <-> q1 = q2.
Proof.
  unfold quad_rel. destruct q1 as [s p o [g|]], q2 as [s' p' o' [g'|]]; simpl; split;
    try (intros (? & ? & ? & ?); congruence); try tauto; try (intros [= ]; subst; tauto); discriminate.
Qed.

Theorem dehydrate_fuel fuel fuel' v g ref inputs st :
  fuel <= fuel' -> fst (dehydrate_with ops reg fuel v g ref inputs st) <> OutOfFuel ->
  dehydrate_with ops reg fuel' v g ref inputs st = dehydrate_with ops reg fuel v g ref inputs st.
Proof.
  intros Hf HN.
  destruct (dehydrate_sim ops ops reg eq eq ltac:(reflexivity) ltac:(intros * [= -> ->]; auto)
    ltac:(intros * [= -> ->] ->; auto) ltac:(intros * [= -> ->] ->; auto) ltac:(intros * [= -> ->]; auto)
    ltac:(intros * [= -> ->] E; apply quad_rel_eq in E; subst; auto)
    ltac:(intros d1 d2 q1 q2 Hd Hq; apply quad_rel_eq in Hq; subst q2;
          assert (d1 = d2) by (clear -Hd; induction Hd; [reflexivity|f_equal; [now apply quad_rel_eq|assumption]]);
          subst d2; clear; induction (ds_insert q1 d1); constructor; [now apply quad_rel_eq|assumption])
    fuel fuel' v g g ref inputs inputs Hf ltac:(destruct g; simpl; auto)
    ltac:(apply Forall2_eq; reflexivity) st st eq_refl) as [E|[Ho Hs]]; [contradiction|].
  destruct (dehydrate_with ops reg fuel v g ref inputs st) as [o1 s1],
           (dehydrate_with ops reg fuel' v g ref inputs st) as [o2 s2]. simpl in *. subst s2.
  destruct o1, o2; simpl in Ho; try contradiction; try congruence.
Qed.
End Fuel.
