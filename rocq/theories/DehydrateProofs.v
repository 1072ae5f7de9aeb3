(** * Lemmas on dehydration: environments, state changes, what a success tells *)

From Coq Require Import String List Bool Arith NArith Lia Qcanon Permutation.
Import ListNotations.
From Verif Require Import Base BaseProofs Orders PatternModel ValueModel ValueProofs LayoutModel HydrateModel TermModel
  LayoutSpec DehydrateModel DehydrateSpec.
Open Scope list_scope.
Open Scope nat_scope.

(** ** Resources *)

Lemma cmp_res_def (a b : res) : cmp a b = cmp (res_key a) (res_key b).
Proof. reflexivity. Qed.

Lemma res_key_inj a b : res_key a = res_key b -> a = b.
Proof. destruct a, b; simpl; congruence. Qed.

Global Instance cmp_res_laws : CmpLaws res.
Proof.
  split; intros *; rewrite !cmp_res_def.
  - rewrite cmp_eq. split; [apply res_key_inj|congruence].
  - apply cmp_opp.
  - apply cmp_trans.
Qed.

(** ** Environments *)

Lemma env_get_spec {S} (e : env S) : forall i,
  env_get e i = match nth_error (env_list e) i with
                | Some r => inl r
                | None => inr (i - length (env_list e))
                end.
Proof.
  induction e as [inputs|parent IH intros]; intro i; simpl; [reflexivity|].
  rewrite IH. destruct (nth_error (env_list parent) i) as [r|] eqn:E.
  - rewrite nth_error_app1; [now rewrite E|]. apply nth_error_Some. congruence.
  - apply nth_error_None in E. rewrite nth_error_app2 by exact E.
    destruct (nth_error intros (i - length (env_list parent))) as [r|]; [reflexivity|].
    rewrite app_length. f_equal. lia.
Qed.

Section Instantiate.
Context {Q S I : Type} {CS : Cmp S} {CSL : CmpLaws S}.
Variable ops : interpretation Q S I.

Lemma ds_insert_In (q : quad S) d x : In x (ds_insert q d) <-> x = q \/ In x d.
Proof.
  unfold ds_insert. destruct (existsb _ d) eqn:E.
  - apply existsb_exists in E. destruct E as (q' & Hq' & E).
    apply andb_true_iff in E. destruct E as [E Eg].
    apply andb_true_iff in E. destruct E as [E Eo].
    apply andb_true_iff in E. destruct E as [Es Ep].
    apply (proj1 (eqb_eq (q_s q) (q_s q'))) in Es. apply (proj1 (eqb_eq (q_p q) (q_p q'))) in Ep.
    apply (proj1 (eqb_eq (q_o q) (q_o q'))) in Eo.
    assert (q = q') as ->.
    { destruct q as [s p o g], q' as [s' p' o' g']; simpl in *. subst.
      destruct g as [g|], g' as [g'|]; try discriminate; [apply (proj1 (eqb_eq g g')) in Eg; rewrite Eg; reflexivity|reflexivity]. }
    split; [now right|]. intros [-> |H]; assumption.
  - rewrite in_app_iff. simpl. intuition.
Qed.

Lemma ds_insert_all_In (qs : list (quad S)) : forall d x,
  In x (fold_left (fun d q => ds_insert q d) qs d) <-> In x qs \/ In x d.
Proof.
  induction qs as [|q qs IH]; intros d x; simpl; [tauto|].
  rewrite IH, ds_insert_In. intuition.
Qed.

Lemma ds_insert_NoDup (q : quad S) d : NoDup d -> NoDup (ds_insert q d).
Proof.
  intro N. unfold ds_insert. destruct (existsb _ d) eqn:E; [exact N|].
  apply (Permutation_NoDup (l := q :: d)); [apply Permutation_cons_append|].
  constructor; [|exact N]. intro H. rewrite <- not_true_iff_false in E. apply E.
  apply existsb_exists. exists q. split; [exact H|]. rewrite !eqb_refl. simpl.
  destruct (q_g q); [apply eqb_refl|reflexivity].
Qed.

Lemma ds_insert_all_NoDup (qs : list (quad S)) : forall d,
  NoDup d -> NoDup (fold_left (fun d q => ds_insert q d) qs d).
Proof.
  induction qs as [|q qs IH]; intros d N; simpl; [exact N|]. now apply IH, ds_insert_NoDup.
Qed.

Lemma instantiate_pattern_Ok e p r :
  instantiate_pattern ops e p = Ok r <-> inst (into ops) (env_list e) p r.
Proof.
  unfold instantiate_pattern. destruct p as [q|x].
  - split; [intros [= <-]; constructor|]. inversion 1; reflexivity.
  - rewrite env_get_spec. destruct (nth_error (env_list e) x) as [r'|] eqn:E.
    + split; [intros [= <-]; now constructor|]. inversion 1; congruence.
    + split; [discriminate|]. inversion 1; congruence.
Qed.

Lemma instantiate_pattern_cases e p :
  (exists r, instantiate_pattern ops e p = Ok r) \/
  exists x, p = PVar x /\ length (env_list e) <= x /\
            instantiate_pattern ops e p = Err (DUndeclaredVariable x).
Proof.
  unfold instantiate_pattern. destruct p as [q|x]; [left; eauto|].
  rewrite env_get_spec. destruct (nth_error (env_list e) x) as [r'|] eqn:E; [left; eauto|].
  right. exists x. split; [reflexivity|]. split; [now apply nth_error_None|reflexivity].
Qed.

Lemma instantiate_patterns_Ok e ps rs :
  instantiate_patterns ops e ps = Ok rs <-> Forall2 (inst (into ops) (env_list e)) ps rs.
Proof.
  unfold instantiate_patterns. rewrite mapM_Ok. split; intro H.
  - induction H; constructor; [now apply instantiate_pattern_Ok|assumption].
  - induction H; constructor; [now apply instantiate_pattern_Ok|assumption].
Qed.

Lemma instantiate_quad_Ok e p q :
  instantiate_quad ops e p = Ok q <-> inst_quad (into ops) (env_list e) p q.
Proof.
  unfold instantiate_quad, inst_quad. destruct p as [s p o g], q as [s' p' o' g']; simpl. split.
  - intro H. apply bind_Ok in H as (s1 & Hs & H). apply bind_Ok in H as (p1 & Hp & H).
    apply bind_Ok in H as (o1 & Ho & H). apply instantiate_pattern_Ok in Hs, Hp, Ho.
    destruct g as [g|].
    + apply bind_Ok in H as (g1 & Hg & H). apply instantiate_pattern_Ok in Hg.
      injection H as <- <- <- <-. repeat split; try assumption. now constructor.
    + injection H as <- <- <- <-. repeat split; try assumption. constructor.
  - intros (Hs & Hp & Ho & Hg). apply instantiate_pattern_Ok in Hs, Hp, Ho.
    rewrite Hs, Hp, Ho. simpl. inversion Hg; subst; [reflexivity|].
    match goal with H : inst _ _ _ _ |- _ => apply instantiate_pattern_Ok in H; rewrite H end.
    reflexivity.
Qed.

End Instantiate.

(** ** Computations *)

Section Monad.
Context {Q S I : Type}.
Notation M := (M (Q := Q) (S := S) (I := I)).

Lemma bindM_Ok {A B} (m : M A) (k : A -> M B) b st st' :
  bindM m k st = (Ok b, st') <->
  exists a st1, m st = (Ok a, st1) /\ k a st1 = (Ok b, st').
Proof.
  unfold bindM. destruct (m st) as [[a|e|w|] st1].
  - split; [intro H; now exists a, st1|]. intros (a' & st1' & E & H). congruence.
  - split; [discriminate|]. intros (a' & st1' & E & H). discriminate.
  - split; [discriminate|]. intros (a' & st1' & E & H). discriminate.
  - split; [discriminate|]. intros (a' & st1' & E & H). discriminate.
Qed.

Lemma lift_Ok {A} (o : outcome (derr (Q := Q)) A) a st st' :
  lift (S := S) (I := I) o st = (Ok a, st') <-> o = Ok a /\ st = st'.
Proof. unfold lift. split; [intros [= -> ->]; auto|intros [-> ->]; reflexivity]. Qed.

Lemma ret_Ok {A} (a b : A) st st' :
  ret (Q := Q) (S := S) (I := I) a st = (Ok b, st') <-> a = b /\ st = st'.
Proof. unfold ret. split; [intros [= -> ->]; auto|intros [-> ->]; reflexivity]. Qed.

Lemma is_ok_Ok {A} (m : M A) b st st' :
  is_ok m st = (Ok b, st') <->
  (b = true /\ exists a, m st = (Ok a, st')) \/ (b = false /\ exists e, m st = (Err e, st')).
Proof.
  unfold is_ok. destruct (m st) as [[a|e|w|] st1]; split.
  - intros [= <- <-]. left. eauto.
  - intros [[-> [a' [= _ ->]]]|[-> [e [=]]]]. reflexivity.
  - intros [= <- <-]. right. eauto.
  - intros [[-> [a' [=]]]|[-> [e' [= _ ->]]]]. reflexivity.
  - discriminate.
  - intros [[-> [a' [=]]]|[-> [e' [=]]]].
  - discriminate.
  - intros [[-> [a' [=]]]|[-> [e' [=]]]].
Qed.

End Monad.

(** ** A relation preserved by every computation

    [Rl st st'] for all executions, successful or not, of [dehydrate_with], if it holds for the
    elementary effects. *)
Section Preserved.
Context {Q S I : Type} {CS : Cmp S} {CSL : CmpLaws S} {X : Xsd} {IS : IriSyntax}.
Variable ops : interpretation Q S I.
Variable reg : registry Q.
Variable Rl : dstate S I -> dstate S I -> Prop.
Hypothesis Rl_refl : forall st, Rl st st.
Hypothesis Rl_trans : forall a b c, Rl a b -> Rl b c -> Rl a c.
Hypothesis Rl_new : forall i o, Rl (DState i o) (DState (snd (new_resource ops i)) o).
Hypothesis Rl_iri : forall i o r s, Rl (DState i o) (DState (assign_iri ops r s i) o).
Hypothesis Rl_literal : forall i o r l, Rl (DState i o) (DState (assign_literal ops r l i) o).
Hypothesis Rl_emit : forall i o qs,
  (forall q, In q qs -> registry_instance (into ops) reg q) ->
  Rl (DState i o) (DState i (fold_left (fun d q => ds_insert q d) qs o)).

Notation M := (M (Q := Q) (S := S) (I := I)).

Definition preserves {A} (m : M A) : Prop := forall st, Rl st (snd (m st)).

Lemma p_ret {A} (a : A) : preserves (ret a).
Proof. intro st. apply Rl_refl. Qed.
Lemma p_raise {A} e : preserves (raise (A := A) e).
Proof. intro st. apply Rl_refl. Qed.
Lemma p_panic {A} w : preserves (panic (A := A) w).
Proof. intro st. apply Rl_refl. Qed.
Lemma p_diverge {A} : preserves (diverge (A := A)).
Proof. intro st. apply Rl_refl. Qed.
Lemma p_lift {A} (o : outcome _ A) : preserves (lift o).
Proof. intro st. apply Rl_refl. Qed.

Lemma p_bind_post {A B} (P : A -> Prop) (m : M A) (k : A -> M B) :
  preserves m -> (forall st a st', m st = (Ok a, st') -> P a) -> (forall a, P a -> preserves (k a)) ->
  preserves (bindM m k).
Proof.
  intros Hm HP Hk st. specialize (Hm st). unfold bindM.
  destruct (m st) as [[a|e|w|] st1] eqn:E; simpl in *; try exact Hm.
  eapply Rl_trans; [exact Hm|]. apply Hk. eapply HP, E.
Qed.

Lemma p_bind {A B} (m : M A) (k : A -> M B) :
  preserves m -> (forall a, preserves (k a)) -> preserves (bindM m k).
Proof. intros Hm Hk. apply (p_bind_post (fun _ => True)); auto. Qed.

Lemma p_is_ok {A} (m : M A) : preserves m -> preserves (is_ok m).
Proof.
  intros Hm st. specialize (Hm st). unfold is_ok.
  destruct (m st) as [[a|e|w|] st1]; exact Hm.
Qed.

Lemma p_new : preserves (new_resourceM ops).
Proof.
  intros [i o]. unfold new_resourceM. simpl. pose proof (Rl_new i o) as H.
  destruct (new_resource ops i) as [r i']. exact H.
Qed.

Lemma p_new_resources n : preserves (new_resources ops n).
Proof.
  induction n as [|n IH]; cbn [new_resources]; [apply p_ret|].
  apply p_bind; [apply p_new|]. intro r. apply p_bind; [exact IH|]. intro rs. apply p_ret.
Qed.

Lemma p_env_intro e n : preserves (env_intro ops e n).
Proof. apply p_bind; [apply p_new_resources|]. intro rs. apply p_ret. Qed.

Lemma p_emit qs : (forall q, In q qs -> registry_instance (into ops) reg q) -> preserves (emit qs).
Proof. intros H [i o]. unfold emit. simpl. now apply Rl_emit. Qed.

Lemma p_instantiate_dataset ref l e qs :
  reg ref = Some l -> (forall p, In p qs -> quad_pattern_of l p) ->
  preserves (instantiate_dataset ops e qs).
Proof.
  intros Hl. induction qs as [|p qs IH]; intro H; cbn [instantiate_dataset]; [apply p_ret|].
  apply (p_bind_post (inst_quad (into ops) (env_list e) p)).
  - apply p_lift.
  - intros st a st' E. apply lift_Ok in E as [E _]. now apply instantiate_quad_Ok.
  - intros q Hq. apply p_bind.
    + apply p_emit. intros q' [<-|[]]. exists ref, l, p, (env_list e).
      split; [exact Hl|]. split; [apply H; now left|exact Hq].
    + intros _. apply IH. intros p' Hp'. apply H. now right.
Qed.

Lemma p_open ref l e n qs :
  reg ref = Some l -> (forall p, In p qs -> quad_pattern_of l p) ->
  preserves (open ops e n qs).
Proof.
  intros Hl H. apply p_bind; [apply p_env_intro|]. intro e'.
  apply p_bind; [eapply p_instantiate_dataset; eassumption|]. intros _. apply p_ret.
Qed.

Lemma p_state_lit {A} (f : dstate S I -> outcome (derr (Q := Q)) A) :
  preserves (fun st => (f st, st)).
Proof. intro st. apply Rl_refl. Qed.

Lemma p_dehydrate_literal k v ty m :
  dehydrate_literal ops k v ty = Some m -> preserves m.
Proof.
  destruct k, v; simpl; intros [= <-].
  - intro st. unfold dehydrate_boolean. destruct (existsb _ _); apply Rl_refl.
  - apply p_state_lit.
  - apply p_panic.
  - intro st. unfold dehydrate_text_string. destruct (iris_in _ _ _); apply Rl_refl.
Qed.

Section Body.
Variable rec : value -> option S -> Q -> list S -> M unit.
Hypothesis Hrec : forall v g ref inputs, preserves (rec v g ref inputs).

Lemma p_sub_value v g vf e : preserves (dehydrate_sub_value ops rec v g vf e).
Proof.
  unfold dehydrate_sub_value. apply p_bind; [apply p_lift|]. intro inputs.
  apply p_bind; [|intro g'; apply Hrec].
  destruct (vf_graph vf) as [[p|]|]; try apply p_ret.
  apply p_bind; [apply p_lift|]. intro r. apply p_ret.
Qed.

Definition instances (sel : option (list (quad S))) : Prop :=
  forall d, sel = Some d -> forall q, In q d -> registry_instance (into ops) reg q.

Lemma variant_dataset_spec e qs d :
  instantiate_variant_dataset ops e qs = Ok d ->
  (forall q, In q d -> exists p, In p qs /\ inst_quad (into ops) (env_list e) p q) /\
  (forall p, In p qs -> exists q, In q d /\ inst_quad (into ops) (env_list e) p q).
Proof.
  unfold instantiate_variant_dataset. intro H. apply bind_Ok in H as (l & Hl & [= <-]).
  apply mapM_Ok in Hl. split.
  - intros q Hq. apply ds_insert_all_In in Hq. destruct Hq as [Hq|[]].
    induction Hl as [|p q' ps l Hp Hl IH]; [destruct Hq|]. destruct Hq as [-> |Hq].
    + exists p. split; [now left|]. now apply instantiate_quad_Ok.
    + destruct (IH Hq) as (p' & Hp' & Hi). exists p'. split; [now right|assumption].
  - intros p Hp. induction Hl as [|p' q' ps l Hp' Hl IH]; [destruct Hp|].
    destruct Hp as [-> |Hp].
    + exists q'. split; [apply ds_insert_all_In; left; now left|]. now apply instantiate_quad_Ok.
    + destruct (IH Hp) as (q & Hq & Hi). exists q. split; [|assumption].
      apply ds_insert_all_In. left. apply ds_insert_all_In in Hq. destruct Hq as [Hq|[]]. now right.
Qed.

Lemma variants_instances ref l v g e vs sel st sel' st' :
  reg ref = Some l ->
  (forall va p, In va vs -> In p (it_dataset (va_item va)) -> quad_pattern_of l p) ->
  instances sel ->
  dehydrate_variants ops rec v g e vs sel st = (Ok sel', st') -> instances sel'.
Proof.
  intros Hl. revert sel st. induction vs as [|va vs IH]; intros sel st Hvs Hsel H.
  - cbn [dehydrate_variants] in H. apply ret_Ok in H as [<- _]. exact Hsel.
  - cbn [dehydrate_variants] in H. apply bindM_Ok in H as (e' & st1 & He & H).
    apply bindM_Ok in H as (d & st2 & Hd & H). apply lift_Ok in Hd as [Hd ->].
    apply bindM_Ok in H as (ok & st3 & Hok & H).
    assert (forall va' p, In va' vs -> In p (it_dataset (va_item va')) -> quad_pattern_of l p)
      as Hvs' by (intros va' p ?; apply Hvs; now right).
    destruct ok; [|exact (IH _ _ Hvs' Hsel H)].
    destruct sel; [discriminate|]. refine (IH _ _ Hvs' _ H).
    intros d' [= <-] q Hq. apply variant_dataset_spec in Hd as [Hd _].
    destruct (Hd q Hq) as (p & Hp & Hi). exists ref, l, p, (env_list e').
    split; [exact Hl|]. split; [|exact Hi]. apply (Hvs va); [now left|exact Hp].
Qed.

Lemma p_variants v g e vs : forall sel, preserves (dehydrate_variants ops rec v g e vs sel).
Proof.
  induction vs as [|va vs IH]; intro sel; cbn [dehydrate_variants]; [apply p_ret|].
  apply p_bind; [apply p_env_intro|]. intro e'. apply p_bind; [apply p_lift|]. intro d.
  apply p_bind; [apply p_is_ok, p_sub_value|]. intro ok.
  destruct ok; [|apply IH]. destruct sel; [apply p_raise|apply IH].
Qed.

Lemma p_entries ref l g e fs m :
  reg ref = Some l ->
  (forall k f p, In (k, f) fs -> In p (it_dataset (f_item f)) -> quad_pattern_of l p) ->
  preserves (dehydrate_entries ops rec g e fs m).
Proof.
  intros Hl Hfs. induction m as [|[k v] m IH]; cbn [dehydrate_entries]; [apply p_ret|].
  destruct (bt_get k fs) as [f|] eqn:E; [|apply p_raise]. apply bt_get_In in E.
  apply p_bind; [apply (p_open ref l); [exact Hl|intros p; apply (Hfs k f p E)]|]. intro e'.
  apply p_bind; [apply p_sub_value|]. intros _. exact IH.
Qed.

Lemma p_check ref m fs : preserves (check_required ref m fs).
Proof.
  induction fs as [|[k f] fs IH]; cbn [check_required]; [apply p_ret|].
  destruct (_ && _); [apply p_raise|exact IH].
Qed.

Lemma p_items ref l g e it vs :
  reg ref = Some l -> (forall p, In p (it_dataset it) -> quad_pattern_of l p) ->
  preserves (dehydrate_items ops rec g e it vs).
Proof.
  intros Hl H. induction vs as [|v vs IH]; cbn [dehydrate_items]; [apply p_ret|].
  apply p_bind; [apply (p_open ref l); [exact Hl|exact H]|]. intro e'.
  apply p_bind; [apply p_sub_value|]. intros _. exact IH.
Qed.

Lemma p_nodes ref l g e node tl vs :
  reg ref = Some l -> (forall p, In p (it_dataset node) -> quad_pattern_of l p) ->
  forall head, preserves (dehydrate_nodes ops rec g e node tl head vs).
Proof.
  intros Hl H. induction vs as [|v vs IH]; intro head; cbn [dehydrate_nodes]; [apply p_ret|].
  apply p_bind; [destruct vs; [apply p_lift|apply p_new]|]. intro rest.
  apply p_bind; [apply (p_open ref l); [exact Hl|exact H]|]. intro e'.
  apply p_bind; [apply p_sub_value|]. intros _. apply IH.
Qed.

Lemma p_tuple ref l g e vs :
  reg ref = Some l -> forall its,
  (forall it p, In it its -> In p (it_dataset it) -> quad_pattern_of l p) ->
  preserves (dehydrate_tuple ops rec g e its vs).
Proof.
  intros Hl. induction vs as [|v vs IH]; intros its H; destruct its as [|it its];
    cbn [dehydrate_tuple]; try apply p_raise; [apply p_ret|].
  apply p_bind; [apply (p_open ref l); [exact Hl|intros p; apply H; now left]|]. intro e'.
  apply p_bind; [apply p_sub_value|]. intros _. apply IH. intros it' p Hit. apply H. now right.
Qed.

Lemma p_layout v g ref l inputs :
  reg ref = Some l -> preserves (dehydrate_layout ops rec v g ref l inputs).
Proof.
  intro Hl. destruct l as [| |h c|k h r dt|h r pat|h fs|h vs|h it|h node hd tl|h its];
    cbn [dehydrate_layout].
  - apply p_raise.
  - apply p_ret.
  - destruct (eqb v c); [|apply p_raise].
    apply p_bind; [eapply p_open; [exact Hl|now constructor]|]. intros _. apply p_ret.
  - destruct v as [v|m|vs]; try apply p_raise.
    destruct (dehydrate_literal ops k v (into ops dt)) as [m|] eqn:E; [|apply p_raise].
    apply p_bind; [eapply p_open; [exact Hl|now constructor]|]. intro e.
    apply p_bind; [apply p_lift|]. intro r'.
    apply p_bind; [eapply p_dehydrate_literal, E|]. intros lit [i o]. apply Rl_literal.
  - destruct v as [[| | | |s]|m|vs]; try apply p_raise.
    apply p_bind; [eapply p_open; [exact Hl|now constructor]|]. intro e.
    apply p_bind; [apply p_lift|]. intro r'.
    destruct (is_iri s); [|apply p_raise]. intros [i o]. apply Rl_iri.
  - destruct v as [v|m|vs]; try apply p_raise.
    apply p_bind; [eapply p_open; [exact Hl|now constructor]|]. intro e.
    apply p_bind; [|intros _; apply p_check].
    eapply p_entries; [exact Hl|]. intros. eapply qp_field; eassumption.
  - apply p_bind; [eapply p_open; [exact Hl|now constructor]|]. intro e.
    apply (p_bind_post instances); [apply p_variants| |].
    + intros st sel st' E.
      refine (variants_instances ref _ _ _ _ _ _ _ _ _ Hl _ _ E).
      * intros. eapply qp_variant; eassumption.
      * intros d [=].
    + intros [d|] Hd; [|apply p_raise]. apply p_emit. exact (Hd d eq_refl).
  - destruct v as [v|m|vs]; try apply p_raise.
    apply p_bind; [eapply p_open; [exact Hl|now constructor]|]. intro e.
    eapply p_items; [exact Hl|]. intros. now apply qp_item.
  - destruct v as [v|m|vs]; try apply p_raise.
    apply p_bind; [eapply p_open; [exact Hl|now constructor]|]. intro e.
    apply p_bind; [apply p_lift|]. intro head.
    eapply p_nodes; [exact Hl|]. intros. now apply qp_node.
  - destruct v as [v|m|vs]; try apply p_raise.
    apply p_bind; [eapply p_open; [exact Hl|now constructor]|]. intro e.
    eapply p_tuple; [exact Hl|]. intros. eapply qp_sized_item; eassumption.
Qed.

Lemma p_body v g ref inputs : preserves (dehydrate_body ops reg rec v g ref inputs).
Proof.
  unfold dehydrate_body. destruct (reg ref) as [l|] eqn:Hl; [|apply p_raise].
  destruct (input_count l) as [n|]; [|now apply p_layout].
  destruct (Nat.eqb _ _); [now apply p_layout|apply p_raise].
Qed.
End Body.

Theorem dehydrate_preserves fuel : forall v g ref inputs,
  preserves (dehydrate_with ops reg fuel v g ref inputs).
Proof.
  induction fuel as [|fuel IH]; intros v g ref inputs; [apply p_diverge|].
  apply p_body. exact IH.
Qed.

End Preserved.
