(** * A successful dehydration represents the value *)

From Coq Require Import String List Bool Arith NArith Lia Qcanon Permutation.
Import ListNotations.
From Verif Require Import Base BaseProofs Orders PatternModel ValueModel ValueProofs LayoutModel HydrateModel TermModel
  LayoutSpec DehydrateModel DehydrateSpec DehydrateProofs.
Open Scope list_scope.
Open Scope nat_scope.

(** ** Transport along a map of resources *)
Section Transport.
Context {S S' : Type} {X : Xsd} {IS : IriSyntax}.
Variable into : term -> S.
Variable into' : term -> S'.
Variable f : S -> S'.
Variable O : quad S -> Prop.
Variable O' : quad S' -> Prop.
Variable A : S -> term -> Prop.
Variable A' : S' -> term -> Prop.
Variable reg : registry term.
Hypothesis f_into : forall t, f (into t) = into' t.
Hypothesis f_O : forall q, O q -> O' (quad_map f q).
Hypothesis f_A : forall r t, A r t -> A' (f r) t.

Lemma inst_map env p r : inst into env p r -> inst into' (map f env) p (f r).
Proof.
  destruct 1 as [q|x r H]; [rewrite f_into; constructor|]. constructor. now apply map_nth_error.
Qed.

Lemma inst_quad_map env p q : inst_quad into env p q -> inst_quad into' (map f env) p (quad_map f q).
Proof.
  intros (Hs & Hp & Ho & Hg). unfold inst_quad, quad_map. simpl.
  split; [now apply inst_map|]. split; [now apply inst_map|]. split; [now apply inst_map|].
  destruct Hg; constructor. now apply inst_map.
Qed.

Lemma opens_map env n ps env' :
  opens into O env n ps env' -> opens into' O' (map f env) n ps (map f env').
Proof.
  intros (rs & Hn & -> & H). exists (map f rs). split; [now rewrite map_length|].
  split; [apply map_app|]. intros p Hp. destruct (H p Hp) as (q & Hq & Hi).
  exists (quad_map f q). split; [now apply f_O|]. now apply inst_quad_map.
Qed.

Lemma literal_form_mono (dt dt' : string -> Prop) k v l :
  (forall ty, dt ty -> dt' ty) -> literal_form dt k v l -> literal_form dt' k v l.
Proof. intros H. destruct 1; econstructor; auto. Qed.

Lemma type_iri_map dt ty : type_iri into A dt ty -> type_iri into' A' dt ty.
Proof. intros [H|H]; [now left|]. right. rewrite <- f_into. now apply f_A. Qed.

Lemma Emits_map_all :
  (forall ref inputs v, Emits into O A reg ref inputs v ->
     Emits into' O' A' reg ref (map f inputs) v) /\
  (forall env fs k v, EmitsEntry into O A reg env fs k v ->
     EmitsEntry into' O' A' reg (map f env) fs k v) /\
  (forall env it v, EmitsItem into O A reg env it v ->
     EmitsItem into' O' A' reg (map f env) it v) /\
  (forall env node tl head l, EmitsNodes into O A reg env node tl head l ->
     EmitsNodes into' O' A' reg (map f env) node tl (f head) l) /\
  (forall env its l, EmitsTuple into O A reg env its l ->
     EmitsTuple into' O' A' reg (map f env) its l).
Proof.
  apply Emits_mutind.
  - intros. now apply E_always.
  - intros * Hl Hn Ho. eapply E_unit; [exact Hl|now rewrite map_length|]. apply opens_map, Ho.
  - intros * Hl Hn Ho Hr Hf HA. eapply E_data; [exact Hl|now rewrite map_length| | | |].
    + apply opens_map, Ho.
    + apply inst_map, Hr.
    + eapply literal_form_mono; [|exact Hf]. intro ty. apply type_iri_map.
    + now apply f_A.
  - intros * Hl Hn Ho Hr Hs HA. eapply E_id; [exact Hl|now rewrite map_length| | |exact Hs|].
    + apply opens_map, Ho.
    + apply inst_map, Hr.
    + now apply f_A.
  - intros * Hl Hn Ho _ IH Hreq. eapply E_product; [exact Hl|now rewrite map_length| | |exact Hreq].
    + apply opens_map, Ho.
    + exact IH.
  - intros * Hl Hn Ho Hva _ IH. eapply E_sum; [exact Hl|now rewrite map_length| |exact Hva|exact IH].
    apply opens_map, Ho.
  - intros * Hl Hn Ho _ IH. eapply E_unordered; [exact Hl|now rewrite map_length| |exact IH].
    apply opens_map, Ho.
  - intros * Hl Hn Ho Hh _ IH. eapply E_ordered; [exact Hl|now rewrite map_length| | |exact IH].
    + apply opens_map, Ho.
    + apply inst_map, Hh.
  - intros * Hl Hn Ho _ IH. eapply E_sized; [exact Hl|now rewrite map_length| |exact IH].
    apply opens_map, Ho.
  - intros * Hf _ IH. econstructor; eassumption.
  - intros * Ho Hi _ IH. econstructor; [apply opens_map, Ho| |exact IH].
    clear -Hi f_into. induction Hi; simpl; constructor; [now apply inst_map|assumption].
  - intros. constructor.
  - intros * Ht _ IH. eapply EN_last; [apply inst_map, Ht|]. rewrite map_app in IH. exact IH.
  - intros * Hl _ IH _ IHl. rewrite map_app in IH. eapply EN_cons; [exact Hl|exact IH|exact IHl].
  - intros. constructor.
  - intros * _ IH _ IHl. now constructor.
Qed.

End Transport.

Lemma quad_map_id {S} (q : quad S) : quad_map (fun r => r) q = q.
Proof. destruct q as [s p o [g|]]; reflexivity. Qed.

(** ** States *)
Section State.
Context {X : Xsd} {IS : IriSyntax}.
Variable reg : registry term.
Notation ops := input_interpretation.
Notation state := (dstate res input_interp).

Definition assigned (st : state) (r : res) (t : term) : Prop :=
  In t (terms_of r (ii_map (ds_interp st))).

Lemma terms_of_assign r t m r' t' :
  In t' (terms_of r' (assign_term r t m)) <-> (r' = r /\ t' = t) \/ In t' (terms_of r' m).
Proof.
  induction m as [|[r1 ts] m IH]; simpl.
  - destruct (eqb_spec r' r) as [-> |N]; simpl; intuition congruence.
  - destruct (eqb_spec r r1) as [<-|N]; simpl.
    + destruct (eqb_spec r' r) as [-> |N'].
      * destruct (mem t ts) eqn:E.
        -- apply mem_In in E. split; [tauto|]. intros [[_ ->]|H]; assumption.
        -- rewrite in_app_iff. simpl. intuition.
      * intuition congruence.
    + destruct (eqb_spec r' r1) as [-> |N'].
      * intuition congruence.
      * exact IH.
Qed.

(** The state only grows. *)
Record grows (st st' : state) : Prop := {
  gr_output : forall q, In q (ds_output st) -> In q (ds_output st');
  gr_terms : forall r t, assigned st r t -> assigned st' r t;
  gr_count : ii_anonymous_count (ds_interp st) <= ii_anonymous_count (ds_interp st')
}.

Lemma grows_refl st : grows st st.
Proof. split; auto. Qed.

Lemma grows_trans a b c : grows a b -> grows b c -> grows a c.
Proof. intros [O1 T1 C1] [O2 T2 C2]. split; auto. lia. Qed.

Lemma grows_new i o : grows (DState i o) (DState (snd (new_resource ops i)) o).
Proof. split; simpl; auto. Qed.

Lemma grows_iri i o r s : grows (DState i o) (DState (assign_iri ops r s i) o).
Proof.
  split; simpl; auto. unfold assigned. simpl. intros r' t H. apply terms_of_assign. now right.
Qed.

Lemma grows_literal i o r l : grows (DState i o) (DState (assign_literal ops r l i) o).
Proof.
  split; simpl; auto. unfold assigned. simpl. intros r' t H. apply terms_of_assign. now right.
Qed.

Lemma grows_emit i o qs :
  (forall q, In q qs -> registry_instance (into ops) reg q) ->
  grows (DState i o) (DState i (fold_left (fun d q => ds_insert q d) qs o)).
Proof. split; simpl; auto. intros q H'. apply ds_insert_all_In. now right. Qed.

Notation M := (M (Q := term) (S := res) (I := input_interp)).
Notation growing := (preserves (Q := term) grows).

Lemma growing_st {A} (m : M A) o st st' : growing m -> m st = (o, st') -> grows st st'.
Proof. intros H E. specialize (H st). now rewrite E in H. Qed.

Definition EmitsS (st : state) := Emits RTerm (fun q => In q (ds_output st)) (assigned st) reg.
Definition EmitsEntryS (st : state) := EmitsEntry RTerm (fun q => In q (ds_output st)) (assigned st) reg.
Definition EmitsItemS (st : state) := EmitsItem RTerm (fun q => In q (ds_output st)) (assigned st) reg.
Definition EmitsNodesS (st : state) := EmitsNodes RTerm (fun q => In q (ds_output st)) (assigned st) reg.
Definition EmitsTupleS (st : state) := EmitsTuple RTerm (fun q => In q (ds_output st)) (assigned st) reg.
Definition opensS (st : state) := opens RTerm (fun q => In q (ds_output st)).

Section Grow.
Variables (st st' : state).
Hypothesis G : grows st st'.

Lemma grow_all :
  (forall ref inputs v, EmitsS st ref inputs v -> EmitsS st' ref inputs v) /\
  (forall env fs k v, EmitsEntryS st env fs k v -> EmitsEntryS st' env fs k v) /\
  (forall env it v, EmitsItemS st env it v -> EmitsItemS st' env it v) /\
  (forall env node tl head l, EmitsNodesS st env node tl head l -> EmitsNodesS st' env node tl head l) /\
  (forall env its l, EmitsTupleS st env its l -> EmitsTupleS st' env its l).
Proof.
  pose proof (Emits_map_all RTerm RTerm (fun r => r) (fun q => In q (ds_output st))
    (fun q => In q (ds_output st')) (assigned st) (assigned st') reg (fun t => eq_refl)) as T.
  destruct T as (T1 & T2 & T3 & T4 & T5).
  - intros q H. rewrite quad_map_id. now apply (gr_output _ _ G).
  - intros r t H. now apply (gr_terms _ _ G).
  - repeat split; intros * H.
    + apply T1 in H. now rewrite map_id in H.
    + apply T2 in H. now rewrite map_id in H.
    + apply T3 in H. now rewrite map_id in H.
    + apply T4 in H. now rewrite map_id in H.
    + apply T5 in H. now rewrite map_id in H.
Qed.

Lemma grow_opens env n ps env' : opensS st env n ps env' -> opensS st' env n ps env'.
Proof.
  intros (rs & Hn & E & H). exists rs. split; [exact Hn|]. split; [exact E|].
  intros p Hp. destruct (H p Hp) as (q & Hq & Hi). exists q. split; [|exact Hi].
  now apply (gr_output _ _ G).
Qed.
End Grow.

Ltac growing :=
  first [apply p_ret|apply p_raise|apply p_lift|apply p_new|apply p_open|apply p_emit];
  eauto using grows_refl, grows_trans, grows_new, grows_iri, grows_literal, grows_emit.

(** ** Elementary computations *)

Lemma new_resources_Ok n : forall st rs st',
  new_resources ops n st = (Ok rs, st') ->
  rs = map RAnon (seq (ii_anonymous_count (ds_interp st)) n) /\
  st' = DState (InputInterp (ii_map (ds_interp st)) (ii_anonymous_count (ds_interp st) + n))
               (ds_output st).
Proof.
  induction n as [|n IH]; intros [[m c] o] rs st' H; cbn [new_resources] in H.
  - apply ret_Ok in H as [<- <-]. simpl. rewrite Nat.add_0_r. auto.
  - apply bindM_Ok in H as (r & st1 & H1 & H). unfold new_resourceM in H1. simpl in H1.
    injection H1 as <- <-. apply bindM_Ok in H as (rs' & st2 & H2 & H).
    apply ret_Ok in H as [<- <-]. apply IH in H2 as [-> ->]. simpl.
    split; [reflexivity|]. now rewrite Nat.add_succ_r.
Qed.

Lemma new_resources_total n st :
  new_resources ops n st =
  (Ok (map RAnon (seq (ii_anonymous_count (ds_interp st)) n)),
   DState (InputInterp (ii_map (ds_interp st)) (ii_anonymous_count (ds_interp st) + n))
          (ds_output st)).
Proof.
  revert st. induction n as [|n IH]; intros [[m c] o]; cbn [new_resources].
  - unfold ret. simpl. now rewrite Nat.add_0_r.
  - unfold bindM, new_resourceM. simpl. rewrite IH. unfold ret. simpl. now rewrite Nat.add_succ_r.
Qed.

Lemma dataset_Ok e qs : forall st st',
  instantiate_dataset ops e qs st = (Ok tt, st') ->
  ds_interp st' = ds_interp st /\
  (forall q, In q (ds_output st') <->
     In q (ds_output st) \/ exists p, In p qs /\ inst_quad RTerm (env_list e) p q) /\
  stated RTerm (fun q => In q (ds_output st')) (env_list e) qs.
Proof.
  induction qs as [|p qs IH]; intros st st' H; cbn [instantiate_dataset] in H.
  - apply ret_Ok in H as [_ <-]. split; [reflexivity|]. split.
    + intro q. split; [now left|]. intros [H|(p & [] & _)]; exact H.
    + intros p [].
  - apply bindM_Ok in H as (q & st1 & Hq & H). apply lift_Ok in Hq as [Hq ->].
    apply (instantiate_quad_Ok ops) in Hq. apply bindM_Ok in H as (u & st2 & He & H).
    unfold emit in He. injection He as <- <-. apply IH in H as (HI & HO & HS). simpl in *.
    split; [exact HI|].
    assert (In q (ds_output st')) as Hin.
    { apply HO. left. apply ds_insert_In. now left. }
    split.
    + intro x. rewrite HO, ds_insert_In. split.
      * intros [[-> |Hx]|(p' & Hp' & Hi)]; [right; exists p; auto|now left|right; exists p'; auto].
      * intros [Hx|(p' & [<-|Hp'] & Hi)]; [auto| |right; exists p'; auto].
        left. left. clear -Hq Hi.
        assert (forall env p r r', inst RTerm env p r -> inst RTerm env p r' -> r = r') as U.
        { intros env p1 r r' H1 H2. inversion H1; subst; inversion H2; subst; congruence. }
        destruct Hq as (Q1 & Q2 & Q3 & Q4), Hi as (I1 & I2 & I3 & I4).
        destruct q as [s1 p1 o1 g1], x as [s2 p2 o2 g2]. simpl in *.
        rewrite (U _ _ _ _ I1 Q1), (U _ _ _ _ I2 Q2), (U _ _ _ _ I3 Q3). f_equal.
        inversion Q4 as [Z1 Z2|gp gr Hg Z1 Z2]; inversion I4 as [Z3 Z4|gp' gr' Hg' Z3 Z4]; try congruence.
        f_equal. apply (U (env_list e) gp); [|exact Hg]. congruence.
    + intros p' [<-|Hp']; [|now apply HS]. exists q. split; [exact Hin|exact Hq].
Qed.

Lemma open_Ok e n qs st e' st' :
  open ops e n qs st = (Ok e', st') ->
  exists rs, rs = map RAnon (seq (ii_anonymous_count (ds_interp st)) n) /\
    e' = Child e rs /\
    ds_interp st' = InputInterp (ii_map (ds_interp st)) (ii_anonymous_count (ds_interp st) + n) /\
    (forall q, In q (ds_output st') <->
       In q (ds_output st) \/ exists p, In p qs /\ inst_quad RTerm (env_list e') p q) /\
    opensS st' (env_list e) n qs (env_list e').
Proof.
  unfold open, env_intro. intro H. apply bindM_Ok in H as (e1 & st1 & H1 & H).
  apply bindM_Ok in H1 as (rs & st0 & H0 & H1). apply ret_Ok in H1 as [<- <-].
  apply new_resources_Ok in H0 as [-> ->].
  apply bindM_Ok in H as ([] & st2 & H2 & H). apply ret_Ok in H as [<- <-].
  apply dataset_Ok in H2 as (HI & HO & HS). simpl in HI, HO.
  eexists. split; [reflexivity|]. split; [reflexivity|]. split; [exact HI|]. split; [exact HO|].
  eexists. split; [|split; [reflexivity|exact HS]]. now rewrite map_length, seq_length.
Qed.

Lemma literal_Ok k v dt m st l st' :
  dehydrate_literal ops k v (RTerm dt) = Some m -> m st = (Ok l, st') ->
  st' = st /\ literal_form (type_iri RTerm (assigned st) dt) k v l.
Proof.
  assert (forall ty, In ty (input_iris_of (ds_interp st) (RTerm dt)) ->
            type_iri RTerm (assigned st) dt ty) as HT.
  { intros ty H. unfold input_iris_of, iris_of_terms in H. rewrite in_app_iff in H.
    destruct H as [H|H]; apply in_flat_map in H as (t & Ht & H).
    - left. destruct Ht as [<-|[]]. destruct dt; simpl in H; intuition congruence.
    - right. destruct t as [i| |]; simpl in H; try contradiction. destruct H as [<-|[]]. exact Ht. }
  destruct k, v; simpl; intro E; try discriminate; injection E as <-; intro H.
  - unfold dehydrate_boolean in H. simpl in H. destruct (existsb _ _) eqn:EX; [|discriminate].
    injection H as <- <-. split; [reflexivity|]. apply existsb_exists in EX as (ty & Hty & EX).
    apply (proj1 (eqb_eq xsd_boolean ty)) in EX. subst ty. destruct b; constructor; now apply HT.
  - unfold dehydrate_number in H. simpl in H.
    destruct (number_literal _ _) as [l'|] eqn:EX; [|discriminate].
    injection H as <- <-. split; [reflexivity|].
    assert (forall ty, In ty (input_iris_of (ds_interp st) (RTerm dt)) -> type_iri RTerm (assigned st) dt ty) as HT' by exact HT.
    clear HT. induction (input_iris_of (ds_interp st) (RTerm dt)) as [|ty tys IH]; [discriminate|].
    cbn [number_literal] in EX. destruct (is_decimal_type ty) eqn:ED.
    + destruct (decimal_print n) as [s|] eqn:EP.
      * injection EX as <-. constructor; [apply HT'; now left|exact ED|exact EP].
      * apply IH; [exact EX|]. intros ty' H. apply HT'. now right.
    + apply IH; [exact EX|]. intros ty' H. apply HT'. now right.
  - discriminate.
  - unfold dehydrate_text_string in H. simpl in H.
    destruct (input_iris_of _ _) as [|ty tys] eqn:EX; [discriminate|].
    injection H as <- <-. split; [reflexivity|]. constructor. apply HT. rewrite ?EX. now left.
Qed.

(** ** Recursive structure *)
Section Body.
Variable rec : value -> option res -> term -> list res -> M unit.
Hypothesis rec_grows : forall v g ref inputs, growing (rec v g ref inputs).
Hypothesis rec_emits : forall v g ref inputs st st',
  rec v g ref inputs st = (Ok tt, st') -> EmitsS st' ref inputs v.

Lemma sub_value_Ok v g vf e st st' :
  dehydrate_sub_value ops rec v g vf e st = (Ok tt, st') ->
  exists inputs, Forall2 (inst RTerm (env_list e)) (vf_input vf) inputs /\
                 EmitsS st' (vf_layout vf) inputs v.
Proof.
  unfold dehydrate_sub_value. intro H. apply bindM_Ok in H as (inputs & st1 & Hi & H).
  apply lift_Ok in Hi as [Hi _]. apply (instantiate_patterns_Ok ops) in Hi.
  apply bindM_Ok in H as (g' & st2 & Hg & H). exists inputs. split; [exact Hi|].
  eapply rec_emits, H.
Qed.

Lemma sub_value_grows v g vf e : growing (dehydrate_sub_value ops rec v g vf e).
Proof.
  apply p_sub_value; eauto using grows_refl, grows_trans.
Qed.

Lemma item_Ok v g it e st e' st1 st' :
  open ops e (it_intro it) (it_dataset it) st = (Ok e', st1) ->
  dehydrate_sub_value ops rec v g (it_value it) e' st1 = (Ok tt, st') ->
  EmitsItemS st' (env_list e) it v.
Proof.
  intros Ho Hs. apply open_Ok in Ho as (rs & _ & -> & _ & _ & Ho).
  pose proof (growing_st _ _ _ _ (sub_value_grows v g _ _) Hs) as G.
  apply sub_value_Ok in Hs as (inputs & Hi & Hs).
  econstructor; [|exact Hi|exact Hs]. eapply grow_opens; [exact G|exact Ho].
Qed.

Lemma grow_item st st' env it v : grows st st' -> EmitsItemS st env it v -> EmitsItemS st' env it v.
Proof. intro G. apply (grow_all _ _ G). Qed.

Lemma variants_Ok v g e vs : forall sel st sel' st',
  dehydrate_variants ops rec v g e vs sel st = (Ok sel', st') ->
  forall d, sel' = Some d ->
    sel = Some d \/
    forall st'', grows st' st'' -> (forall q, In q d -> In q (ds_output st'')) ->
      exists va, In va vs /\ EmitsItemS st'' (env_list e) (va_item va) v.
Proof.
  induction vs as [|va vs IH]; intros sel st sel' st' H d Hd; cbn [dehydrate_variants] in H.
  - apply ret_Ok in H as [<- _]. now left.
  - apply bindM_Ok in H as (e' & st1 & He & H). apply bindM_Ok in H as (d0 & st2 & Hd0 & H).
    apply lift_Ok in Hd0 as [Hd0 ->]. apply bindM_Ok in H as (ok & st3 & Hok & H).
    assert (G : grows st3 st').
    { refine (growing_st _ _ _ _ _ H). destruct ok.
      - destruct sel; [apply p_raise; apply grows_refl|].
        apply p_variants; eauto using grows_refl, grows_trans, grows_new.
      - apply p_variants; eauto using grows_refl, grows_trans, grows_new. }
    apply is_ok_Ok in Hok as [[-> [[] Hok]]|[-> [er Hok]]].
    + destruct sel as [d1|]; [discriminate|]. right.
      destruct (IH (Some d0) st3 sel' st' H d Hd) as [[= ->]|IH'].
      * intros st'' G' Hq. exists va. split; [now left|].
        unfold env_intro in He. apply bindM_Ok in He as (rs & st0 & H0 & H1).
        apply ret_Ok in H1 as [<- <-]. apply new_resources_Ok in H0 as [-> ->].
        apply (variant_dataset_spec ops) in Hd0 as [_ Hd0].
        apply sub_value_Ok in Hok as (inputs & Hi & Hs).
        econstructor; [|exact Hi|].
        -- eexists. split; [|split; [reflexivity|]]; [now rewrite map_length, seq_length|].
           intros p Hp. destruct (Hd0 p Hp) as (q & Hin & Hiq). exists q. split; [|exact Hiq].
           now apply Hq.
        -- eapply (grow_all st3 st''); [eapply grows_trans; eassumption|exact Hs].
      * intros st'' G' Hq. destruct (IH' st'' G' Hq) as (va' & Hva & E). exists va'.
        split; [now right|exact E].
    + destruct (IH sel st3 sel' st' H d Hd) as [-> |IH']; [now left|].
      right. intros st'' G' Hq. destruct (IH' st'' G' Hq) as (va' & Hva & E). exists va'.
      split; [now right|exact E].
Qed.

Lemma entries_Ok g e fs l ref m : reg ref = Some l ->
  (forall k f p, In (k, f) fs -> In p (it_dataset (f_item f)) -> quad_pattern_of l p) ->
  forall st st',
  dehydrate_entries ops rec g e fs m st = (Ok tt, st') ->
  forall k v, In (k, v) m -> EmitsEntryS st' (env_list e) fs k v.
Proof.
  intros Hl Hfs. induction m as [|[k v] m IH]; intros st st' H k' v' Hin; [destruct Hin|].
  cbn [dehydrate_entries] in H. destruct (bt_get k fs) as [f|] eqn:E; [|discriminate].
  apply bt_get_In in E. apply bindM_Ok in H as (e' & st1 & Ho & H).
  apply bindM_Ok in H as ([] & st2 & Hs & H). destruct Hin as [[= <- <-]|Hin].
  - pose proof (item_Ok _ _ _ _ _ _ _ _ Ho Hs) as Hi.
    econstructor; [exact E|]. eapply grow_item; [|exact Hi].
    refine (growing_st _ _ _ _ _ H).
    eapply p_entries; eauto using grows_refl, grows_trans, grows_new, grows_emit.
  - eapply IH; [exact H|exact Hin].
Qed.

Lemma check_Ok ref m fs : forall st st',
  check_required (Q := term) (S := res) (I := input_interp) ref m fs st = (Ok tt, st') ->
  st' = st /\ forall k f, In (k, f) fs -> f_required f = true -> In k (map fst m).
Proof.
  induction fs as [|[k f] fs IH]; intros st st' H; cbn [check_required] in H.
  - apply ret_Ok in H as [_ <-]. split; [reflexivity|]. intros k f [].
  - destruct (f_required f) eqn:Er; simpl in H.
    + destruct (bt_get k m) as [v|] eqn:E; [|discriminate]. apply IH in H as [-> H].
      split; [reflexivity|]. intros k' f' [[= <- <-]|Hin] Hr; [|eapply H; eassumption].
      apply bt_get_In in E. apply (in_map fst) in E. exact E.
    + apply IH in H as [-> H]. split; [reflexivity|].
      intros k' f' [[= <- <-]|Hin] Hr; [congruence|]. eapply H; eassumption.
Qed.

Lemma items_Ok g e it l ref vs : reg ref = Some l ->
  (forall p, In p (it_dataset it) -> quad_pattern_of l p) ->
  forall st st',
  dehydrate_items ops rec g e it vs st = (Ok tt, st') ->
  forall v, In v vs -> EmitsItemS st' (env_list e) it v.
Proof.
  intros Hl Hit. induction vs as [|v vs IH]; intros st st' H v' Hin; [destruct Hin|].
  cbn [dehydrate_items] in H. apply bindM_Ok in H as (e' & st1 & Ho & H).
  apply bindM_Ok in H as ([] & st2 & Hs & H). destruct Hin as [<-|Hin].
  - pose proof (item_Ok _ _ _ _ _ _ _ _ Ho Hs) as Hi. eapply grow_item; [|exact Hi].
    refine (growing_st _ _ _ _ _ H).
    eapply p_items; eauto using grows_refl, grows_trans, grows_new, grows_emit.
  - eapply IH; [exact H|exact Hin].
Qed.

Lemma nodes_Ok g e node tl l ref vs : reg ref = Some l ->
  (forall p, In p (it_dataset node) -> quad_pattern_of l p) ->
  forall head st st',
  dehydrate_nodes ops rec g e node tl head vs st = (Ok tt, st') ->
  EmitsNodesS st' (env_list e) node tl head vs.
Proof.
  intros Hl Hit. induction vs as [|v vs IH]; intros head st st' H; [constructor|].
  cbn [dehydrate_nodes] in H. apply bindM_Ok in H as (rest & st0 & Hrest & H).
  apply bindM_Ok in H as (e' & st1 & Ho & H).
  apply bindM_Ok in H as ([] & st2 & Hs & H).
  pose proof (item_Ok _ _ _ _ _ _ _ _ Ho Hs) as Hi. simpl in Hi.
  assert (grows st2 st') as G.
  { refine (growing_st _ _ _ _ _ H).
    eapply p_nodes; eauto using grows_refl, grows_trans, grows_new, grows_emit. }
  apply (grow_item _ _ _ _ _ G) in Hi. destruct vs as [|v' vs].
  - apply lift_Ok in Hrest as [Hrest _]. apply (instantiate_pattern_Ok ops) in Hrest.
    eapply EN_last; [exact Hrest|exact Hi].
  - eapply EN_cons; [discriminate|exact Hi|]. eapply IH, H.
Qed.

Lemma tuple_Ok g e l ref vs : reg ref = Some l -> forall its,
  (forall it p, In it its -> In p (it_dataset it) -> quad_pattern_of l p) ->
  forall st st',
  dehydrate_tuple ops rec g e its vs st = (Ok tt, st') ->
  EmitsTupleS st' (env_list e) its vs.
Proof.
  intros Hl. induction vs as [|v vs IH]; intros its Hits st st' H; destruct its as [|it its];
    cbn [dehydrate_tuple] in H; try discriminate; [constructor|].
  apply bindM_Ok in H as (e' & st1 & Ho & H).
  apply bindM_Ok in H as ([] & st2 & Hs & H).
  pose proof (item_Ok _ _ _ _ _ _ _ _ Ho Hs) as Hi.
  assert (forall it' p, In it' its -> In p (it_dataset it') -> quad_pattern_of l p) as Hits'
    by (intros; eapply Hits; [right|]; eassumption).
  constructor; [|eapply IH; eassumption]. eapply grow_item; [|exact Hi].
  refine (growing_st _ _ _ _ _ H).
  eapply p_tuple; eauto using grows_refl, grows_trans, grows_new, grows_emit.
Qed.

Lemma layout_Ok v g ref l inputs st st' :
  reg ref = Some l -> (forall n, input_count l = Some n -> length inputs = n) ->
  dehydrate_layout ops rec v g ref l inputs st = (Ok tt, st') ->
  EmitsS st' ref inputs v.
Proof.
  intros Hl Hn H. destruct l as [| |h c|k h r dt|h r pat|h fs|h vs|h it|h node hd tl|h its];
    cbn [dehydrate_layout] in H; cbn [input_count] in Hn; try specialize (Hn _ eq_refl).
  - discriminate.
  - now apply E_always.
  - destruct (eqb_spec v c) as [-> |]; [|discriminate].
    apply bindM_Ok in H as (e & st1 & Ho & H). apply ret_Ok in H as [_ <-].
    apply open_Ok in Ho as (rs & _ & -> & _ & _ & Ho). simpl in Ho. eapply E_unit; eassumption.
  - destruct v as [v|m|vs]; try discriminate.
    destruct (dehydrate_literal ops k v (into ops dt)) as [m|] eqn:E; [|discriminate].
    apply bindM_Ok in H as (e & st1 & Ho & H).
    apply bindM_Ok in H as (r' & st2 & Hr & H). apply lift_Ok in Hr as [Hr <-].
    apply (instantiate_pattern_Ok ops) in Hr.
    apply bindM_Ok in H as (lit & st3 & Hlit & H). apply (literal_Ok _ _ _ _ _ _ _ E) in Hlit as [-> Hlit].
    unfold assign_literalM in H. injection H as <-.
    apply open_Ok in Ho as (rs & _ & -> & _ & _ & Ho). simpl in Ho.
    destruct st1 as [i o]. simpl.
    pose proof (grows_literal i o r' lit) as G. simpl in G.
    eapply E_data; [exact Hl|exact Hn|eapply grow_opens; [exact G|exact Ho]|exact Hr| |].
    + eapply literal_form_mono; [|exact Hlit]. intros ty [T|T]; [now left|right].
      now apply (gr_terms _ _ G).
    + unfold assigned. simpl. apply terms_of_assign. now left.
  - destruct v as [[| | | |s]|m|vs]; try discriminate.
    apply bindM_Ok in H as (e & st1 & Ho & H).
    apply bindM_Ok in H as (r' & st2 & Hr & H). apply lift_Ok in Hr as [Hr <-].
    apply (instantiate_pattern_Ok ops) in Hr. destruct (is_iri s) eqn:Es; [|discriminate].
    unfold assign_iriM in H. injection H as <-.
    apply open_Ok in Ho as (rs & _ & -> & _ & _ & Ho). simpl in Ho.
    destruct st1 as [i o]. simpl.
    pose proof (grows_iri i o r' s) as G. simpl in G.
    eapply E_id; [exact Hl|exact Hn|eapply grow_opens; [exact G|exact Ho]|exact Hr|exact Es|].
    unfold assigned. simpl. apply terms_of_assign. now left.
  - destruct v as [v|m|vs]; try discriminate.
    apply bindM_Ok in H as (e & st1 & Ho & H). apply bindM_Ok in H as ([] & st2 & He & H).
    apply check_Ok in H as [-> Hreq].
    assert (forall k f p, In (k, f) fs -> In p (it_dataset (f_item f)) ->
              quad_pattern_of (ProductL h fs) p) as Hfs by (intros; eapply qp_field; eassumption).
    assert (grows st1 st2) as G.
    { refine (growing_st _ _ _ _ _ He).
      eapply p_entries; eauto using grows_refl, grows_trans, grows_new, grows_emit. }
    apply open_Ok in Ho as (rs & _ & -> & _ & _ & Ho).
    pose proof (entries_Ok _ _ _ _ _ _ Hl Hfs _ _ He) as Hent.
    eapply E_product; [exact Hl|exact Hn|eapply grow_opens; [exact G|exact Ho]|exact Hent|exact Hreq].
  - apply bindM_Ok in H as (e & st1 & Ho & H). apply bindM_Ok in H as (sel & st2 & Hv & H).
    destruct sel as [d|]; [|discriminate].
    assert (grows st1 st2) as G.
    { refine (growing_st _ _ _ _ _ Hv). apply p_variants; eauto using grows_refl, grows_trans, grows_new. }
    assert (grows st2 st') as G'.
    { unfold emit in H. injection H as <-. destruct st2 as [i o]. split; simpl; auto.
      intros q Hq. apply ds_insert_all_In. now right. }
    destruct (variants_Ok v g e vs None st1 (Some d) st2 Hv d eq_refl)
      as [[=]|Hva].
    destruct (Hva st' G') as (va & Hin & Hi).
    { unfold emit in H. injection H as <-. simpl. intros q Hq. apply ds_insert_all_In. now left. }
    apply open_Ok in Ho as (rs & _ & -> & _ & _ & Ho).
    eapply E_sum; [exact Hl|exact Hn|eapply grow_opens; [|exact Ho]|exact Hin|exact Hi].
    eapply grows_trans; eassumption.
  - destruct v as [v|m|vs]; try discriminate.
    apply bindM_Ok in H as (e & st1 & Ho & H).
    assert (forall p, In p (it_dataset it) -> quad_pattern_of (UnorderedL h it) p) as Hit
      by (intros; now apply qp_item).
    assert (grows st1 st') as G.
    { refine (growing_st _ _ _ _ _ H).
      eapply p_items; eauto using grows_refl, grows_trans, grows_new, grows_emit. }
    apply open_Ok in Ho as (rs & _ & -> & _ & _ & Ho).
    pose proof (items_Ok _ _ _ _ _ _ Hl Hit _ _ H) as Hi.
    eapply E_unordered; [exact Hl|exact Hn|eapply grow_opens; [exact G|exact Ho]|exact Hi].
  - destruct v as [v|m|vs]; try discriminate.
    apply bindM_Ok in H as (e & st1 & Ho & H).
    apply bindM_Ok in H as (head & st2 & Hh & H). apply lift_Ok in Hh as [Hh <-].
    apply (instantiate_pattern_Ok ops) in Hh.
    assert (forall p, In p (it_dataset node) -> quad_pattern_of (OrderedL h node hd tl) p) as Hit
      by (intros; now apply qp_node).
    assert (grows st1 st') as G.
    { refine (growing_st _ _ _ _ _ H).
      eapply p_nodes; eauto using grows_refl, grows_trans, grows_new, grows_emit. }
    apply open_Ok in Ho as (rs & _ & -> & _ & _ & Ho).
    pose proof (nodes_Ok _ _ _ _ _ _ _ Hl Hit _ _ _ H) as Hi.
    eapply E_ordered; [exact Hl|exact Hn|eapply grow_opens; [exact G|exact Ho]|exact Hh|exact Hi].
  - destruct v as [v|m|vs]; try discriminate.
    apply bindM_Ok in H as (e & st1 & Ho & H).
    assert (forall it p, In it its -> In p (it_dataset it) -> quad_pattern_of (SizedL h its) p) as Hit
      by (intros; eapply qp_sized_item; eassumption).
    assert (grows st1 st') as G.
    { refine (growing_st _ _ _ _ _ H).
      eapply p_tuple; eauto using grows_refl, grows_trans, grows_new, grows_emit. }
    apply open_Ok in Ho as (rs & _ & -> & _ & _ & Ho).
    pose proof (tuple_Ok _ _ _ _ _ Hl _ Hit _ _ H) as Hi.
    eapply E_sized; [exact Hl|exact Hn|eapply grow_opens; [exact G|exact Ho]|exact Hi].
Qed.

Lemma body_Ok v g ref inputs st st' :
  dehydrate_body ops reg rec v g ref inputs st = (Ok tt, st') -> EmitsS st' ref inputs v.
Proof.
  unfold dehydrate_body. destruct (reg ref) as [l|] eqn:Hl; [|discriminate].
  destruct (input_count l) as [n|] eqn:Hn.
  - destruct (Nat.eqb_spec n (length inputs)) as [-> |]; [|discriminate].
    apply layout_Ok; [exact Hl|]. intros n' Hn'. congruence.
  - apply layout_Ok; [exact Hl|]. congruence.
Qed.
End Body.

Lemma dehydrate_grows fuel v g ref inputs : growing (dehydrate_with ops reg fuel v g ref inputs).
Proof.
  apply dehydrate_preserves; eauto using grows_refl, grows_trans, grows_new, grows_iri, grows_literal, grows_emit.
Qed.

Theorem dehydrate_with_emits fuel : forall v g ref inputs st st',
  dehydrate_with ops reg fuel v g ref inputs st = (Ok tt, st') -> EmitsS st' ref inputs v.
Proof.
  induction fuel as [|fuel IH]; intros v g ref inputs st st' H; [discriminate|].
  eapply body_Ok; [|exact IH|exact H]. intros. apply dehydrate_grows.
Qed.

End State.
