(** * Dehydration terminates when sums are well founded

    The recursive calls of dehydration are on the components of the value, except those of a sum. *)

From Coq Require Import String List Bool Arith NArith Lia Qcanon Permutation.
Import ListNotations.
From Verif Require Import Base BaseProofs Orders PatternModel MatchingModel MatchingSpec ValueModel ValueProofs
  LayoutModel HydrateModel TermModel LayoutSpec DehydrateModel DehydrateSpec DehydrateProofs.
Open Scope list_scope.
Open Scope nat_scope.

(** Nesting depth of a value. *)
Fixpoint depth (v : value) : nat :=
  match v with
  | VLit _ => 0
  | VMap m => Datatypes.S (list_max (map (fun e => depth (snd e)) m))
  | VList l => Datatypes.S (list_max (map depth l))
  end.

Lemma list_max_In n l : In n l -> n <= list_max l.
Proof.
  intro H. pose proof (proj1 (list_max_le l (list_max l)) (Nat.le_refl _)) as F.
  rewrite Forall_forall in F. now apply F.
Qed.

Lemma depth_entry k v m : In (k, v) m -> depth v < depth (VMap m).
Proof.
  intro H. simpl. apply -> Nat.succ_le_mono. apply list_max_In.
  change (depth v) with ((fun e : value * value => depth (snd e)) (k, v)).
  now apply (in_map (fun e : value * value => depth (snd e))).
Qed.

Lemma depth_item v l : In v l -> depth v < depth (VList l).
Proof.
  intro H. simpl. apply -> Nat.succ_le_mono. apply list_max_In. now apply in_map.
Qed.

Section Ends.
Context {Q S I : Type} {CS : Cmp S} {CSL : CmpLaws S} {X : Xsd} {IS : IriSyntax}.
Variable ops : interpretation Q S I.
Variable reg : registry Q.
Notation M := (M (Q := Q) (S := S) (I := I)).

Definition ends {A} (m : M A) : Prop := forall st, fst (m st) <> OutOfFuel.

Lemma e_ret {A} (a : A) : ends (ret a).
Proof. intros st. discriminate. Qed.
Lemma e_raise {A} e : ends (raise (A := A) e).
Proof. intros st. discriminate. Qed.
Lemma e_lift {A} (o : outcome _ A) : o <> OutOfFuel -> ends (lift o).
Proof. intros H st. exact H. Qed.
Lemma e_bind {A B} (m : M A) (k : A -> M B) : ends m -> (forall a, ends (k a)) -> ends (bindM m k).
Proof.
  intros Hm Hk st. specialize (Hm st). unfold bindM.
  destruct (m st) as [[a|e|w|] st1]; simpl in *; try discriminate; [apply Hk|congruence].
Qed.
Lemma e_is_ok {A} (m : M A) : ends m -> ends (is_ok m).
Proof.
  intros Hm st. specialize (Hm st). unfold is_ok.
  destruct (m st) as [[a|e|w|] st1]; simpl in *; congruence.
Qed.
Lemma e_new : ends (new_resourceM ops).
Proof. intros st. unfold new_resourceM. destruct (new_resource ops (ds_interp st)). discriminate. Qed.
Lemma e_news n : ends (new_resources ops n).
Proof.
  induction n as [|n IH]; cbn [new_resources]; [apply e_ret|].
  apply e_bind; [apply e_new|]. intro r. apply e_bind; [exact IH|]. intro. apply e_ret.
Qed.
Lemma e_env_intro e n : ends (env_intro ops e n).
Proof. apply e_bind; [apply e_news|]. intro. apply e_ret. Qed.

Lemma pattern_ends e p : instantiate_pattern ops e p <> OutOfFuel.
Proof. destruct (instantiate_pattern_cases ops e p) as [[r ->]|(x & _ & _ & ->)]; discriminate. Qed.
Lemma quad_ends e p : instantiate_quad ops e p <> OutOfFuel.
Proof.
  unfold instantiate_quad.
  pose proof (pattern_ends e (q_s p)). destruct (instantiate_pattern ops e (q_s p)); try discriminate; [|congruence].
  pose proof (pattern_ends e (q_p p)). destruct (instantiate_pattern ops e (q_p p)); try discriminate; [|congruence].
  pose proof (pattern_ends e (q_o p)). destruct (instantiate_pattern ops e (q_o p)); try discriminate; [|congruence].
  simpl. destruct (q_g p) as [g|]; [|discriminate].
  pose proof (pattern_ends e g). destruct (instantiate_pattern ops e g); simpl; congruence.
Qed.
Lemma mapM_ends {A B} (f : A -> outcome (derr (Q := Q)) B) l :
  (forall a, f a <> OutOfFuel) -> mapM f l <> OutOfFuel.
Proof.
  intro H. induction l as [|a l IH]; cbn [mapM]; [discriminate|].
  specialize (H a). destruct (f a); simpl; try congruence. destruct (mapM f l); simpl; congruence.
Qed.
Lemma e_dataset e ps : ends (instantiate_dataset ops e ps).
Proof.
  induction ps as [|p ps IH]; cbn [instantiate_dataset]; [apply e_ret|].
  apply e_bind; [apply e_lift, quad_ends|]. intro q. apply e_bind; [intro st; discriminate|].
  intros _. exact IH.
Qed.
Lemma e_open e n ps : ends (open ops e n ps).
Proof.
  apply e_bind; [apply e_env_intro|]. intro. apply e_bind; [apply e_dataset|]. intro. apply e_ret.
Qed.
Lemma e_literal k v dt m : dehydrate_literal ops k v dt = Some m -> ends m.
Proof.
  destruct k, v; try discriminate; simpl; intros [= <-] st.
  - unfold dehydrate_boolean. destruct (existsb _ _); discriminate.
  - unfold dehydrate_number. destruct (number_literal _ _); discriminate.
  - discriminate.
  - unfold dehydrate_text_string. destruct (iris_in _ _ _); discriminate.
Qed.

Section Body.
Variable rec : value -> option S -> Q -> list S -> M unit.

Lemma e_sub_value v g vf e : (forall g' inputs, ends (rec v g' (vf_layout vf) inputs)) ->
  ends (dehydrate_sub_value ops rec v g vf e).
Proof.
  intro H. unfold dehydrate_sub_value.
  apply e_bind; [apply e_lift, mapM_ends; intro; apply pattern_ends|]. intro inputs.
  apply e_bind; [|intro g'; apply H].
  destruct (vf_graph vf) as [[p|]|]; [|apply e_ret|apply e_ret].
  apply e_bind; [apply e_lift, pattern_ends|]. intro. apply e_ret.
Qed.

Lemma e_variants v g e vs :
  (forall va g' inputs, In va vs -> ends (rec v g' (vf_layout (it_value (va_item va))) inputs)) ->
  forall sel, ends (dehydrate_variants ops rec v g e vs sel).
Proof.
  induction vs as [|va vs IH]; intros H sel; cbn [dehydrate_variants]; [apply e_ret|].
  specialize (IH (fun va' g' i Hin => H va' g' i (or_intror Hin))).
  apply e_bind; [apply e_env_intro|]. intro e'. apply e_bind; [apply e_lift|].
  { unfold instantiate_variant_dataset.
    pose proof (mapM_ends (instantiate_quad ops e') (it_dataset (va_item va)) (quad_ends e')).
    destruct (mapM (instantiate_quad ops e') (it_dataset (va_item va))); simpl; congruence. }
  intro d. apply e_bind; [apply e_is_ok, e_sub_value; intros; apply H; now left|]. intro ok.
  destruct ok; [|apply IH]. destruct sel; [apply e_raise|apply IH].
Qed.

Lemma e_entries g e fs m :
  (forall k v f g' inputs, In (k, v) m -> In (k, f) fs ->
     ends (rec v g' (vf_layout (it_value (f_item f))) inputs)) ->
  ends (dehydrate_entries ops rec g e fs m).
Proof.
  induction m as [|[k v] m IH]; intro H; cbn [dehydrate_entries]; [apply e_ret|].
  destruct (bt_get k fs) as [f|] eqn:E; [|apply e_raise]. apply bt_get_In in E.
  apply e_bind; [apply e_open|]. intro e'. apply e_bind.
  - apply e_sub_value. intros. apply (H k v f); [now left|exact E].
  - intros _. apply IH. intros k' v' f' g' inputs Hin. apply (H k'). now right.
Qed.

Lemma e_check ref m fs : ends (check_required ref m fs).
Proof.
  induction fs as [|[k f] fs IH]; cbn [check_required]; [apply e_ret|].
  destruct (_ && _); [apply e_raise|exact IH].
Qed.

Lemma e_items g e it l :
  (forall v g' inputs, In v l -> ends (rec v g' (vf_layout (it_value it)) inputs)) ->
  ends (dehydrate_items ops rec g e it l).
Proof.
  induction l as [|v l IH]; intro H; cbn [dehydrate_items]; [apply e_ret|].
  apply e_bind; [apply e_open|]. intro e'. apply e_bind.
  - apply e_sub_value. intros. apply H. now left.
  - intros _. apply IH. intros v' g' inputs Hin. apply H. now right.
Qed.

Lemma e_nodes g e node tl l :
  (forall v g' inputs, In v l -> ends (rec v g' (vf_layout (it_value node)) inputs)) ->
  forall head, ends (dehydrate_nodes ops rec g e node tl head l).
Proof.
  induction l as [|v l IH]; intros H head; cbn [dehydrate_nodes]; [apply e_ret|].
  apply e_bind; [destruct l; [apply e_lift, pattern_ends|apply e_new]|]. intro rest.
  apply e_bind; [apply e_open|]. intro e'. apply e_bind.
  - apply e_sub_value. intros. apply H. now left.
  - intros _. apply IH. intros v' g' inputs Hin. apply H. now right.
Qed.

Lemma e_tuple g e l : forall its,
  (forall v it g' inputs, In v l -> In it its -> ends (rec v g' (vf_layout (it_value it)) inputs)) ->
  ends (dehydrate_tuple ops rec g e its l).
Proof.
  induction l as [|v l IH]; intros [|it its] H; cbn [dehydrate_tuple]; try apply e_raise; [apply e_ret|].
  apply e_bind; [apply e_open|]. intro e'. apply e_bind.
  - apply e_sub_value. intros. apply H; now left.
  - intros _. apply IH. intros v' it' g' inputs Hv Hi. apply H; now right.
Qed.

Lemma e_layout v g ref l inputs :
  (forall v' r g' inputs, uses l r -> depth v' < depth v -> ends (rec v' g' r inputs)) ->
  (forall h vs r g' inputs, l = SumL h vs -> uses l r -> ends (rec v g' r inputs)) ->
  ends (dehydrate_layout ops rec v g ref l inputs).
Proof.
  intros H HS. destruct l as [| |h c|k h r dt|h r pat|h fs|h vs|h it|h node hd tl|h its];
    cbn [dehydrate_layout].
  - apply e_raise.
  - apply e_ret.
  - destruct (eqb v c); [|apply e_raise]. apply e_bind; [apply e_open|]. intro. apply e_ret.
  - destruct v as [v|m|vs]; try apply e_raise.
    destruct (dehydrate_literal ops k v (into ops dt)) as [m|] eqn:E; [|apply e_raise].
    apply e_bind; [apply e_open|]. intro. apply e_bind; [apply e_lift, pattern_ends|]. intro.
    apply e_bind; [eapply e_literal, E|]. intros lit st. discriminate.
  - destruct v as [[| | | |s]|m|vs]; try apply e_raise.
    apply e_bind; [apply e_open|]. intro. apply e_bind; [apply e_lift, pattern_ends|]. intro.
    destruct (is_iri s); [intros st; discriminate|apply e_raise].
  - destruct v as [v|m|vs]; try apply e_raise.
    apply e_bind; [apply e_open|]. intro. apply e_bind; [|intros _; apply e_check].
    apply e_entries. intros k v f g' inp Hm Hf. apply H; [econstructor; exact Hf|eapply depth_entry, Hm].
  - apply e_bind; [apply e_open|]. intro. apply e_bind.
    + apply e_variants. intros va g' inp Hva. eapply HS; [reflexivity|]. now constructor.
    + intros [d|]; [intros st; discriminate|apply e_raise].
  - destruct v as [v|m|vs]; try apply e_raise.
    apply e_bind; [apply e_open|]. intro. apply e_items. intros v g' inp Hv.
    apply H; [constructor|now apply depth_item].
  - destruct v as [v|m|vs]; try apply e_raise.
    apply e_bind; [apply e_open|]. intro. apply e_bind; [apply e_lift, pattern_ends|]. intro.
    apply e_nodes. intros v g' inp Hv. apply H; [constructor|now apply depth_item].
  - destruct v as [v|m|vs]; try apply e_raise.
    apply e_bind; [apply e_open|]. intro. apply e_tuple. intros v it g' inp Hv Hi.
    apply H; [econstructor; exact Hi|now apply depth_item].
Qed.
End Body.

(** [rank] decreases from a sum to its variants, and is smaller than [K]. *)
Theorem dehydrate_ends (rank : Q -> nat) K :
  (forall ref, rank ref < K) ->
  (forall ref h vs r, reg ref = Some (SumL h vs) -> uses (SumL h vs) r -> rank r < rank ref) ->
  forall fuel v g ref inputs, depth v * K + rank ref < fuel ->
  ends (dehydrate_with ops reg fuel v g ref inputs).
Proof.
  intros HK HS. induction fuel as [|fuel IH]; intros v g ref inputs Hf; [lia|].
  cbn [dehydrate_with]. unfold dehydrate_body.
  destruct (reg ref) as [l|] eqn:Hl; [|apply e_raise].
  assert (ends (dehydrate_layout ops (dehydrate_with ops reg fuel) v g ref l inputs)) as G.
  { apply e_layout.
    - intros v' r g' inp Hu Hd. apply IH. pose proof (HK r). nia.
    - intros h vs r g' inp -> Hu. apply IH. pose proof (HS _ _ _ _ Hl Hu). lia. }
  destruct (input_count l); [|exact G]. destruct (Nat.eqb _ _); [exact G|apply e_raise].
Qed.

End Ends.
