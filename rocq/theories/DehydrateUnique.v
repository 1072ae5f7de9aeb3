(** * The result of dehydration, up to the names of the nodes (C98) *)

From Coq Require Import String List Bool Arith NArith Permutation Lia.
Import ListNotations.
From Verif Require Import Base BaseProofs Orders PatternModel ValueModel LayoutModel LayoutSpec HydrateModel TermModel
  DehydrateModel DehydrateSpec DehydrateProofs DehydrateEmits DehydrateFinish DehydrateProperties
  RoundTripSpec OtherDataProperties RenameProperties.
Open Scope list_scope.
Open Scope nat_scope.

(** ** The resources that dehydration writes *)
Section Written.
Context {X : Xsd} {IS : IriSyntax}.
Variable reg : registry term.
Variable P : res -> Prop.
Hypothesis Pnew : forall i, P (RAnon i).
Hypothesis Pmention : forall ref l t, reg ref = Some l -> mentions l t -> P (RTerm t).

Notation MM := (M (Q := term) (S := res) (I := input_interp)).

Definition clean (st : dstate res input_interp) : Prop := forall q r, In q (ds_output st) -> quad_res q r -> P r.
Definition clean_env (e : env res) : Prop := forall i r, env_get e i = inl r -> P r.

(** [m] keeps the states clean, and its results satisfy [post]. *)
Definition keeps {A} (post : A -> Prop) (m : MM A) : Prop := forall st o st', clean st -> m st = (o, st') ->
  clean st' /\ (forall a, o = Ok a -> post a).

Lemma k_ret {A} (post : A -> Prop) (a : A) : post a -> keeps post (ret a).
Proof. intros H st o st' C E. injection E as <- <-. split; [exact C|]. intros a' [= <-]. exact H. Qed.
Lemma k_raise {A} (post : A -> Prop) e : keeps post (raise e : MM A).
Proof. intros st o st' C E. injection E as <- <-. split; [exact C|discriminate]. Qed.
Lemma k_lift {A} (post : A -> Prop) (o : outcome (derr (Q := term)) A) : (forall a, o = Ok a -> post a) -> keeps post (lift o).
Proof. intros H st o' st' C E. injection E as <- <-. split; [exact C|exact H]. Qed.
Lemma k_bind {A B} (mid : A -> Prop) (post : B -> Prop) (m : MM A) (k : A -> MM B) :
  keeps mid m -> (forall a, mid a -> keeps post (k a)) -> keeps post (bindM m k).
Proof.
  intros H1 H2 st o st' C E. unfold bindM in E. destruct (m st) as [o1 st1] eqn:E1. destruct (H1 _ _ _ C E1) as [C1 M1].
  destruct o1 as [a|e|w|]; [|injection E as <- <-; split; [exact C1|discriminate]..].
  exact (H2 a (M1 a eq_refl) _ _ _ C1 E).
Qed.
Lemma k_weak {A} (post post' : A -> Prop) (m : MM A) : (forall a, post a -> post' a) -> keeps post m -> keeps post' m.
Proof. intros H K st o st' C E. destruct (K _ _ _ C E). split; auto. Qed.
Lemma k_is_ok {A} (post : A -> Prop) (m : MM A) : keeps post m -> keeps (fun _ => True) (is_ok m).
Proof.
  intros H st o st' C E. unfold is_ok in E. destruct (m st) as [o1 st1] eqn:E1. destruct (H _ _ _ C E1) as [C1 _].
  destruct o1; injection E as <- <-; auto.
Qed.
Lemma k_new : keeps P (new_resourceM input_interpretation).
Proof. intros st o st' C E. injection E as <- <-. split; [exact C|]. intros a [= <-]. apply Pnew. Qed.
Lemma k_assign_iri r s : keeps (fun _ => True) (assign_iriM input_interpretation r s).
Proof. intros st o st' C E. injection E as <- <-. auto. Qed.
Lemma k_assign_literal r l : keeps (fun _ => True) (assign_literalM input_interpretation r l).
Proof. intros st o st' C E. injection E as <- <-. auto. Qed.
Lemma k_emit qs : (forall q r, In q qs -> quad_res q r -> P r) -> keeps (fun _ => True) (emit qs).
Proof.
  intros H st o st' C E. injection E as <- <-. split; [|auto]. intros q r Hq Hr. cbn [ds_output] in Hq.
  apply ds_insert_all_In in Hq as [Hq|Hq]; eauto.
Qed.
Lemma k_new_resources n : keeps (Forall P) (new_resources input_interpretation n).
Proof.
  induction n as [|n IH]; cbn [new_resources]; [now apply k_ret|].
  apply (k_bind P); [apply k_new|]. intros r Hr. apply (k_bind (Forall P)); [exact IH|]. intros rs Hrs. apply k_ret. now constructor.
Qed.
Lemma clean_child e rs : clean_env e -> Forall P rs -> clean_env (Child e rs).
Proof.
  intros He Hr i r. cbn [env_get]. destruct (env_get e i) as [r'|j] eqn:E; [intros [= ->]; eauto|].
  destruct (nth_error rs j) as [r'|] eqn:N; [|discriminate]. intros [= ->]. rewrite Forall_forall in Hr. eapply Hr, nth_error_In, N.
Qed.
Lemma clean_root rs : Forall P rs -> clean_env (Root rs).
Proof.
  intros Hr i r. cbn [env_get]. destruct (nth_error rs i) as [r'|] eqn:N; [|discriminate]. intros [= ->]. rewrite Forall_forall in Hr. eapply Hr, nth_error_In, N.
Qed.
Lemma k_intro e n : clean_env e -> keeps clean_env (env_intro input_interpretation e n).
Proof. intro He. apply (k_bind (Forall P)); [apply k_new_resources|]. intros rs Hr. apply k_ret. now apply clean_child. Qed.

Lemma inst_clean e p r : clean_env e -> (forall t, names p t -> P (RTerm t)) -> instantiate_pattern input_interpretation e p = Ok r -> P r.
Proof.
  intros He Hp. destruct p as [t|x]; cbn [instantiate_pattern]; [intros [= <-]; now apply Hp|].
  destruct (env_get e x) as [r'|] eqn:E; [|discriminate]. intros [= <-]. eauto.
Qed.
Lemma quad_clean e p q r : clean_env e -> (forall t, quad_names p t -> P (RTerm t)) ->
  instantiate_quad input_interpretation e p = Ok q -> quad_res q r -> P r.
Proof.
  intros He Hp H. unfold instantiate_quad in H.
  apply bind_Ok in H as (s & Hs & H). apply bind_Ok in H as (pr & Hpr & H). apply bind_Ok in H as (o & Ho & H).
  assert (Ps : P s) by (eapply inst_clean; [exact He| |exact Hs]; intros t Ht; apply Hp; now left).
  assert (Pp : P pr) by (eapply inst_clean; [exact He| |exact Hpr]; intros t Ht; apply Hp; right; now left).
  assert (Po : P o) by (eapply inst_clean; [exact He| |exact Ho]; intros t Ht; apply Hp; right; right; now left).
  destruct (q_g p) as [g|] eqn:Eg.
  - apply bind_Ok in H as (g' & Hg & H). injection H as <-.
    assert (Pg : P g') by (eapply inst_clean; [exact He| |exact Hg]; intros t ->; apply Hp; right; right; now right).
    unfold quad_res. cbn [q_s q_p q_o q_g]. intros [<-|[<-|[<-|[= <-]]]]; assumption.
  - injection H as <-. unfold quad_res. cbn [q_s q_p q_o q_g]. intros [<-|[<-|[<-|[=]]]]; assumption.
Qed.
Lemma k_dataset e qs : clean_env e -> (forall p t, In p qs -> quad_names p t -> P (RTerm t)) ->
  keeps (fun _ => True) (instantiate_dataset input_interpretation e qs).
Proof.
  intro He. induction qs as [|p qs IH]; intro H; cbn [instantiate_dataset]; [now apply k_ret|].
  apply (k_bind (fun q => forall r, quad_res q r -> P r)).
  - apply k_lift. intros q Hq r Hr. eapply quad_clean; [exact He| |exact Hq|exact Hr]. intros t. apply H. now left.
  - intros q Hq. apply (k_bind (fun _ => True)); [|intros _ _; apply IH; intros p' t Hp; apply H; now right].
    apply k_emit. intros q' r [<-|[]]. apply Hq.
Qed.
Lemma k_open e n qs : clean_env e -> (forall p t, In p qs -> quad_names p t -> P (RTerm t)) ->
  keeps clean_env (open input_interpretation e n qs).
Proof.
  intros He H. unfold open. apply (k_bind clean_env); [now apply k_intro|]. intros e' He'.
  apply (k_bind (fun _ => True)); [now apply k_dataset|]. intros _ _. now apply k_ret.
Qed.
Lemma variant_dataset_clean e qs d : clean_env e -> (forall p t, In p qs -> quad_names p t -> P (RTerm t)) ->
  instantiate_variant_dataset input_interpretation e qs = Ok d -> forall q r, In q d -> quad_res q r -> P r.
Proof.
  intros He H E q r Hq Hr. unfold instantiate_variant_dataset in E. apply bind_Ok in E as (l & El & E). injection E as <-.
  apply ds_insert_all_In in Hq as [Hq|[]]. apply mapM_Ok in El.
  assert (exists p, In p qs /\ instantiate_quad input_interpretation e p = Ok q) as (p & Hp & E).
  { clear -El Hq. induction El; [destruct Hq|]. destruct Hq as [<-|Hq]; [eexists; split; [now left|eassumption]|].
    destruct (IHEl Hq) as (p & A & B). exists p. split; [now right|exact B]. }
  eapply quad_clean; [exact He| |exact E|exact Hr]. intros t. now apply H.
Qed.

Lemma k_literal k v ty m : dehydrate_literal (Q := term) input_interpretation k v ty = Some m -> keeps (fun _ => True) m.
Proof.
  intros H st o st' C E. split; [|auto].
  destruct k, v; try discriminate; cbn [dehydrate_literal] in H; injection H as <-.
  - unfold dehydrate_boolean in E. destruct (existsb _ _); injection E as <- <-; exact C.
  - injection E as <- <-. exact C.
  - injection E as <- <-. exact C.
  - unfold dehydrate_text_string in E. destruct (iris_in _ _ _); injection E as <- <-; exact C.
Qed.

Section Body.
Variable rec : value -> option res -> term -> list res -> MM unit.
Hypothesis REC : forall v g ref inputs, Forall P inputs -> keeps (fun _ => True) (rec v g ref inputs).

Lemma k_sub_value v g vf e : clean_env e -> (forall p t, In p (vf_input vf) -> names p t -> P (RTerm t)) ->
  keeps (fun _ => True) (dehydrate_sub_value input_interpretation rec v g vf e).
Proof.
  intros He H. unfold dehydrate_sub_value. apply (k_bind (Forall P)).
  - apply k_lift. intros rs E. apply mapM_Ok in E. clear -He H E. induction E; constructor.
    + eapply inst_clean; [exact He| |eassumption]. intro t. apply H. now left.
    + apply IHE. intros p t Hp. apply H. now right.
  - intros rs Hrs. apply (k_bind (fun _ => True)); [|intros g' _; now apply REC].
    destruct (vf_graph vf) as [[p|]|]; try (now apply k_ret).
    apply (k_bind (fun _ => True)); [now apply k_lift|]. intros; now apply k_ret.
Qed.

Section Layout.
Variables (ref : term) (l : layout term).
Hypothesis L : reg ref = Some l.
Lemma fmt vf : format_of l vf -> forall p t, In p (vf_input vf) -> names p t -> P (RTerm t).
Proof. intros F p t Hp Hn. eapply Pmention; [exact L|]. eapply me_input; eauto. Qed.
Lemma pat p t : pattern_of l p -> quad_names p t -> P (RTerm t).
Proof. intros F Hn. eapply Pmention; [exact L|]. eapply me_quad; eauto. Qed.

Lemma k_variants v g e vs : clean_env e ->
  (forall va, In va vs -> format_of l (it_value (va_item va)) /\ (forall p, In p (it_dataset (va_item va)) -> pattern_of l p)) ->
  forall sel, (forall d q r, sel = Some d -> In q d -> quad_res q r -> P r) ->
  keeps (fun sel => forall d q r, sel = Some d -> In q d -> quad_res q r -> P r) (dehydrate_variants input_interpretation rec v g e vs sel).
Proof.
  intro He. induction vs as [|va vs IH]; intros H sel Hs; cbn [dehydrate_variants]; [now apply k_ret|].
  destruct (H va (or_introl eq_refl)) as [HF HP].
  apply (k_bind clean_env); [now apply k_intro|]. intros e' He'.
  apply (k_bind (fun d => forall q r, In q d -> quad_res q r -> P r)).
  { apply k_lift. intros d Hd. eapply variant_dataset_clean; [exact He'| |exact Hd]. intros p t Hp. now apply pat, HP. }
  intros d Hd. apply (k_bind (fun _ => True)).
  { eapply k_is_ok. apply k_sub_value; [exact He'|]. now apply fmt. }
  intros ok _. assert (IH' := IH (fun va I => H va (or_intror I))).
  destruct ok; [|now apply IH']. destruct sel; [apply k_raise|]. apply IH'. intros d' q r [= <-]. apply Hd.
Qed.
Lemma k_entries g e fs m : clean_env e ->
  (forall k f, In (k, f) fs -> format_of l (it_value (f_item f)) /\ (forall p, In p (it_dataset (f_item f)) -> pattern_of l p)) ->
  keeps (fun _ => True) (dehydrate_entries input_interpretation rec g e fs m).
Proof.
  intros He H. induction m as [|[k v] m IH]; cbn [dehydrate_entries]; [now apply k_ret|].
  destruct (bt_get k fs) as [f|] eqn:E; [|apply k_raise]. apply bt_get_In in E. destruct (H _ _ E) as [HF HP].
  apply (k_bind clean_env); [apply k_open; [exact He|intros p t Hp; now apply pat, HP]|]. intros e' He'.
  apply (k_bind (fun _ => True)); [apply k_sub_value; [exact He'|now apply fmt]|]. intros _ _. exact IH.
Qed.
Lemma k_check m fs : keeps (fun _ => True) (check_required ref m fs : MM unit).
Proof. induction fs as [|[k f] fs IH]; cbn [check_required]; [now apply k_ret|]. destruct (_ && _); [apply k_raise|exact IH]. Qed.
Lemma k_items g e it vs : clean_env e -> format_of l (it_value it) -> (forall p, In p (it_dataset it) -> pattern_of l p) ->
  keeps (fun _ => True) (dehydrate_items input_interpretation rec g e it vs).
Proof.
  intros He HF HP. induction vs as [|v vs IH]; cbn [dehydrate_items]; [now apply k_ret|].
  apply (k_bind clean_env); [apply k_open; [exact He|intros p t Hp; now apply pat, HP]|]. intros e' He'.
  apply (k_bind (fun _ => True)); [apply k_sub_value; [exact He'|now apply fmt]|]. intros _ _. exact IH.
Qed.
Lemma k_nodes g e node tl vs : clean_env e -> format_of l (it_value node) -> (forall p, In p (it_dataset node) -> pattern_of l p) ->
  (forall t, names tl t -> P (RTerm t)) ->
  forall head, P head -> keeps (fun _ => True) (dehydrate_nodes input_interpretation rec g e node tl head vs).
Proof.
  intros He HF HP HT. induction vs as [|v vs IH]; intros head HH; cbn [dehydrate_nodes]; [now apply k_ret|].
  apply (k_bind P); [destruct vs; [apply k_lift; intros r; now apply inst_clean|apply k_new]|]. intros rest HR.
  apply (k_bind clean_env); [apply k_open; [|intros p t Hp; now apply pat, HP]|].
  { apply clean_child; [exact He|]. repeat (apply Forall_cons; [assumption|]). apply Forall_nil. }
  intros e' He'. apply (k_bind (fun _ => True)); [apply k_sub_value; [exact He'|now apply fmt]|]. intros _ _. now apply IH.
Qed.
Lemma k_tuple g e vs : clean_env e -> forall its,
  (forall it, In it its -> format_of l (it_value it) /\ (forall p, In p (it_dataset it) -> pattern_of l p)) ->
  keeps (fun _ => True) (dehydrate_tuple input_interpretation rec g e its vs).
Proof.
  intro He. induction vs as [|v vs IH]; intros [|it its] H; cbn [dehydrate_tuple]; try apply k_raise; [now apply k_ret|].
  destruct (H it (or_introl eq_refl)) as [HF HP].
  apply (k_bind clean_env); [apply k_open; [exact He|intros p t Hp; now apply pat, HP]|]. intros e' He'.
  apply (k_bind (fun _ => True)); [apply k_sub_value; [exact He'|now apply fmt]|]. intros _ _. apply IH. intros it' I. apply H. now right.
Qed.
End Layout.

Lemma k_layout v g ref l inputs : reg ref = Some l -> Forall P inputs -> keeps (fun _ => True) (dehydrate_layout input_interpretation rec v g ref l inputs).
Proof.
  intros HL HI. apply clean_root in HI.
  assert (HO : forall n qs, (forall p, In p qs -> pattern_of l p) -> keeps clean_env (open input_interpretation (Root inputs) n qs)).
  { intros n qs H. apply k_open; [exact HI|]. intros p t Hp. apply (pat ref l HL). now apply H. }
  destruct l as [| |h c|k h r dt|h r pt|h fs|h vs|h it|h node hd tl|h its]; cbn [dehydrate_layout].
  - apply k_raise.
  - now apply k_ret.
  - destruct (eqb v c); [|apply k_raise]. apply (k_bind clean_env); [apply HO; now constructor|]. intros. now apply k_ret.
  - destruct v as [v|m|vs]; try apply k_raise.
    destruct (dehydrate_literal input_interpretation k v _) as [m|] eqn:E; [|apply k_raise].
    apply (k_bind clean_env); [apply HO; now constructor|]. intros e He. apply (k_bind (fun _ => True)); [now apply k_lift|]. intros r' _.
    apply (k_bind (fun _ => True)); [eapply k_literal, E|]. intros. apply k_assign_literal.
  - destruct v as [[| | | |s]|m|vs]; try apply k_raise.
    apply (k_bind clean_env); [apply HO; now constructor|]. intros e He. apply (k_bind (fun _ => True)); [now apply k_lift|]. intros r' _.
    destruct (is_iri s); [apply k_assign_iri|apply k_raise].
  - destruct v as [v|m|vs]; try apply k_raise.
    apply (k_bind clean_env); [apply HO; now constructor|]. intros e He.
    apply (k_bind (fun _ => True)); [|intros; apply k_check].
    apply (k_entries ref _ HL); [exact He|]. intros k f I. split; [econstructor; eauto|]. intros p. now apply po_field with k.
  - apply (k_bind clean_env); [apply HO; now constructor|]. intros e He.
    eapply k_bind; [apply (k_variants ref _ HL); [exact He| |discriminate]|].
    + intros va I. split; [now econstructor|]. intros p. now apply po_variant.
    + intros [d|] Hd; [|apply k_raise]. apply k_emit. intros q r'. now apply Hd.
  - destruct v as [v|m|vs]; try apply k_raise.
    apply (k_bind clean_env); [apply HO; now constructor|]. intros e He.
    apply (k_items ref _ HL); [exact He|constructor|]. intros p. apply po_item.
  - destruct v as [v|m|vs]; try apply k_raise.
    apply (k_bind clean_env); [apply HO; now constructor|]. intros e He.
    apply (k_bind P); [apply k_lift; intros r; apply inst_clean; [exact He|]; intros t ->; eapply Pmention; [exact HL|constructor]|]. intros head HH.
    apply (k_nodes ref _ HL); [exact He|constructor|intros p; apply po_node| |exact HH]. intros t ->; eapply Pmention; [exact HL|constructor].
  - destruct v as [v|m|vs]; try apply k_raise.
    apply (k_bind clean_env); [apply HO; now constructor|]. intros e He.
    apply (k_tuple ref _ HL); [exact He|]. intros it I. split; [now constructor|]. intros p. now apply po_tuple.
Qed.
End Body.

Theorem dehydrate_clean fuel : forall v g ref inputs, Forall P inputs ->
  keeps (fun _ => True) (dehydrate_with input_interpretation reg fuel v g ref inputs).
Proof.
  induction fuel as [|fuel IH]; intros v g ref inputs HI; cbn [dehydrate_with].
  - intros st o st' C E. injection E as <- <-. split; [exact C|discriminate].
  - unfold dehydrate_body. destruct (reg ref) as [l|] eqn:E; [|apply k_raise].
    destruct (input_count l) as [n|]; [destruct (Nat.eqb _ _); [|apply k_raise]|]; now apply k_layout.
Qed.
End Written.

(** The terms assigned are IRIs and literals. *)
Lemma assigned_not_blank {X : Xsd} {IS : IriSyntax} reg fuel v g ref inputs st o st' :
  (forall r b, ~ assigned st r (TmBlank b)) ->
  dehydrate_with input_interpretation reg fuel v g ref inputs st = (o, st') -> forall r b, ~ assigned st' r (TmBlank b).
Proof.
  intros W H.
  assert (Pr : preserves (Q := term) (fun st st' => (forall r b, ~ assigned st r (TmBlank b)) -> forall r b, ~ assigned st' r (TmBlank b))
            (dehydrate_with input_interpretation reg fuel v g ref inputs)).
  { apply dehydrate_preserves; auto; unfold assigned; cbn [input_interpretation assign_iri assign_literal ds_interp ii_map].
    - intros i o' r s W' r' b Hin. apply terms_of_assign in Hin as [[_ E]|Hin]; [discriminate|]. eapply W', Hin.
    - intros i o' r s W' r' b Hin. apply terms_of_assign in Hin as [[_ E]|Hin]; [discriminate|]. eapply W', Hin. }
  specialize (Pr st W). now rewrite H in Pr.
Qed.
