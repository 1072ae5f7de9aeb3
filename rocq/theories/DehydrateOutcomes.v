(** * The possible failures of dehydration *)

From Coq Require Import String List Bool Arith NArith Lia Qcanon Permutation.
Import ListNotations.
From Verif Require Import Base BaseProofs Orders PatternModel MatchingModel MatchingSpec ValueModel ValueProofs
  LayoutModel HydrateModel TermModel LayoutSpec DehydrateModel DehydrateSpec DehydrateProofs.
Open Scope list_scope.
Open Scope nat_scope.

Section Outcomes.
Context {Q S I : Type} {CS : Cmp S} {CSL : CmpLaws S} {X : Xsd} {IS : IriSyntax}.
Variable ops : interpretation Q S I.
Variable reg : registry Q.

(** References and values that may be visited, allowed errors and panics. *)
Variable ok_ref : Q -> Prop.
Variable ok_val : value -> Prop.
Variable PE : derr (Q := Q) -> Prop.
Variable PW : string -> Prop.

Hypothesis ok_uses : forall ref l r, ok_ref ref -> reg ref = Some l -> uses l r -> ok_ref r.
Hypothesis ok_entry : forall m k v, ok_val (VMap m) -> In (k, v) m -> ok_val v.
Hypothesis ok_item : forall l v, ok_val (VList l) -> In v l -> ok_val v.
Hypothesis E_incompatible : PE DIncompatibleLayout.
Hypothesis E_ambiguity : PE DDataAmbiguity.
Hypothesis E_count : forall ref l n m, ok_ref ref -> reg ref = Some l -> input_count l = Some n ->
  n <> m -> PE (DInvalidInputCount n m).
Hypothesis E_undeclared : forall ref l x, ok_ref ref -> reg ref = Some l -> undeclared_in l x ->
  PE (DUndeclaredVariable x).
Hypothesis E_not_found : forall ref, ok_ref ref -> reg ref = None -> PE (DLayoutNotFound ref).
Hypothesis E_missing : forall ref h fs k f m, ok_ref ref -> reg ref = Some (ProductL h fs) ->
  In (k, f) fs -> f_required f = true -> ~ In k (map fst m) -> PE (DMissingRequiredKey ref k m).
Hypothesis W_literal : forall ref k h r dt v m st w st', ok_ref ref -> ok_val (VLit v) ->
  reg ref = Some (DataL k h r dt) ->
  dehydrate_literal ops k v (into ops dt) = Some m -> m st = (Panic w, st') -> PW w.

Notation M := (M (Q := Q) (S := S) (I := I)).

Definition post {A} (P : A -> Prop) (o : outcome (derr (Q := Q)) A) : Prop :=
  match o with Ok a => P a | Err e => PE e | Panic w => PW w | OutOfFuel => True end.
Definition fine {A} (P : A -> Prop) (m : M A) : Prop := forall st, post P (fst (m st)).

Lemma f_ret {A} (P : A -> Prop) a : P a -> fine P (ret a).
Proof. intros H st. exact H. Qed.
Lemma f_raise {A} (P : A -> Prop) e : PE e -> fine P (raise e).
Proof. intros H st. exact H. Qed.
Lemma f_lift {A} (P : A -> Prop) o : post P o -> fine P (lift o).
Proof. intros H st. exact H. Qed.

Lemma f_bind {A B} (P : A -> Prop) (P' : B -> Prop) m k :
  fine P m -> (forall a, P a -> fine P' (k a)) -> fine P' (bindM m k).
Proof.
  intros Hm Hk st. specialize (Hm st). unfold bindM.
  destruct (m st) as [[a|e|w|] st1]; simpl in *; try exact Hm. now apply Hk.
Qed.

Lemma f_is_ok {A} (P : A -> Prop) m : fine P m -> fine (fun _ => True) (is_ok m).
Proof.
  intros Hm st. specialize (Hm st). unfold is_ok.
  destruct (m st) as [[a|e|w|] st1]; simpl in *; auto.
Qed.

Lemma f_new : fine (fun _ => True) (new_resourceM ops).
Proof. intros st. unfold new_resourceM. destruct (new_resource ops (ds_interp st)). exact Logic.I. Qed.

Lemma f_news n : fine (fun rs => length rs = n) (new_resources ops n).
Proof.
  induction n as [|n IH]; cbn [new_resources]; [now apply f_ret|].
  eapply f_bind; [apply f_new|]. intros r _. eapply f_bind; [apply IH|]. intros rs Hrs.
  apply f_ret. simpl. congruence.
Qed.

Definition has (n : nat) (e : env S) : Prop := length (env_list e) = n.

Lemma f_env_intro e n m : has n e -> fine (has (n + m)) (env_intro ops e m).
Proof.
  intro He. eapply f_bind; [apply f_news|]. intros rs Hrs. apply f_ret.
  unfold has in *. simpl. rewrite app_length. lia.
Qed.

Section At.
Variable ref : Q.
Variable l : layout Q.
Hypothesis H_ok : ok_ref ref.
Hypothesis H_reg : reg ref = Some l.

Lemma f_pattern e n p :
  has n e -> (forall x, p = PVar x -> n <= x -> undeclared_in l x) ->
  post (fun _ => True) (instantiate_pattern ops e p).
Proof.
  intros He Hp. destruct (instantiate_pattern_cases ops e p) as [[r ->]|(x & -> & Hx & ->)]; [exact Logic.I|].
  simpl. eapply E_undeclared; [exact H_ok|exact H_reg|]. apply Hp; [reflexivity|].
  unfold has in He. lia.
Qed.

Lemma f_patterns e n ps :
  has n e -> (forall x, In (PVar x) ps -> n <= x -> undeclared_in l x) ->
  post (fun _ => True) (instantiate_patterns ops e ps).
Proof.
  intros He. unfold instantiate_patterns. induction ps as [|p ps IH]; intro Hp; cbn [mapM]; [exact Logic.I|].
  pose proof (f_pattern e n p He ltac:(intros x -> ?; apply Hp; [now left|assumption])) as H.
  destruct (instantiate_pattern ops e p); simpl in *; auto.
  specialize (IH ltac:(intros x ? ?; apply Hp; [now right|assumption])).
  destruct (mapM (instantiate_pattern ops e) ps); simpl in *; auto.
Qed.

Lemma f_quad e n p :
  has n e -> (forall x, qvar_of p x -> n <= x -> undeclared_in l x) ->
  post (fun _ => True) (instantiate_quad ops e p).
Proof.
  intros He Hp. unfold instantiate_quad.
  pose proof (f_pattern e n (q_s p) He ltac:(intros x E ?; apply Hp; [left; exact E|assumption])) as Hs.
  destruct (instantiate_pattern ops e (q_s p)); simpl in *; auto.
  pose proof (f_pattern e n (q_p p) He ltac:(intros x E ?; apply Hp; [right; left; exact E|assumption])) as H2.
  destruct (instantiate_pattern ops e (q_p p)); simpl in *; auto.
  pose proof (f_pattern e n (q_o p) He ltac:(intros x E ?; apply Hp; [right; right; left; exact E|assumption])) as H3.
  destruct (instantiate_pattern ops e (q_o p)); simpl in *; auto.
  destruct (q_g p) as [g|] eqn:Eg; simpl; [|exact Logic.I].
  pose proof (f_pattern e n g He ltac:(intros x -> ?; apply Hp; [right; right; right; exact Eg|assumption])) as H4.
  destruct (instantiate_pattern ops e g); simpl in *; auto.
Qed.

Definition scoped_or (n : nat) (ps : list (qpat Q)) : Prop :=
  forall x, var_of ps x -> n <= x -> undeclared_in l x.

Lemma f_dataset e n ps : has n e -> scoped_or n ps -> fine (fun _ => True) (instantiate_dataset ops e ps).
Proof.
  intros He. induction ps as [|p ps IH]; intro Hp; cbn [instantiate_dataset]; [now apply f_ret|].
  eapply f_bind; [apply f_lift|].
  { apply (f_quad e n); [exact He|]. intros x Hx. apply Hp. exists p. split; [now left|exact Hx]. }
  intros q _. eapply (f_bind (fun _ => True)); [intro st; exact Logic.I|]. intros _ _.
  apply IH. intros x (p' & Hp' & Hx). apply Hp. exists p'. split; [now right|exact Hx].
Qed.

Lemma f_variant_dataset e n ps : has n e -> scoped_or n ps ->
  post (fun _ => True) (instantiate_variant_dataset ops e ps).
Proof.
  intros He Hp. unfold instantiate_variant_dataset.
  assert (post (fun _ => True) (mapM (instantiate_quad ops e) ps)) as H.
  { induction ps as [|p ps IH]; cbn [mapM]; [exact Logic.I|].
    pose proof (f_quad e n p He ltac:(intros x Hx; apply Hp; exists p; split; [now left|exact Hx])) as H.
    destruct (instantiate_quad ops e p); simpl in *; auto.
    specialize (IH ltac:(intros x (p' & Hp' & Hx); apply Hp; exists p'; split; [now right|exact Hx])).
    destruct (mapM (instantiate_quad ops e) ps); simpl in *; auto. }
  destruct (mapM (instantiate_quad ops e) ps); simpl in *; auto.
Qed.

Lemma f_open e n m ps : has n e -> scoped_or (n + m) ps -> fine (has (n + m)) (open ops e m ps).
Proof.
  intros He Hp. eapply f_bind; [apply f_env_intro, He|]. intros e' He'.
  eapply f_bind; [eapply f_dataset; eassumption|]. intros _ _. now apply f_ret.
Qed.

Section Body.
Variable rec : value -> option S -> Q -> list S -> M unit.
Hypothesis H_rec : forall v g r inputs, ok_ref r -> ok_val v -> fine (fun _ => True) (rec v g r inputs).

Definition item_or (n : nat) (it : item_layout Q) : Prop :=
  (forall x, item_undeclared n it x -> undeclared_in l x) /\ ok_ref (vf_layout (it_value it)).

Lemma f_sub_value v g it e n : has (n + it_intro it) e -> item_or n it -> ok_val v ->
  fine (fun _ => True) (dehydrate_sub_value ops rec v g (it_value it) e).
Proof.
  intros He [Hu Hr] Hv. unfold dehydrate_sub_value. eapply f_bind; [apply f_lift|].
  { eapply f_patterns; [exact He|]. intros x Hx Hn. apply Hu. split; [tauto|exact Hn]. }
  intros inputs _. eapply (f_bind (fun _ => True)); [|intros g' _; now apply H_rec].
  destruct (vf_graph (it_value it)) as [[p|]|] eqn:Eg; [|now apply f_ret|now apply f_ret].
  eapply f_bind; [apply f_lift|intros r _; now apply f_ret].
  eapply f_pattern; [exact He|]. intros x -> Hn. apply Hu. split; [tauto|exact Hn].
Qed.

Lemma fine_item {A} (P : A -> Prop) v g it e n (k : unit -> M A) :
  has n e -> item_or n it -> ok_val v -> fine P (k tt) ->
  fine P (bindM (open ops e (it_intro it) (it_dataset it)) (fun e' =>
          bindM (dehydrate_sub_value ops rec v g (it_value it) e') k)).
Proof.
  intros He Hi Hv Hk. eapply f_bind; [apply f_open; [exact He|]|].
  { intros x Hx Hn. apply (proj1 Hi). split; [tauto|exact Hn]. }
  intros e' He'. eapply f_bind; [eapply f_sub_value; eassumption|]. intros [] _. exact Hk.
Qed.

Lemma f_variants v g e n vs : ok_val v -> has n e -> (forall va, In va vs -> item_or n (va_item va)) -> forall sel,
  fine (fun _ => True) (dehydrate_variants ops rec v g e vs sel).
Proof.
  intros Hv He. induction vs as [|va vs IH]; intros Hvs sel; cbn [dehydrate_variants]; [now apply f_ret|].
  specialize (IH (fun va' H => Hvs va' (or_intror H))).
  pose proof (Hvs va (or_introl eq_refl)) as Hi.
  eapply f_bind; [apply f_env_intro, He|]. intros e' He'.
  eapply f_bind; [apply f_lift|].
  { eapply f_variant_dataset; [exact He'|]. intros x Hx Hn. apply (proj1 Hi). split; [tauto|exact Hn]. }
  intros d _. eapply f_bind; [eapply f_is_ok, f_sub_value; eassumption|]. intros ok _.
  destruct ok; [|apply IH]. destruct sel; [now apply f_raise|apply IH].
Qed.

Lemma f_entries g e n fs m : (forall k v, In (k, v) m -> ok_val v) -> has n e -> (forall k f, In (k, f) fs -> item_or n (f_item f)) ->
  fine (fun _ => True) (dehydrate_entries ops rec g e fs m).
Proof.
  intros Hm He Hfs. induction m as [|[k v] m IH]; cbn [dehydrate_entries]; [now apply f_ret|].
  destruct (bt_get k fs) as [f|] eqn:E; [|now apply f_raise]. apply bt_get_In in E.
  eapply fine_item; [exact He|eapply Hfs, E|eapply Hm; now left|]. apply IH. intros k' v' Hin. eapply Hm. right. exact Hin.
Qed.

Lemma f_items g e n it vs : (forall v, In v vs -> ok_val v) -> has n e -> item_or n it ->
  fine (fun _ => True) (dehydrate_items ops rec g e it vs).
Proof.
  intros Hvs He Hi. induction vs as [|v vs IH]; cbn [dehydrate_items]; [now apply f_ret|].
  eapply fine_item; [exact He|exact Hi|apply Hvs; now left|]. apply IH. intros v' Hin. apply Hvs. now right.
Qed.

Lemma f_nodes g e n node tl vs : (forall v, In v vs -> ok_val v) -> has n e -> item_or (n + 2) node ->
  (forall x, tl = PVar x -> n <= x -> undeclared_in l x) -> forall head,
  fine (fun _ => True) (dehydrate_nodes ops rec g e node tl head vs).
Proof.
  intros Hvs He Hi Ht. induction vs as [|v vs IH]; intro head; cbn [dehydrate_nodes]; [now apply f_ret|].
  eapply (f_bind (fun _ => True)).
  { destruct vs; [apply f_lift; eapply f_pattern; eassumption|apply f_new]. }
  intros rest _. eapply fine_item; [|exact Hi|apply Hvs; now left|].
  - unfold has in *. simpl. rewrite app_length. simpl. lia.
  - apply IH. intros v' Hin. apply Hvs. now right.
Qed.

Lemma f_tuple g e n vs : (forall v, In v vs -> ok_val v) -> has n e -> forall its, (forall it, In it its -> item_or n it) ->
  fine (fun _ => True) (dehydrate_tuple ops rec g e its vs).
Proof.
  intros Hvs He. induction vs as [|v vs IH]; intros [|it its] Hi; cbn [dehydrate_tuple];
    try (now apply f_raise); [now apply f_ret|].
  eapply fine_item; [exact He|apply Hi; now left|apply Hvs; now left|]. apply IH.
  - intros v' Hin. apply Hvs. now right.
  - intros it' H. apply Hi. now right.
Qed.

Lemma f_check h fs m : l = ProductL h fs ->
  fine (fun _ => True) (check_required ref m fs).
Proof.
  intro El. assert (forall k f, In (k, f) fs -> In (k, f) fs) as Hin by auto. revert Hin.
  enough (forall fs', (forall k f, In (k, f) fs' -> In (k, f) fs) ->
    fine (fun _ => True) (check_required ref m fs')) as G by (intros _; now apply G).
  induction fs' as [|[k f] fs' IH]; intro Hin; cbn [check_required]; [now apply f_ret|].
  destruct (f_required f) eqn:Er; simpl; [|apply IH; intros; apply Hin; now right].
  destruct (bt_get k m) as [v|] eqn:E; [apply IH; intros; apply Hin; now right|].
  apply f_raise. eapply E_missing; [exact H_ok|rewrite H_reg, El; reflexivity|apply Hin; now left|exact Er|].
  now apply bt_get_None in E.
Qed.

Lemma f_layout v g inputs : ok_val v -> (forall n, input_count l = Some n -> length inputs = n) ->
  fine (fun _ => True) (dehydrate_layout ops rec v g ref l inputs).
Proof.
  intros Hval Hn. pose proof (fun r => ok_uses ref l r H_ok H_reg) as Hu.
  pose proof (fun k h r dt v m st w st' Hv E => W_literal ref k h r dt v m st w st' H_ok Hv
                (eq_trans H_reg (f_equal Some E))) as HW.
  assert (has (length inputs) (Root inputs)) as He by reflexivity.
  assert (exists l', l' = l) as [l' El] by eauto.
  enough (fine (fun _ => True) (dehydrate_layout ops rec v g ref l' inputs)) as G by now rewrite El in G.
  rewrite <- El in Hn, Hu.
  assert (forall x, undeclared_in l' x -> undeclared_in l x) as HU by (now rewrite El).
  destruct l' as [| |h c|k h r dt|h r pat|h fs|h vs|h it|h node hd tl|h its];
    cbn [dehydrate_layout]; cbn [input_count] in Hn; try rewrite (Hn _ eq_refl) in He.
  - now apply f_raise.
  - now apply f_ret.
  - destruct (eqb v c); [|now apply f_raise].
    eapply f_bind; [apply f_open; [exact He|]|intros; now apply f_ret].
    intros x Hx Hle. apply HU. split; assumption.
  - destruct v as [v|m|vs]; try (now apply f_raise).
    destruct (dehydrate_literal ops k v (into ops dt)) as [m|] eqn:E; [|now apply f_raise].
    eapply f_bind; [apply f_open; [exact He|]|].
    { intros x Hx Hle. apply HU. left. split; assumption. }
    intros e He'. eapply f_bind; [apply f_lift; eapply f_pattern; [exact He'|]|].
    { intros x -> Hle. apply HU. right. split; [reflexivity|exact Hle]. }
    intros r' _. eapply (f_bind (fun _ => True)); [|intros lit _ st; exact Logic.I].
    intro st. destruct (m st) as [o st'] eqn:Em. simpl. destruct o; simpl; auto.
    + exfalso. clear -E Em. destruct k, v; try discriminate; simpl in E; injection E as <-.
      * unfold dehydrate_boolean in Em. destruct (existsb _ _); discriminate.
      * unfold dehydrate_number in Em. destruct (number_literal _ _); discriminate.
      * discriminate.
      * unfold dehydrate_text_string in Em. destruct (iris_in _ _ _); discriminate.
    + eapply HW; [exact Hval|symmetry; exact El|exact E|exact Em].
  - destruct v as [[| | | |s]|m|vs]; try (now apply f_raise).
    eapply f_bind; [apply f_open; [exact He|]|].
    { intros x Hx Hle. apply HU. left. split; assumption. }
    intros e He'. eapply f_bind; [apply f_lift; eapply f_pattern; [exact He'|]|].
    { intros x -> Hle. apply HU. right. split; [reflexivity|exact Hle]. }
    intros r' _. destruct (is_iri s); [intro st; exact Logic.I|now apply f_raise].
  - destruct v as [v|m|vs]; try (now apply f_raise).
    eapply f_bind; [apply f_open; [exact He|]|].
    { intros x Hx Hle. apply HU. left. split; assumption. }
    intros e He'. eapply f_bind; [eapply f_entries; [intros k v Hkv; eapply ok_entry; eassumption|exact He'|]|].
    { intros k f Hin. split; [|apply Hu; econstructor; exact Hin].
      intros x Hx. apply HU. right. exists k, f. split; assumption. }
    intros _ _. eapply f_check. symmetry. exact El.
  - eapply f_bind; [apply f_open; [exact He|]|].
    { intros x Hx Hle. apply HU. left. split; assumption. }
    intros e He'. eapply f_bind; [eapply f_variants; [exact Hval|exact He'|]|].
    { intros va Hin. split; [|apply Hu; econstructor; exact Hin].
      intros x Hx. apply HU. right. exists va. split; assumption. }
    intros [d|] _; [intro st; exact Logic.I|now apply f_raise].
  - destruct v as [v|m|vs]; try (now apply f_raise).
    eapply f_bind; [apply f_open; [exact He|]|].
    { intros x Hx Hle. apply HU. left. split; assumption. }
    intros e He'. eapply f_items; [intros v Hin; eapply ok_item; eassumption|exact He'|]. split; [|apply Hu; constructor].
    intros x Hx. apply HU. now right.
  - destruct v as [v|m|vs]; try (now apply f_raise).
    eapply f_bind; [apply f_open; [exact He|]|].
    { intros x Hx Hle. apply HU. left. split; assumption. }
    intros e He'. eapply f_bind; [apply f_lift; eapply f_pattern; [exact He'|]|].
    { intros x -> Hle. apply HU. right. left. split; [now left|exact Hle]. }
    intros head _. eapply f_nodes; [intros v Hin; eapply ok_item; eassumption|exact He'| |].
    + split; [|apply Hu; constructor]. intros x Hx. apply HU. right. now right.
    + intros x -> Hle. apply HU. right. left. split; [now right|exact Hle].
  - destruct v as [v|m|vs]; try (now apply f_raise).
    eapply f_bind; [apply f_open; [exact He|]|].
    { intros x Hx Hle. apply HU. left. split; assumption. }
    intros e He'. eapply f_tuple; [intros v Hin; eapply ok_item; eassumption|exact He'|].
    intros it Hin. split; [|apply Hu; econstructor; exact Hin].
    intros x Hx. apply HU. right. exists it. split; assumption.
Qed.
End Body.
End At.

Theorem dehydrate_fine fuel : forall v g ref inputs, ok_ref ref -> ok_val v ->
  fine (fun _ => True) (dehydrate_with ops reg fuel v g ref inputs).
Proof.
  induction fuel as [|fuel IH]; intros v g ref inputs Hr Hv; [intro st; exact Logic.I|].
  cbn [dehydrate_with]. unfold dehydrate_body. destruct (reg ref) as [l|] eqn:Hl.
  - destruct (input_count l) as [n|] eqn:Hn.
    + destruct (Nat.eqb_spec n (length inputs)) as [E|N].
      * apply f_layout; [exact Hr|exact Hl|exact IH|exact Hv|]. congruence.
      * apply f_raise. eapply E_count; eassumption.
    + apply f_layout; [exact Hr|exact Hl|exact IH|exact Hv|]. congruence.
  - apply f_raise. now apply E_not_found.
Qed.

End Outcomes.
