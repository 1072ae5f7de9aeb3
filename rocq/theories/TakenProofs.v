(** * What is read may be written (C120): proofs *)

From Coq Require Import String List Bool Arith NArith Lia Permutation Sorted Qcanon.
Import ListNotations.
From Verif Require Import Base BaseProofs Orders PatternModel MatchingModel MatchingSpec ValueModel ValueProofs LayoutModel LayoutSpec
  HydrateModel HydrateSpec HydrateSound DehydrateModel JsonProperties AcceptSpec TakenSpec.
Open Scope list_scope.
Open Scope nat_scope.

Lemma Forall2_len {A B} (P : A -> B -> Prop) l l' : Forall2 P l l' -> length l = length l'.
Proof. induction 1; cbn; congruence. Qed.

Section Taken.
Context {R : Type} {CR : Cmp R} {CRL : CmpLaws R} {IR : Interp R} {X : Xsd} {IS : IriSyntax}.
Variable G : quad R -> Prop.
Variable reg : registry R.
Hypothesis RS : registry_sorted reg.
Hypothesis DR : declared_registry reg.
Hypothesis DS : decided_sums reg.

Lemma own_declared ref l v x : reg ref = Some l -> own_var l v x -> x < own_count l.
Proof.
  intros H V. destruct (Nat.lt_ge_cases x (own_count l)) as [L|L]; [exact L|]. destruct (DR _ _ x H).
  destruct V as [(h & Eh & V)|V]; destruct l; cbn in *; try discriminate; try contradiction;
    try (injection Eh as ->); unfold header_undeclared, own_count in *; cbn in *; auto; try (left; split; auto; fail).
  destruct V as [V|[V _]]; auto.
Qed.

Lemma part_declared ref l v d it w x : reg ref = Some l -> part l v d it w ->
  var_of (it_dataset it) x \/ format_var (it_value it) x -> x < d + it_intro it.
Proof.
  intros H P V. destruct (Nat.lt_ge_cases x (d + it_intro it)) as [L|L]; [exact L|]. destruct (DR _ _ x H).
  assert (U : item_undeclared d it x) by (unfold item_undeclared, format_var in *; tauto).
  destruct P; cbn; eauto 6. right. exists it. split; [eapply nth_error_In; eauto|exact U].
Qed.

Definition fine (vf : vformat R) (v : typed_value R) : Prop :=
  ids_valid v -> Takes reg (vf_layout vf) (length (vf_input vf)) (into_untyped v).

Lemma means_taken : forall g ref inputs v, Means G reg false g ref inputs v -> ids_valid v -> Takes reg ref (length inputs) (into_untyped v).
Proof.
  destruct (semantics_ind R CR IR X G reg false
    (fun g ref inputs v => ids_valid v -> Takes reg ref (length inputs) (into_untyped v))
    (fun _ _ _ => True)
    (fun g s vf v => fine vf v)
    (fun _ _ _ => True) (fun _ _ _ => True)
    (fun g s fs m =>
       (forall k v, In (k, v) m -> exists f, In (k, f) fs /\ fine (it_value (f_item f)) v) /\
       (forall k f, In (k, f) fs -> f_required f = true -> In k (map fst m)))
    (fun _ _ _ => True)
    (fun g s its vs => length vs = length its /\
       (forall i it v, nth_error its i = Some it -> nth_error vs i = Some v -> fine (it_value it) v))
    (fun _ _ _ => True)
    (fun g vf sols vs => forall v, In v vs -> fine vf v)
    (fun g s node hd tl vs => forall v, In v vs -> fine (it_value node) v)
    (fun _ _ _ _ _ => True) (fun _ _ _ => True) (fun _ _ _ => True)
    (fun g s i vs j v => exists va, i <= j /\ nth_error vs (j - i) = Some va /\ fine (it_value (va_item va)) v)
    (fun _ _ _ _ => True)) as (I1 & _); [..|exact I1]; auto.
  - intros g ref inputs [E _] _. now constructor.
  - intros g ref inputs h c s [E A] _ _. rewrite (A 1 eq_refl). cbn. eapply T_layout; eauto; try exact Logic.I; try reflexivity; try discriminate.
    + intros x. eapply own_declared; eauto.
    + intros d it w x P. eapply part_declared; eauto.
    + intros d it w P. inversion P.
  - intros g ref inputs k h res dt s r pre l post ty t [E A] _ _ _ _ _ _ DE _. rewrite (A 1 eq_refl).
    eapply T_layout; eauto; try exact Logic.I; try reflexivity; try discriminate.
    + intros x. eapply own_declared; eauto.
    + inversion DE; subst; cbn; eexists; split; try reflexivity; exact Logic.I.
    + intros d it w x P. eapply part_declared; eauto.
    + intros d it w P. inversion P.
  - intros g ref inputs h res pat s r iri [E A] _ _ _ V. rewrite (A 1 eq_refl).
    eapply T_layout; eauto; try exact Logic.I; try reflexivity; try discriminate.
    + intros x. eapply own_declared; eauto.
    + cbn. exists iri. split; [reflexivity|]. apply V. constructor.
    + intros d it w x P. eapply part_declared; eauto.
    + intros d it w P. inversion P.
  - intros g ref inputs h fs s m [E A] _ F [F1 F2] V. rewrite (A (h_input h) eq_refl).
    pose proof (RS _ _ E) as SF. cbn in SF. pose proof (Fields_sorted _ _ _ _ _ _ _ F SF) as SM. cbn [into_untyped].
    assert (MK : map fst (map (fun kv : value * typed_value R => (fst kv, into_untyped (snd kv))) m) = map fst m) by (rewrite map_map; reflexivity).
    rewrite bt_collect_sorted by (rewrite MK; exact SM).
    eapply T_layout; eauto; try exact Logic.I; try reflexivity; try discriminate.
    + intros x. eapply own_declared; eauto.
    + cbn. eexists. split; [reflexivity|]. rewrite MK. intros k Hk. apply in_map_iff in Hk as ([k' v] & <- & Hk).
      destruct (F1 _ _ Hk) as (f & Hf & _). exact (in_map fst _ _ Hf).
    + intros h' fs' m' k f [= <- <-] [= <-] Hf Rf. rewrite MK. eapply F2; eauto.
    + intros d it w x P. eapply part_declared; eauto.
    + intros d it w P. inversion P as [? ? ? k f ? Hf Hw| | |]; subst. apply in_map_iff in Hw as ([k' v] & [= -> <-] & Hv).
      destruct (F1 _ _ Hv) as (f' & Hf' & FI).
      assert (f' = f) as -> by (apply bt_get_wf in Hf, Hf'; [congruence|exact SF..]).
      apply FI. intros i Hi. apply V. econstructor; eauto.
  - intros g ref inputs h vs s i v [E A] _ _ (va & _ & N & FI) V. rewrite Nat.sub_0_r in N. rewrite (A (h_input h) eq_refl). cbn [into_untyped].
    assert (T : Variant_takes reg (h_input h + h_intro h) (va_item va) (into_untyped v)).
    { constructor; [|apply FI; intros j Hj; apply V; now constructor].
      intros x Vx. destruct (Nat.lt_ge_cases x (h_input h + h_intro h + it_intro (va_item va))) as [L|L]; [exact L|]. destruct (DR _ _ x E). right. exists va.
      split; [eapply nth_error_In; exact N|]. unfold item_undeclared, format_var in *. tauto. }
    eapply T_choice; eauto.
    + intros x Vx. assert (x < own_count (SumL h vs)) as L; [|exact L]. eapply (own_declared ref _ (VLit LUnit)); [exact E|]. left. exists h. auto.
    + intros vb x Hv Vx. destruct (Nat.lt_ge_cases x (h_input h + h_intro h + it_intro (va_item vb))) as [L|L]; [exact L|]. destruct (DR _ _ x E). right. exists vb.
      split; [exact Hv|]. unfold item_undeclared. tauto.
  - intros g ref inputs h it s sols vals l [E A] _ _ _ _ H Pm SS V. rewrite (A (h_input h) eq_refl).
    eapply T_layout; eauto; try exact Logic.I; try reflexivity; try discriminate.
    + intros x. eapply own_declared; eauto.
    + cbn. eauto.
    + intros d it' w x P. eapply part_declared; eauto.
    + intros d it' w P. inversion P; subst. match goal with Hw : In w _ |- _ => apply in_map_iff in Hw as (v & <- & Hv) end.
      apply H; [eapply Permutation_in; [symmetry; exact Pm|exact Hv]|]. intros i Hi. apply V. econstructor; eauto.
  - intros g ref inputs h node hd tl s head tail l [E A] _ _ _ _ H V. rewrite (A (h_input h) eq_refl).
    eapply T_layout; eauto; try exact Logic.I; try reflexivity; try discriminate.
    + intros x. eapply own_declared; eauto.
    + cbn. eauto.
    + intros d it' w x P. eapply part_declared; eauto.
    + intros d it' w P. inversion P; subst. match goal with Hw : In w _ |- _ => apply in_map_iff in Hw as (v & <- & Hv) end.
      apply H; [exact Hv|]. intros i Hi. apply V. econstructor; eauto.
  - intros g ref inputs h its s l [E A] _ _ [H1 H2] V. rewrite (A (h_input h) eq_refl).
    eapply T_layout; eauto; try exact Logic.I; try reflexivity; try discriminate.
    + intros x. eapply own_declared; eauto.
    + cbn. eexists. split; [reflexivity|]. now rewrite map_length.
    + intros d it' w x P. eapply part_declared; eauto.
    + intros d it' w P. inversion P as [| | |? ? ? i ? ? Hi Hw]; subst. rewrite nth_error_map in Hw.
      destruct (nth_error l i) as [v|] eqn:Ev; [|discriminate]. injection Hw as <-. eapply H2; eauto. intros j Hj. apply V. econstructor; [eapply nth_error_In; exact Ev|exact Hj].
  - intros g s vf inputs g' v [P _] _ T V. pose proof (Forall2_len _ _ _ P) as L. rewrite L. auto.
  - intros g s. split; [intros ? ? []|intros ? ? []].
  - intros g s k f fs s' v m _ _ C _ [F1 F2]. split.
    + intros k' v' [[= <- <-]|I]; [exists f; split; auto; now left|].
      destruct (F1 _ _ I) as (f' & I' & C'). exists f'. split; auto. now right.
    + intros k' f' [[= <- <-]|I] Q; [now left|]. right. eapply F2; eauto.
  - intros g s k f fs m _ NR _ [F1 F2]. split.
    + intros k' v' I. destruct (F1 _ _ I) as (f' & I' & C'). exists f'. split; auto. now right.
    + intros k' f' [[= <- <-]|I] Q; [congruence|]. eapply F2; eauto.
  - intros g s. split; auto. intros i it v H. destruct i; discriminate.
  - intros g s it its s' v vs _ _ C _ [H1 H2]. split; [simpl; auto|].
    intros [|i] it' v' E1 E2; simpl in E1, E2; [injection E1 as <-; injection E2 as <-; exact C|eauto].
  - intros g vf v [].
  - intros g vf s sols v vs _ C _ H v' [<-|I]; auto.
  - intros g s node tail v [].
  - intros g s node head tail s' v next vs _ _ _ C _ _ H v' [<-|I]; auto.
  - intros g s i va vs s' v _ _ C _ _. exists va. rewrite Nat.sub_diag. auto.
  - intros g s i va vs j v _ _ _ (va' & L & N & C). exists va'. split; [lia|]. split; auto.
    replace (j - i) with (Datatypes.S (j - Datatypes.S i)) by lia. auto.
Qed.
End Taken.
