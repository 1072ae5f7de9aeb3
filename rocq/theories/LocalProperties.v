(** * Only the layouts that are reached matter (C94) *)

From Coq Require Import String List Bool Arith NArith Permutation Lia.
Import ListNotations.
From Verif Require Import Base BaseProofs Orders PatternModel MatchingModel MatchingSpec ValueModel LayoutModel LayoutSpec HydrateModel TermModel
  DehydrateModel DehydrateSpec RegistryProperties UndefinedProperties.
Open Scope list_scope.
Open Scope nat_scope.

(** The two registries have the same definition of [ref] and of every layout reached from it. *)
Definition agree_from {R} (reg reg' : registry R) (ref : R) : Prop := forall r, reaches reg ref r -> reg r = reg' r.

Lemma agree_uses {R} (reg reg' : registry R) ref l r : agree_from reg reg' ref -> reg ref = Some l -> uses l r -> agree_from reg reg' r.
Proof. intros A E U r' H. apply A. eapply reaches_step; eauto. Qed.

Lemma agree_reaches {R} (reg reg' : registry R) ref r : agree_from reg reg' ref -> reaches reg' ref r -> reaches reg ref r.
Proof.
  intros A H. induction H as [r|r l r' r'' E U _ IH]; [constructor|]. assert (E' : reg r = Some l) by (rewrite (A r (reaches_refl reg r)); exact E).
  eapply reaches_step; [exact E'|exact U|]. apply IH. eapply agree_uses; eauto.
Qed.
Lemma agree_sym {R} (reg reg' : registry R) ref : agree_from reg reg' ref -> agree_from reg' reg ref.
Proof. intros A r H. symmetry. apply A. eapply agree_reaches; eauto. Qed.

Section Hydration.
Context {R : Type} {CR : Cmp R} {I : Interp R} {X : Xsd}.
Variable D : dataset R.

Section Layout.
Variables rec rec' : option R -> R -> list R -> outcome (hy_error R) (typed_value R).
Definition same_at (r : R) : Prop := forall g inputs, rec g r inputs = rec' g r inputs.

Lemma format_local g vf s : same_at (vf_layout vf) -> hydrate_format rec g vf s = hydrate_format rec' g vf s.
Proof.
  intro H. unfold hydrate_format. destruct (select_inputs (vf_input vf) s); cbn [bind]; try reflexivity.
  destruct (select_graph g (vf_graph vf) s); cbn [bind]; try reflexivity. apply H.
Qed.
Lemma fields_local g ref s fs : (forall k f, In (k, f) fs -> same_at (vf_layout (it_value (f_item f)))) -> forall record,
  hydrate_fields D rec g ref s fs record = hydrate_fields D rec' g ref s fs record.
Proof.
  induction fs as [|[k f] fs IH]; intros H record; cbn [hydrate_fields]; [reflexivity|].
  assert (IH' := IH (fun k f I => H k f (or_intror I))).
  destruct (match_unique D g (it_dataset (f_item f)) (sintro s (it_intro (f_item f))) (FKey ref k)) as [[s'|]|e|w|]; cbn [bind]; try reflexivity.
  - rewrite (format_local g (it_value (f_item f)) s' (H k f (or_introl eq_refl))). destruct (hydrate_format rec' g (it_value (f_item f)) s'); cbn [bind]; auto.
  - destruct (f_required f); auto.
Qed.
Lemma items_local g vf ms : same_at (vf_layout vf) -> hydrate_items rec g vf ms = hydrate_items rec' g vf ms.
Proof.
  intro H. induction ms as [|[w|s] ms IH]; cbn [hydrate_items]; try reflexivity. now rewrite (format_local g vf s H), IH.
Qed.
Lemma nodes_local fuel g ref s node : same_at (vf_layout (it_value node)) -> forall head tail,
  hydrate_nodes D rec fuel g ref s node head tail = hydrate_nodes D rec' fuel g ref s node head tail.
Proof.
  intro H. induction fuel as [|fuel IH]; intros head tail; cbn [hydrate_nodes]; [reflexivity|]. destruct (eqb head tail); [reflexivity|].
  destruct (match_required D g (it_dataset node) (sintro (spush s (Some head)) (1 + it_intro node)) (FOrderedListNode ref head tail)) as [s'|e|w|];
    cbn [bind]; try reflexivity.
  rewrite (format_local g _ s' H). destruct (hydrate_format rec' g (it_value node) s'); cbn [bind]; try reflexivity.
  destruct (sget s' (length s + 1)); cbn [unwrap bind]; [|reflexivity]. now rewrite IH.
Qed.
Lemma tuple_local g ref s its : (forall it, In it its -> same_at (vf_layout (it_value it))) -> forall n,
  hydrate_tuple D rec g ref s n its = hydrate_tuple D rec' g ref s n its.
Proof.
  induction its as [|it its IH]; intros H n; cbn [hydrate_tuple]; [reflexivity|].
  assert (IH' := IH (fun it I => H it (or_intror I))).
  destruct (match_required D g (it_dataset it) (sintro s (it_intro it)) (FSizedListItem ref n)) as [s'|e|w|]; cbn [bind]; try reflexivity.
  rewrite (format_local g _ s' (H it (or_introl eq_refl))), IH'. reflexivity.
Qed.

Lemma layout_local fuel g ref l inputs : (forall r, uses l r -> same_at r) ->
  hydrate_layout D rec fuel g ref l inputs = hydrate_layout D rec' fuel g ref l inputs.
Proof.
  intro H. destruct l; cbn [hydrate_layout]; try reflexivity; destruct (match_header D g ref h inputs) as [s|e|w|]; cbn [bind]; try reflexivity.
  - rewrite (fields_local g ref s fields); [reflexivity|]. intros k f IN. apply H. econstructor; eauto.
  - rewrite (variants_same D rec rec' g ref s variants); [reflexivity|]. intros va g' ins IN. apply H. now constructor.
  - rewrite (items_local g (it_value item)); [reflexivity|]. apply H. constructor.
  - destruct (into_resource (papply s head)); cbn [unwrap bind]; [|reflexivity]. destruct (into_resource (papply s tail)); cbn [unwrap bind]; [|reflexivity].
    rewrite (nodes_local fuel g ref s node); [reflexivity|]. apply H. constructor.
  - rewrite (tuple_local g ref s items); [reflexivity|]. intros it IN. apply H. now constructor.
Qed.
End Layout.

(** C94.  Hydration gives the same result with two registries that agree on the layouts reached from
    the given one, whatever else they contain … *)
Theorem C94_hydrate (reg reg' : registry R) : forall fuel g ref inputs, agree_from reg reg' ref ->
  hydrate_with D reg fuel g ref inputs = hydrate_with D reg' fuel g ref inputs.
Proof.
  induction fuel as [|fuel IH]; intros g ref inputs A; [reflexivity|]. cbn [hydrate_with]. unfold hydrate_body.
  rewrite <- (A ref (reaches_refl reg ref)). destruct (reg ref) as [l|] eqn:E; [|reflexivity]. cbn [ok_or bind].
  assert (H : hydrate_layout D (hydrate_with D reg fuel) fuel g ref l inputs = hydrate_layout D (hydrate_with D reg' fuel) fuel g ref l inputs).
  { apply layout_local. intros r U g' ins. apply IH. eapply agree_uses; eauto. }
  now rewrite H.
Qed.
End Hydration.

Section Dehydration.
Context {Q S I : Type} {CS : Cmp S} {X : Xsd} {IS : IriSyntax}.
Variable ops : interpretation Q S I.
Notation M := (M (Q := Q) (S := S) (I := I)).

Section Layout.
Variables rec rec' : value -> option S -> Q -> list S -> M unit.
Definition dsame_at (r : Q) : Prop := forall v g inputs st, rec v g r inputs st = rec' v g r inputs st.

Lemma sub_value_local v g vf e st : dsame_at (vf_layout vf) ->
  dehydrate_sub_value ops rec v g vf e st = dehydrate_sub_value ops rec' v g vf e st.
Proof.
  intro H. unfold dehydrate_sub_value. apply bindM_ext; [reflexivity|intros ins st']. apply bindM_ext; [reflexivity|intros g' st'']. apply H.
Qed.
Lemma entries_local g e fields : (forall k f, bt_get k fields = Some f -> dsame_at (vf_layout (it_value (f_item f)))) -> forall entries st,
  dehydrate_entries ops rec g e fields entries st = dehydrate_entries ops rec' g e fields entries st.
Proof.
  intro H. induction entries as [|[k v] entries IH]; intro st; cbn [dehydrate_entries]; [reflexivity|].
  destruct (bt_get k fields) as [f|] eqn:E; [|reflexivity].
  apply bindM_ext; [reflexivity|intros e' st']. apply bindM_ext; [apply sub_value_local; eauto|intros _ st'']. apply IH.
Qed.
Lemma ditems_local g e it : dsame_at (vf_layout (it_value it)) -> forall l st,
  dehydrate_items ops rec g e it l st = dehydrate_items ops rec' g e it l st.
Proof.
  intro H. induction l as [|v l IH]; intro st; cbn [dehydrate_items]; [reflexivity|].
  apply bindM_ext; [reflexivity|intros e' st']. apply bindM_ext; [now apply sub_value_local|intros _ st'']. apply IH.
Qed.
Lemma dnodes_local g e node tail : dsame_at (vf_layout (it_value node)) -> forall l head st,
  dehydrate_nodes ops rec g e node tail head l st = dehydrate_nodes ops rec' g e node tail head l st.
Proof.
  intro H. induction l as [|v l IH]; intros head st; cbn [dehydrate_nodes]; [reflexivity|].
  apply bindM_ext; [reflexivity|intros rest st1]. apply bindM_ext; [reflexivity|intros e' st2].
  apply bindM_ext; [now apply sub_value_local|intros _ st3]. apply IH.
Qed.
Lemma dtuple_local g e : forall items, (forall it, In it items -> dsame_at (vf_layout (it_value it))) -> forall l st,
  dehydrate_tuple ops rec g e items l st = dehydrate_tuple ops rec' g e items l st.
Proof.
  intros items H l. revert items H. induction l as [|v l IH]; intros [|it items] H st; cbn [dehydrate_tuple]; try reflexivity.
  apply bindM_ext; [reflexivity|intros e' st']. apply bindM_ext; [apply sub_value_local, H; now left|intros _ st'']. apply IH.
  intros it' IN. apply H. now right.
Qed.

Lemma dlayout_local v g ref l inputs st : (forall r, uses l r -> dsame_at r) ->
  dehydrate_layout ops rec v g ref l inputs st = dehydrate_layout ops rec' v g ref l inputs st.
Proof.
  intro H. destruct l; cbn [dehydrate_layout]; try reflexivity.
  - destruct v; try reflexivity. apply bindM_ext; [reflexivity|intros e st']. apply bindM_ext; [|reflexivity]. apply entries_local.
    intros k f E. apply H. econstructor. eapply bt_get_In; eauto.
  - apply bindM_ext; [reflexivity|intros e st']. apply bindM_ext; [|reflexivity]. apply dvariants_same. intros va v' g' ins st1 IN. apply H. now constructor.
  - destruct v; try reflexivity. apply bindM_ext; [reflexivity|intros e st']. apply ditems_local. apply H. constructor.
  - destruct v; try reflexivity. apply bindM_ext; [reflexivity|intros e st']. apply bindM_ext; [reflexivity|intros hd st'']. apply dnodes_local. apply H. constructor.
  - destruct v; try reflexivity. apply bindM_ext; [reflexivity|intros e st']. apply dtuple_local. intros it IN. apply H. now constructor.
Qed.
End Layout.

(** … and so does dehydration, also when it fails. *)
Theorem C94_dehydrate (reg reg' : registry Q) : forall fuel v g ref inputs st, agree_from reg reg' ref ->
  dehydrate_with ops reg fuel v g ref inputs st = dehydrate_with ops reg' fuel v g ref inputs st.
Proof.
  induction fuel as [|fuel IH]; intros v g ref inputs st A; [reflexivity|]. cbn [dehydrate_with]. unfold dehydrate_body.
  rewrite <- (A ref (reaches_refl reg ref)). destruct (reg ref) as [l|] eqn:E; [|reflexivity].
  assert (H : dehydrate_layout ops (dehydrate_with ops reg fuel) v g ref l inputs st = dehydrate_layout ops (dehydrate_with ops reg' fuel) v g ref l inputs st).
  { apply dlayout_local. intros r U v' g' ins st'. apply IH. eapply agree_uses; eauto. }
  destruct (input_count l); [|exact H]. destruct (Nat.eqb n (length inputs)); [exact H|reflexivity].
Qed.
End Dehydration.

Theorem C94_dehydrate_public {Gn} {X : Xsd} {IS : IriSyntax} order (opts : options Gn) (reg reg' : registry term) fuel v ref :
  agree_from reg reg' ref -> dehydrate order reg fuel v ref opts = dehydrate order reg' fuel v ref opts.
Proof.
  intros A. unfold dehydrate. rewrite <- (A ref (reaches_refl reg ref)). destruct (reg ref) as [l|] eqn:E; [|reflexivity]. cbn [ok_or bind].
  now rewrite (C94_dehydrate input_interpretation reg reg' fuel v None ref _ _ A).
Qed.

(** In particular: defining a layout that is not reached changes nothing, and a registry searched
    after the first one is only used for the layouts that the first one reaches and does not define. *)
Section Registries.
Context {R : Type} {CR : Cmp R} {LR : CmpLaws R}.

Lemma agree_insert (m : layouts R) r l ref : ~ reaches (layouts_get m) ref r ->
  agree_from (layouts_get m) (layouts_get (fst (layouts_insert r l m))) ref.
Proof.
  intros N r' H. unfold layouts_insert, layouts_get. cbn [fst]. rewrite bt_insert_get. destruct (eqb_spec r' r) as [->|]; [contradiction|reflexivity].
Qed.
Lemma agree_union (a b : registry R) ref : (forall r, reaches a ref r -> a r <> None) -> agree_from a (union_get (reg_with a b)) ref.
Proof. intros C r H. specialize (C r H). unfold union_get, reg_with. cbn [u_0 u_1]. destruct (a r); [reflexivity|contradiction]. Qed.

Theorem C94_insert {I : Interp R} {X : Xsd} {S J : Type} {CS : Cmp S} {IS : IriSyntax} (ops : interpretation R S J) (m : layouts R) r l ref :
  ~ reaches (layouts_get m) ref r ->
  (forall (D : dataset R) fuel g inputs,
     hydrate_with D (layouts_get (fst (layouts_insert r l m))) fuel g ref inputs = hydrate_with D (layouts_get m) fuel g ref inputs) /\
  (forall fuel v g inputs st,
     dehydrate_with ops (layouts_get (fst (layouts_insert r l m))) fuel v g ref inputs st = dehydrate_with ops (layouts_get m) fuel v g ref inputs st).
Proof.
  intros N. split; intros; symmetry; [apply C94_hydrate|apply C94_dehydrate]; now apply agree_insert.
Qed.
Theorem C94_union {I : Interp R} {X : Xsd} {S J : Type} {CS : Cmp S} {IS : IriSyntax} (ops : interpretation R S J) (a b : registry R) ref :
  (forall r, reaches a ref r -> a r <> None) ->
  (forall (D : dataset R) fuel g inputs,
     hydrate_with D (union_get (reg_with a b)) fuel g ref inputs = hydrate_with D a fuel g ref inputs) /\
  (forall fuel v g inputs st,
     dehydrate_with ops (union_get (reg_with a b)) fuel v g ref inputs st = dehydrate_with ops a fuel v g ref inputs st).
Proof.
  intros N. split; intros; symmetry; [apply C94_hydrate|apply C94_dehydrate]; now apply agree_union.
Qed.
End Registries.
